(** * Declarations without expressions: no tab and no carriage return *)
From Verif Require Import Base Nom Ast Spec Layout Grammar Wf Nest Params.

Definition sound_char (c : char) : bool := negb (mem_char c [9; 13]%N).
(** without comments and quotes, [w] has neither tabs nor carriage returns *)
Definition clean (w : str) : Prop := no_comment_or_quote w -> forallb sound_char w = true.

Lemma clean_app a b : clean a -> clean b -> clean (a ++ b).
Proof. intros Ha Hb Hno. rewrite forallb_app. rewrite Ha, Hb; [reflexivity|eapply no_cq_suf, Hno|eapply no_cq_pre, Hno]. Qed.
Lemma clean_all (P : char -> bool) w : forallb (fun c => negb (P c)) [9; 13]%N = true -> forallb P w = true -> clean w.
Proof.
  intros HP H _. apply forallb_forall. intros c Hc. rewrite forallb_forall in H. apply H in Hc. unfold sound_char. apply negb_true_iff, not_true_iff_false.
  intros K. apply mem_char_In in K. rewrite forallb_forall in HP. apply HP in K. rewrite Hc in K. discriminate K.
Qed.
Lemma clean_lit w : forallb sound_char w = true -> clean w.
Proof. intros H _. exact H. Qed.
Lemma clean_cons (P Q : char -> bool) c w : forallb (fun c => negb (P c)) [9; 13]%N = true -> P c = true ->
  forallb (fun c => negb (Q c)) [9; 13]%N = true -> forallb Q w = true -> clean (c :: w).
Proof.
  intros HP Hc HQ H. apply (clean_app [c]); [apply (clean_all P); auto; cbn; rewrite Hc; reflexivity|apply (clean_all Q); auto].
Qed.
Lemma clean_lower n : lower_name n -> clean n.
Proof. intros [->|[(c & t & -> & H1 & H2) _]]; [apply clean_lit; reflexivity|]. apply (clean_cons is_lower is_name_char); auto. Qed.
Lemma clean_upper n : upper_name n -> clean n.
Proof. intros (c & t & -> & H1 & H2). apply (clean_cons is_upper is_name_char); auto. Qed.
Lemma clean_tyvar n : type_var_name n -> clean n.
Proof. intros (c & t & -> & H1 & H2). apply (clean_cons is_lower is_tyvar_char); auto. Qed.
Lemma clean_operator n : operator_name n -> clean n.
Proof. intros (_ & H & _). apply (clean_all is_op_char); auto. Qed.
Lemma clean_join sep q : clean sep -> Forall upper_name q -> clean (join sep q).
Proof.
  intros Hs H. induction H as [|x q Hx H IH]; [apply clean_lit; reflexivity|]. apply clean_upper in Hx. destruct q as [|y q]; [exact Hx|].
  change (join sep (x :: y :: q)) with (x ++ sep ++ join sep (y :: q)). apply clean_app; [exact Hx|]. apply clean_app; [exact Hs|exact IH].
Qed.
Lemma clean_dotted q : qualified q -> clean (dotted q).
Proof. intros [_ H]. apply clean_join; [apply clean_lit; reflexivity|exact H]. Qed.
Lemma clean_trivia t : trivia t -> clean t.
Proof.
  induction 1 as [|t _ IH|t _ IH|c t _ _ _ _].
  - apply clean_lit. reflexivity.
  - apply (clean_app [space]); [apply clean_lit; reflexivity|exact IH].
  - apply (clean_app [newline]); [apply clean_lit; reflexivity|exact IH].
  - intros (_ & _ & K & _). exfalso. apply K. exists [], (c ++ t). reflexivity.
Qed.
Lemma clean_lay R i t j : lay R i t j -> clean t.
Proof. intros [H _]. apply clean_trivia, H. Qed.
Lemma clean_olay i t : olay i t -> clean t.
Proof. intros [->|[j H]]; [apply clean_lit; reflexivity|eapply clean_lay, H]. Qed.
Lemma clean_lay0 t : lay0 t -> clean t.
Proof. intros [j H]. eapply clean_lay, H. Qed.
Lemma clean_ospaces b : all_spaces b = true -> clean b.
Proof. intros H. eapply clean_all; [|exact H]. reflexivity. Qed.
Lemma clean_spaces1 b : spaces1 b -> clean b.
Proof. intros [_ H]. apply clean_ospaces, H. Qed.
Lemma clean_ospnl b : ospnl b -> clean b.
Proof. intros H. eapply clean_all; [|exact H]. reflexivity. Qed.
Lemma clean_spnl1 b : spnl1 b -> clean b.
Proof. intros [_ H]. apply clean_ospnl, H. Qed.
Lemma clean_digits d : digits1 d -> clean d.
Proof. intros [_ H]. eapply clean_all; [|exact H]. reflexivity. Qed.
Create HintDb clean discriminated.
#[local] Hint Resolve clean_lower clean_upper clean_tyvar clean_operator clean_dotted clean_olay clean_lay0 clean_ospaces clean_spaces1
  clean_ospnl clean_spnl1 clean_digits : clean.
#[local] Hint Extern 2 (clean _) =>
  match goal with H : lay_ge _ ?t _ |- clean ?t => exact (clean_lay _ _ _ _ H)
                | H : lay_gt _ ?t _ |- clean ?t => exact (clean_lay _ _ _ _ H) end : clean.
Ltac cleaning := repeat first [ solve [eauto 3 with clean nocore] | solve [apply clean_lit; reflexivity] | apply clean_app ].

Lemma clean_types :
  (forall i t w, GTy i t w -> clean w) /\ (forall i t w, GTySimple i t w -> clean w) /\
  (forall i t w, GParam i t w -> clean w) /\ (forall i ts w, GParams i ts w -> clean w) /\
  (forall i ts w, GTyElems i ts w -> clean w) /\ (forall i fs w, GTyFields i fs w -> clean w) /\
  (forall i n t w, GTyField i n t w -> clean w) /\ (forall i t w, GAnn i t w -> clean w).
Proof.
  apply (GType_ind (fun _ _ w _ => clean w) (fun _ _ w _ => clean w) (fun _ _ w _ => clean w)
    (fun _ _ w _ => clean w) (fun _ _ w _ => clean w) (fun _ _ w _ => clean w)
    (fun _ _ _ w _ => clean w) (fun _ _ w _ => clean w)); intros; cleaning.
Qed.
Lemma clean_ty i t w : GTy i t w -> clean w.
Proof. apply clean_types. Qed.
Lemma clean_ann i t w : GAnn i t w -> clean w.
Proof. apply clean_types. Qed.
Lemma clean_params i t w : GParams i t w -> clean w.
Proof. apply clean_types. Qed.
#[local] Hint Resolve clean_ty clean_ann clean_params : clean.
Lemma clean_GExportItem e w : GExportItem e w -> clean w.
Proof. intros H; destruct H; cleaning. apply clean_join; [apply clean_lit; reflexivity|]. match goal with H : qualified _ |- _ => apply H end. Qed.
Lemma clean_GExportItems e w : GExportItems e w -> clean w.
Proof. induction 1; apply clean_GExportItem in H; cleaning. Qed.
Lemma clean_GExports e w : GExports e w -> clean w.
Proof. intros H; destruct H; [|apply clean_GExportItems in H0]; cleaning. Qed.
Lemma clean_GEffectFields f w : GEffectFields f w -> clean w.
Proof. induction 1; destruct H; cleaning. Qed.
Lemma clean_GConstructors i f w : GConstructors i f w -> clean w.
Proof. induction 1; cleaning. Qed.
#[local] Hint Resolve clean_GExports clean_GConstructors : clean.
Lemma clean_GAlias f w : GAlias f w -> clean w.
Proof. intros H; destruct H; cleaning. Qed.
Lemma clean_GExposing f w : GExposing f w -> clean w.
Proof. intros H; destruct H; cleaning. Qed.
Lemma clean_assoc a : clean (assoc_word a).
Proof. destruct a; apply clean_lit; reflexivity. Qed.
#[local] Hint Resolve clean_GAlias clean_GExposing clean_assoc : clean.

(** a statement that contains expressions *)
Definition has_expression (st : statement_ast) : bool := match st with Function_ _ | PortDeclaration _ _ _ => true | _ => false end.
Lemma clean_GStmt st w : GStmt st w -> has_expression st = false -> clean w.
Proof.
  intros H Hs. destruct H; try discriminate Hs;
    try solve [intros (_ & _ & K & _); exfalso; apply K; exists [], c; reflexivity];
    try solve [intros (_ & _ & _ & K); exfalso; apply K; exists [], (c ++ L "-}"); reflexivity]; cleaning.
  - destruct H4 as [[_ ->]|H4]; [apply clean_lit; reflexivity|eapply clean_GEffectFields, H4].
  - destruct H3; cleaning.
Qed.
