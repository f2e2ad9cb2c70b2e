(** * Tabs: where a tab is accepted in a declaration *)
From Verif Require Import Base Nom Ast Spec Layout Grammar Wf SoundE Nest Params.

Definition tab : char := 9%N.
(** Characters that stand for themselves: not a tab, a parenthesis, a brace or a quote *)
Definition still (c : char) : bool := negb (mem_char c (tab :: quote :: squote :: L "(){}")).

(** [scan d s d']: reading [s] from left to right leads from inside [d] parentheses and braces to inside
    [d'] of them; outside of all of them a tab stands only in the blanks right after an operator that has
    a blank before it, and between the parameters of a lambda ([params]). *)
Inductive scan : nat -> str -> nat -> Prop :=
| scan_end d : scan d [] d
| scan_still c d s d' : still c = true -> scan d s d' -> scan d (c :: s) d'
| scan_open o d s d' : o = C "(" \/ o = C "{" -> scan (S d) s d' -> scan d (o :: s) d'
| scan_close c d s d' : c = C ")" \/ c = C "}" -> scan d s d' -> scan (S d) (c :: s) d'
| scan_tab d s d' : scan (S d) s d' -> scan (S d) (tab :: s) d'
| scan_operator x o b d s d' : x = space \/ x = newline -> infix_operator o -> blanks b -> scan d s d' ->
    scan d (x :: o ++ b ++ s) d'
| scan_line_comment c d s d' : forallb not_newline c = true -> scan d s d' -> scan d (L "--" ++ c ++ s) d'
| scan_block_comment c d s d' : ~ (exists a b, c = a ++ L "-}" ++ b) -> scan d s d' ->
    scan d (L "{-" ++ c ++ L "-}" ++ s) d'
| scan_string c d s d' : string_content c -> scan d s d' -> scan d (quote :: c ++ quote :: s) d'
| scan_multi c d s d' : no_quote c -> scan d s d' ->
    scan d ([quote; quote; quote] ++ c ++ [quote; quote; quote] ++ s) d'
| scan_char w c d s d' : char_content w c -> scan d s d' -> scan d (squote :: w ++ squote :: s) d'
| scan_lambda h d t s d' : params d h -> scan d t d -> scan d s d' -> scan d (92%N :: h ++ t ++ L "->" ++ s) d'
with params : nat -> str -> Prop :=
| params_one d w : scan d w d -> params d w
| params_next d w b w' : scan d w d -> w <> [] -> (no_comment_or_quote w -> arrows_inside w /\ ups w = downs w) -> tabs1 b -> params d w' ->
    params d (w ++ b ++ w').

Lemma scan_app d a d' b d'' : scan d a d' -> scan d' b d'' -> scan d (a ++ b) d''.
Proof.
  intros H Hb. induction H; cbn [app]; rewrite <- ?app_assoc; cbn [app]; try (econstructor; eauto; fail). exact Hb.
Qed.
Lemma scan_forall (P : char -> bool) d w : (forall c, P c = true -> still c = true) -> forallb P w = true -> scan d w d.
Proof.
  intros HP. induction w as [|c w IH]; [constructor|]. cbn. intros H. apply andb_true_iff in H as [H1 H2]. apply scan_still; auto.
Qed.
Lemma still_of (P : char -> bool) : forallb (fun c => negb (P c)) (tab :: quote :: squote :: L "(){}") = true -> forall c, P c = true -> still c = true.
Proof.
  intros H c Hc. unfold still. apply negb_true_iff, not_true_iff_false. intros K. apply mem_char_In in K.
  rewrite forallb_forall in H. specialize (H c K). rewrite Hc in H. discriminate H.
Qed.
Lemma still_name : forall c, is_name_char c = true -> still c = true.
Proof. apply still_of. reflexivity. Qed.
Lemma still_op : forall c, is_op_char c = true -> still c = true.
Proof. apply still_of. reflexivity. Qed.
Lemma still_lower : forall c, is_lower c = true -> still c = true.
Proof. apply still_of. reflexivity. Qed.
Lemma still_upper : forall c, is_upper c = true -> still c = true.
Proof. apply still_of. reflexivity. Qed.
Lemma still_dec : forall c, is_dec c = true -> still c = true.
Proof. apply still_of. reflexivity. Qed.
Lemma still_tyvar : forall c, is_tyvar_char c = true -> still c = true.
Proof. apply still_of. reflexivity. Qed.

Definition nests (w : str) : Prop := forall d, scan d w d.
(** only inside parentheses or braces *)
Definition inner (w : str) : Prop := forall d, scan (S d) w (S d).
Lemma nests_inner w : nests w -> inner w.
Proof. intros H d. apply H. Qed.
Lemma nests_app a b : nests a -> nests b -> nests (a ++ b).
Proof. intros Ha Hb d. eapply scan_app; eauto. Qed.
Lemma nests_nil : nests [].
Proof. constructor. Qed.
Lemma nests_lit w : forallb still w = true -> nests w.
Proof. intros H d. apply (scan_forall still); auto. Qed.
Lemma scan_bracket o d s : o = C "(" \/ o = C "{" -> scan (S d) s d -> scan d (o :: s) d.
Proof. intros. eapply scan_open; eauto. Qed.
Lemma scan_last c d : c = C ")" \/ c = C "}" -> scan (S d) [c] d.
Proof. intros H. apply scan_close, scan_end. exact H. Qed.
Lemma scan_step w d s d' : nests w -> scan d s d' -> scan d (w ++ s) d'.
Proof. intros H H'. eapply scan_app; [apply H|exact H']. Qed.
Lemma scan_inner w d s d' : inner w -> scan (S d) s d' -> scan (S d) (w ++ s) d'.
Proof. intros H H'. eapply scan_app; [apply H|exact H']. Qed.

Lemma nests_lower n : lower_name n -> nests n.
Proof.
  intros [->|[(c & t & -> & H1 & H2) _]]; [apply nests_lit; reflexivity|].
  intros d0. apply scan_still; [apply still_lower, H1|]. eapply scan_forall; [apply still_name|exact H2].
Qed.
Lemma nests_upper n : upper_name n -> nests n.
Proof.
  intros (c & t & -> & H1 & H2) d0. apply scan_still; [apply still_upper, H1|].
  eapply scan_forall; [apply still_name|exact H2].
Qed.
Lemma nests_tyvar n : type_var_name n -> nests n.
Proof.
  intros (c & t & -> & H1 & H2) d0. apply scan_still; [apply still_lower, H1|].
  eapply scan_forall; [apply still_tyvar|exact H2].
Qed.
Lemma nests_operator n : operator_name n -> nests n.
Proof. intros (_ & H & _) d0. eapply scan_forall; [apply still_op|exact H]. Qed.
Lemma nests_infix n : infix_operator n -> nests n.
Proof. intros [->|[H _]]; [apply nests_lit; reflexivity|apply nests_operator, H]. Qed.
Lemma nests_join sep q : nests sep -> Forall upper_name q -> nests (join sep q).
Proof.
  intros Hs H. induction H as [|x q Hx H IH]; [apply nests_nil|]. apply nests_upper in Hx.
  destruct q as [|y q]; [exact Hx|].
  change (join sep (x :: y :: q)) with (x ++ sep ++ join sep (y :: q)).
  apply nests_app; [exact Hx|]. apply nests_app; [exact Hs|exact IH].
Qed.
Lemma nests_dotted q : qualified q -> nests (dotted q).
Proof. intros [_ H]. apply nests_join; [apply nests_lit; reflexivity|exact H]. Qed.
Lemma nests_digits d : digits1 d -> nests d.
Proof. intros [_ H] d0. eapply scan_forall; [apply still_dec|exact H]. Qed.
Lemma nests_sign d : sign_text d -> nests d.
Proof. intros [->|[->| ->]]; apply nests_lit; reflexivity. Qed.
Lemma nests_integer d : integer_text d -> nests d.
Proof. intros (sg & e & -> & H1 & H2). apply nests_app; [apply nests_sign, H1|apply nests_digits, H2]. Qed.
Lemma nests_float d : float_text d -> nests d.
Proof.
  intros (sg & e & f & -> & H1 & H2 & H3). apply nests_app; [apply nests_sign, H1|].
  apply nests_app; [apply nests_digits, H2|]. apply nests_app; [apply nests_lit; reflexivity|].
  apply nests_digits, H3.
Qed.
Lemma nests_trivia t : trivia t -> nests t.
Proof.
  intros H d0. induction H as [|t _ IH|t _ IH|c t Hc _ _ IH]; [constructor|apply scan_still; [reflexivity|exact IH]..|].
  apply scan_line_comment; assumption.
Qed.
Lemma nests_lay R i t j : lay R i t j -> nests t.
Proof. intros [H _]. apply nests_trivia, H. Qed.
Lemma nests_olay i t : olay i t -> nests t.
Proof. intros [->|[j H]]; [apply nests_nil|eapply nests_lay, H]. Qed.
Lemma closed_tail a t : closed (a ++ t) -> closed t.
Proof.
  unfold closed. destruct (has_newline t) eqn:E; [rewrite last_line_app_newline by exact E; auto|].
  rewrite last_line_app_plain, (last_line_no_newline t) by exact E. unfold all_spaces. rewrite forallb_app. intros H. apply andb_true_iff in H. apply H.
Qed.
Lemma scan_infix t o b d s d' : trivia t -> closed t -> t <> [] -> infix_operator o -> blanks b -> scan d s d' ->
  scan d (t ++ o ++ b ++ s) d'.
Proof.
  intros H Hc Hne Ho Hb Hs. induction H as [|t Ht IH|t Ht IH|c t Hc' Hl Ht IH]; [congruence|..].
  - destruct t as [|x t]; [apply (scan_operator space o b d s d'); auto|]. apply scan_still; [reflexivity|]. apply IH; [|discriminate].
    apply (closed_tail [space]), Hc.
  - destruct t as [|x t]; [apply (scan_operator newline o b d s d'); auto|]. apply scan_still; [reflexivity|]. apply IH; [|discriminate].
    apply (closed_tail [newline]), Hc.
  - rewrite <- !app_assoc. apply scan_line_comment; [exact Hc'|]. rewrite app_assoc in Hc. apply IH; [apply (closed_tail (L "--" ++ c)), Hc|].
    intros ->. rewrite app_nil_r in Hc. unfold closed in Hc. rewrite last_line_no_newline in Hc; [discriminate Hc|].
    apply not_true_iff_false. intros K. apply existsb_exists in K as (x & Hx & E). apply N.eqb_eq in E. subst x.
    destruct Hx as [Hx|[Hx|Hx]]; [discriminate Hx..|]. rewrite forallb_forall in Hc'. apply Hc' in Hx. discriminate Hx.
Qed.
Lemma nests_infix_step i t j o b : lay_ge i t j -> infix_operator o -> blanks1 b -> nests (t ++ o ++ b).
Proof. intros (H1 & H2 & H3 & _) Ho [_ Hb] d. rewrite <- (app_nil_r b). apply scan_infix; auto. constructor. Qed.
Lemma blank_inner c d s : is_blank c = true -> scan (S d) s (S d) -> scan (S d) (c :: s) (S d).
Proof.
  intros Hc H. destruct (N.eqb_spec c tab) as [->|Hn]; [apply scan_tab, H|]. apply scan_still; [|exact H].
  apply (still_of (fun c => is_blank c && negb (c =? tab)%N)); [reflexivity|]. rewrite Hc. apply negb_true_iff, N.eqb_neq, Hn.
Qed.
Lemma inner_blanks b : blanks b -> inner b.
Proof.
  intros H d. induction b as [|c b IH]; [constructor|]. apply andb_true_iff in H as [H1 H2]. apply blank_inner; auto.
Qed.
Lemma inner_blanks1 b : blanks1 b -> inner b.
Proof. intros [_ H]. apply inner_blanks, H. Qed.
Lemma nests_ospaces b : all_spaces b = true -> nests b.
Proof.
  intros H d0. eapply scan_forall; [|exact H]. cbn. intros c E. apply N.eqb_eq in E. subst c. reflexivity.
Qed.
Lemma nests_spaces1 b : spaces1 b -> nests b.
Proof. intros [_ H]. apply nests_ospaces, H. Qed.
Lemma nests_ospnl b : ospnl b -> nests b.
Proof.
  intros H d0. eapply scan_forall; [|exact H]. intros c E. apply orb_true_iff in E as [E|E];
    apply N.eqb_eq in E; subst c; reflexivity.
Qed.
Lemma nests_spnl1 b : spnl1 b -> nests b.
Proof. intros [_ H]. apply nests_ospnl, H. Qed.
Lemma nests_commas o : forallb (fun c => (c =? C ",")%N) o = true -> nests o.
Proof.
  intros H d0. eapply scan_forall; [|exact H]. cbn. intros c E. apply N.eqb_eq in E. subst c. reflexivity.
Qed.
Lemma nests_string s : string_content s -> nests ([quote] ++ s ++ [quote]).
Proof. intros H d0. apply (scan_string s d0 [] d0); [exact H|constructor]. Qed.
Lemma nests_multi s : no_quote s -> nests ([quote; quote; quote] ++ s ++ [quote; quote; quote]).
Proof. intros H d0. apply (scan_multi s d0 [] d0); [exact H|constructor]. Qed.
Lemma nests_char w c : char_content w c -> nests ([squote] ++ w ++ [squote]).
Proof. intros H d0. apply (scan_char w c d0 [] d0); [exact H|constructor]. Qed.
Lemma nests_access fs : Forall lower_name fs -> nests (flat_map (fun f => L "." ++ f) fs).
Proof.
  induction 1 as [|f fs H _ IH]; [apply nests_nil|]. cbn [flat_map].
  apply nests_app; [|exact IH]. apply nests_app; [apply nests_lit; reflexivity|apply nests_lower, H].
Qed.
Create HintDb tabs discriminated.
#[local] Hint Resolve nests_nil nests_lower nests_upper nests_tyvar nests_operator nests_infix nests_dotted
  nests_digits nests_integer nests_float nests_olay inner_blanks inner_blanks1 nests_inner nests_ospaces nests_spaces1
  nests_ospnl nests_spnl1 nests_commas nests_string nests_multi nests_char nests_access : tabs.
#[local] Hint Extern 2 (nests _) =>
  match goal with H : lay_ge _ ?t _ |- nests ?t => exact (nests_lay _ _ _ _ H)
                | H : lay_gt _ ?t _ |- nests ?t => exact (nests_lay _ _ _ _ H)
                | H : lay_eq _ ?t _ |- nests ?t => exact (nests_lay _ _ _ _ H) end : tabs.

(** One step through a right-nested concatenation. *)
Ltac bracket := first [left; reflexivity | right; reflexivity].
Ltac step :=
  lazymatch goal with
  | |- scan ?d (?a ++ ?b) _ =>
      first
      [ apply scan_step; [solve [eauto 3 with tabs nocore]|]
      | apply scan_step; [apply nests_lit; reflexivity|]
      | eapply scan_bracket; [bracket|]
      | apply scan_close; [bracket|]
      | apply scan_inner; [solve [eauto 3 with tabs nocore]|] ]
  | |- scan ?d ?a ?d => first [ refine ((_ : nests a) d); solve [eauto 3 with tabs nocore | apply nests_lit; reflexivity]
                              | match d with S ?e => refine ((_ : inner a) e); solve [eauto 3 with tabs nocore] end ]
  | |- scan (S ?d) [?c] ?d => apply scan_last; bracket
  end.
Ltac nesting := repeat step.

Lemma nests_types :
  (forall i t w, GTy i t w -> nests w) /\ (forall i t w, GTySimple i t w -> nests w) /\
  (forall i t w, GParam i t w -> nests w) /\ (forall i ts w, GParams i ts w -> nests w) /\
  (forall i ts w, GTyElems i ts w -> nests w) /\ (forall i fs w, GTyFields i fs w -> nests w) /\
  (forall i n t w, GTyField i n t w -> nests w) /\ (forall i t w, GAnn i t w -> nests w).
Proof.
  apply (GType_ind (fun _ _ w _ => nests w) (fun _ _ w _ => nests w) (fun _ _ w _ => nests w)
    (fun _ _ w _ => nests w) (fun _ _ w _ => nests w) (fun _ _ w _ => nests w)
    (fun _ _ _ w _ => nests w) (fun _ _ w _ => nests w)); intros;
    try solve [eauto 3 with tabs nocore]; intros d0; nesting.
Qed.
Lemma nests_ty i t w : GTy i t w -> nests w.
Proof. apply nests_types. Qed.
Lemma nests_ann i t w : GAnn i t w -> nests w.
Proof. apply nests_types. Qed.
Lemma nests_params i t w : GParams i t w -> nests w.
Proof. apply nests_types. Qed.
#[local] Hint Resolve nests_ty nests_ann nests_params : tabs.

Lemma nests_GVar e w : GVar e w -> nests w.
Proof. intros H; destruct H; try solve [eauto 3 with tabs nocore]; intros d0; nesting. Qed.
Lemma nests_GName n w : GName n w -> nests w.
Proof. intros H; destruct H; try solve [eauto 3 with tabs nocore]; intros d0; nesting. Qed.
Lemma inner_GNames fs w : GNames fs w -> inner w.
Proof. induction 1; intros d0; nesting. Qed.
Lemma nests_GNameRecord e w : GNameRecord e w -> nests w.
Proof.
  intros H; destruct H as [|fs w H]; [|apply inner_GNames in H]; intros d0; nesting.
  eapply scan_bracket; [bracket|apply scan_last; bracket].
Qed.
#[local] Hint Resolve nests_GVar nests_GName nests_GNameRecord : tabs.
Lemma nests_GSig i s w : GSig i s w -> nests w.
Proof. intros H; destruct H; intros d0; nesting. Qed.
#[local] Hint Resolve nests_GSig : tabs.

Lemma term_params i e w : GTerm i e w -> no_comment_or_quote w -> arrows_inside w /\ ups w = downs w.
Proof. intros H Hno. split; [eapply arrows_term; eassumption|eapply level_term; eassumption]. Qed.

Lemma nests_exprs :
  (forall i e w, GE i e w -> nests w) /\ (forall i e w, GApp i e w -> nests w) /\
  (forall i e w, GTerm i e w -> nests w) /\ (forall i e w, GList i e w -> nests w) /\
  (forall i es w, GElems i es w -> nests w) /\ (forall i e w, GTuple i e w -> nests w) /\
  (forall i es w, GTupleElems i es w -> inner w) /\ (forall i fs w, GFields i fs w -> nests w) /\
  (forall i n e w, GField i n e w -> nests w) /\ (forall i fs w, GUpdates i fs w -> inner w) /\
  (forall i n e w, GUpdate i n e w -> inner w) /\ (forall i es w, GLamArgs i es w -> forall d, params d w) /\
  (forall i es w, GEntries i es w -> nests w) /\ (forall i x w, GEntry i x w -> nests w) /\
  (forall i e w, GTarget i e w -> nests w) /\ (forall i f w, GFunc i f w -> nests w) /\
  (forall i d w, GDef i d w -> nests w) /\ (forall i es w, GDefArgs i es w -> nests w) /\
  (forall i bs w, GBranches i bs w -> nests w) /\ (forall i p e w, GBranch i p e w -> nests w).
Proof.
  apply (GExpr_ind
    (fun _ _ w _ => nests w) (fun _ _ w _ => nests w) (fun _ _ w _ => nests w) (fun _ _ w _ => nests w)
    (fun _ _ w _ => nests w) (fun _ _ w _ => nests w) (fun _ _ w _ => inner w) (fun _ _ w _ => nests w)
    (fun _ _ _ w _ => nests w) (fun _ _ w _ => inner w) (fun _ _ _ w _ => inner w)
    (fun _ _ w _ => forall d, params d w) (fun _ _ w _ => nests w) (fun _ _ w _ => nests w) (fun _ _ w _ => nests w)
    (fun _ _ w _ => nests w) (fun _ _ w _ => nests w) (fun _ _ w _ => nests w) (fun _ _ w _ => nests w)
    (fun _ _ _ w _ => nests w)); intros;
    try solve [eauto 3 with tabs nocore];
    try (lazymatch goal with |- params _ _ => first [apply params_one; match goal with H : nests ?w |- scan _ ?w _ => apply H end | apply params_next; [match goal with H : nests ?w |- scan _ ?w _ => apply H end|eapply GTerm_nonempty; eassumption|eapply term_params; eassumption|assumption|solve [auto]]] end); intros d0.
  1: { match goal with |- scan _ (?w ++ ?t ++ ?o ++ ?b ++ ?w') _ => replace (w ++ t ++ o ++ b ++ w') with (w ++ (t ++ o ++ b) ++ w') by (rewrite <- !app_assoc; reflexivity) end.
       apply scan_step; [assumption|]. apply scan_step; [|auto]. eapply nests_infix_step; eassumption. }
  4: { apply scan_lambda; [auto|eapply nests_lay; eassumption|]. nesting. }
  all: nesting.
  eapply scan_bracket; [bracket|apply scan_last; bracket].
Qed.
Lemma nests_GE i e w : GE i e w -> nests w.
Proof. apply (proj1 nests_exprs). Qed.
Lemma nests_GFunc i e w : GFunc i e w -> nests w.
Proof. apply nests_exprs. Qed.
#[local] Hint Resolve nests_GE nests_GFunc : tabs.

Lemma nests_GExportItem e w : GExportItem e w -> nests w.
Proof.
  intros H; destruct H; try solve [eauto 3 with tabs nocore]; intros d0; nesting.
  - eapply scan_bracket; [bracket|]. change (L "..)") with (L ".." ++ L ")"). nesting.
  - assert (nests (join (L ", ") cs)) by (apply nests_join; [apply nests_lit; reflexivity|apply H0]).
    nesting.
Qed.
Lemma nests_GExportItems e w : GExportItems e w -> nests w.
Proof. induction 1; apply nests_GExportItem in H; [exact H|]. intros d0; nesting. Qed.
Lemma nests_GExports e w : GExports e w -> nests w.
Proof. intros H; destruct H; [|apply nests_GExportItems in H0]; intros d0; nesting. Qed.
Lemma nests_GEffectField f w : GEffectField f w -> nests w.
Proof. intros H; destruct H. intros d0; nesting. Qed.
Lemma nests_GEffectFields f w : GEffectFields f w -> nests w.
Proof. induction 1; apply nests_GEffectField in H; [exact H|]. intros d0; nesting. Qed.
Lemma nests_GConstructors i f w : GConstructors i f w -> nests w.
Proof. induction 1; intros d0; nesting. Qed.
Lemma nests_GPortArgs f w : GPortArgs f w -> nests w.
Proof. induction 1; [apply nests_nil|]; intros d0; nesting. Qed.
#[local] Hint Resolve nests_GExports nests_GConstructors nests_GPortArgs : tabs.
Lemma nests_GAlias f w : GAlias f w -> nests w.
Proof. intros H; destruct H; [apply nests_nil|]; intros d0; nesting. Qed.
Lemma nests_GExposing f w : GExposing f w -> nests w.
Proof. intros H; destruct H; [apply nests_nil|]; intros d0; nesting. Qed.
Lemma nests_lay0 t : lay0 t -> nests t.
Proof. intros [j H]. eapply nests_lay, H. Qed.
Lemma nests_assoc a : nests (assoc_word a).
Proof. destruct a; apply nests_lit; reflexivity. Qed.
#[local] Hint Resolve nests_GAlias nests_GExposing nests_lay0 nests_assoc : tabs.

Lemma nests_line_comment c : forallb not_newline c = true -> nests (L "--" ++ c).
Proof. intros H d0. rewrite <- (app_nil_r c). apply scan_line_comment; [exact H|constructor]. Qed.
Lemma nests_block_comment c : ~ (exists a b, c = a ++ L "-}" ++ b) -> nests (L "{-" ++ c ++ L "-}").
Proof. intros H d0. apply (scan_block_comment c d0 [] d0); [exact H|constructor]. Qed.
#[local] Hint Resolve nests_line_comment nests_block_comment : tabs.

Lemma nests_GStmt f w : GStmt f w -> nests w.
Proof.
  intros H; destruct H; try solve [eauto 3 with tabs nocore].
  3:{ assert (nests wf) by (destruct H4 as [[_ ->]|H4]; [apply nests_nil|eapply nests_GEffectFields, H4]).
      clear H4. intros d0; nesting. }
  8:{ assert (nests n) by (destruct H3; eauto with tabs nocore). intros d0; nesting. }
  all: intros d0; nesting.
Qed.
Lemma scan_GStmt f w d : GStmt f w -> scan d w d.
Proof. intros H. apply (nests_GStmt f w H). Qed.

(** ** Texts without comments and quotes *)
Definition opens (s : str) : nat := length (filter (fun c => mem_char c (L "({")) s).
Definition closes (s : str) : nat := length (filter (fun c => mem_char c (L ")}")) s).
(** [a] ends in an operator with a space or a line feed before it, and perhaps blanks after it *)
Definition after_operator (a : str) : Prop := exists a' x o b,
  a = a' ++ x :: o ++ b /\ (x = space \/ x = newline) /\ infix_operator o /\ blanks b.
(** [a] ends among the parameters of a lambda: after the backslash every bracket is closed and every
    arrow is inside brackets *)
Definition among_parameters (a : str) : Prop := exists a' h, a = a' ++ 92%N :: h /\ h <> [] /\ ups h = downs h /\ arrows_inside h.

Lemma opens_app a b : opens (a ++ b) = opens a + opens b.
Proof. unfold opens. rewrite filter_app, app_length. reflexivity. Qed.
Lemma closes_app a b : closes (a ++ b) = closes a + closes b.
Proof. unfold closes. rewrite filter_app, app_length. reflexivity. Qed.
Lemma after_operator_app u a : after_operator a -> after_operator (u ++ a).
Proof. intros (a' & x & o & b & -> & H). exists (u ++ a'), x, o, b. rewrite <- app_assoc. auto. Qed.
Lemma count_zero (l w : str) : (forall c, In c l -> still c = false) -> (forall c, In c w -> still c = true \/ is_blank c = true) ->
  forallb (fun c => negb (is_blank c)) l = true -> filter (fun c => mem_char c l) w = [].
Proof.
  intros Hl Hw Hb. induction w as [|c w IH]; [reflexivity|]. cbn [filter]. destruct (mem_char c l) eqn:E.
  - exfalso. apply mem_char_In in E. destruct (Hw c (or_introl eq_refl)) as [K|K]; [rewrite (Hl _ E) in K; discriminate K|].
    rewrite forallb_forall in Hb. apply Hb in E. rewrite K in E. discriminate E.
  - apply IH. intros x Hx. apply Hw. right. exact Hx.
Qed.
Lemma opens_zero w : (forall c, In c w -> still c = true \/ is_blank c = true) -> opens w = 0.
Proof. intros H. unfold opens. rewrite count_zero; auto. intros c [<-|[<-|[]]]; reflexivity. Qed.
Lemma closes_zero w : (forall c, In c w -> still c = true \/ is_blank c = true) -> closes w = 0.
Proof. intros H. unfold closes. rewrite count_zero; auto. intros c [<-|[<-|[]]]; reflexivity. Qed.

Lemma infix_still o : infix_operator o -> forall c, In c o -> still c = true.
Proof.
  intros [->|[(_ & H & _) _]] c Hc; [destruct Hc as [<-|[<-|[]]]; reflexivity|]. rewrite forallb_forall in H. apply still_op, H, Hc.
Qed.

Lemma among_parameters_app u a : among_parameters a -> among_parameters (u ++ a).
Proof. intros (a' & h & -> & H). exists (u ++ a'), h. rewrite <- app_assoc. auto. Qed.

Scheme scan_both := Minimality for scan Sort Prop with params_both := Minimality for params Sort Prop.

Definition good (d : nat) (a : str) : Prop := closes a < d + opens a \/ after_operator a \/ among_parameters a.
Definition fine (d : nat) (s : str) (d' : nat) : Prop := no_comment_or_quote s ->
  d + opens s = d' + closes s /\ forall a b, s = a ++ tab :: b -> good d a.
Definition fine_params (d : nat) (h : str) : Prop := no_comment_or_quote h ->
  opens h = closes h /\ forall a b, h = a ++ tab :: b -> good d a \/ (a <> [] /\ ups a = downs a /\ arrows_inside a).

Lemma tab_split (x y a b : str) : x ++ y = a ++ tab :: b -> (exists b', x = a ++ tab :: b') \/ (exists a', a = x ++ a' /\ y = a' ++ tab :: b).
Proof.
  revert a. induction x as [|c x IH]; intros a E; [right; exists a; auto|]. destruct a as [|z a]; injection E as -> E; [left; exists x; reflexivity|].
  destruct (IH a E) as [(b2 & ->)|(a2 & -> & ->)]; [left; exists b2; reflexivity|right; exists a2; auto].
Qed.
Lemma good_app d u d1 a : d + opens u = d1 + closes u -> good d1 a -> good d (u ++ a).
Proof.
  intros E [H|[H|H]]; [left; rewrite opens_app, closes_app; lia|right; left; apply after_operator_app, H|right; right; apply among_parameters_app, H].
Qed.
(** one more piece [u] without tabs in front *)
Lemma fine_app d u d1 s d' : d + opens u = d1 + closes u -> ~ In tab u -> fine d1 s d' -> no_comment_or_quote (u ++ s) ->
  d + opens (u ++ s) = d' + closes (u ++ s) /\ forall a b, u ++ s = a ++ tab :: b -> good d a.
Proof.
  intros E Hu H Hno. apply no_cq_suf in Hno. destruct (H Hno) as [K1 K2]. split; [rewrite opens_app, closes_app; lia|].
  intros a b Ea. apply tab_split in Ea as [(b' & ->)|(a' & -> & Ea)]; [exfalso; apply Hu, in_or_app; right; left; reflexivity|].
  eapply good_app; [exact E|]. eapply K2, Ea.
Qed.
Lemma arrows_level x y c : ups (x ++ [c]) = downs (x ++ [c]) -> arrows_inside (x ++ [c]) -> arrows_inside y -> c <> C "-" -> arrows_inside ((x ++ [c]) ++ y).
Proof.
  intros E Hx Hy Hc u v Eu. apply arrow_split in Eu as [(v' & Eu)|[(u' & -> & Eu)|[Eu _]]]; [eapply Hx, Eu| |].
  - rewrite ups_app, downs_app. specialize (Hy u' v Eu). lia.
  - exfalso. apply app_inj_tail in Eu as [_ Eu]. congruence.
Qed.
Lemma blanks_counts b : blanks b -> opens b = 0 /\ closes b = 0 /\ ups b = 0 /\ downs b = 0 /\ ~ In (C ">") b.
Proof.
  intros H. unfold blanks in H. assert (Hi : forall c, In c b -> is_blank c = true) by (rewrite forallb_forall in H; exact H).
  split; [apply opens_zero; auto|]. split; [apply closes_zero; auto|]. split; [|split].
  - clear H. induction b as [|c b IH]; [reflexivity|]. destruct (count_cons c b) as [-> _]. rewrite IH by (intros x Hx; apply Hi; right; exact Hx).
    destruct (plain_counts c) as [-> _]; [apply plain_blank, Hi; left; reflexivity|reflexivity].
  - clear H. induction b as [|c b IH]; [reflexivity|]. destruct (count_cons c b) as [_ ->]. rewrite IH by (intros x Hx; apply Hi; right; exact Hx).
    destruct (plain_counts c) as [_ ->]; [apply plain_blank, Hi; left; reflexivity|reflexivity].
  - intros K. apply Hi in K. discriminate K.
Qed.
Lemma tabs_blanks b : tabs1 b -> blanks b /\ b <> [].
Proof.
  intros [Hne H]. split; [|exact Hne]. unfold blanks. rewrite forallb_forall in *. intros c Hc. apply H in Hc. unfold is_space_or_tab in Hc.
  apply orb_true_iff in Hc as [Hc|Hc]; apply N.eqb_eq in Hc; subst c; reflexivity.
Qed.

Lemma scan_fine : forall d s d', scan d s d' -> fine d s d'.
Proof.
  apply (scan_both fine fine_params).
  - intros d _. split; [reflexivity|]. intros [|] b E; discriminate E.
  - intros c d s d' Hc _ IH Hno. apply (fine_app d [c] d); auto.
    + rewrite (opens_zero [c]), (closes_zero [c]) by (intros z [<-|[]]; auto). lia.
    + intros [->|[]]. discriminate Hc.
  - intros o d s d' Ho _ IH Hno. apply (fine_app d [o] (S d)); auto; destruct Ho as [-> | ->]; cbn; try lia; intros [K|[]]; discriminate K.
  - intros c d s d' Hc _ IH Hno. apply (fine_app (S d) [c] d); auto; destruct Hc as [-> | ->]; cbn; try lia; intros [K|[]]; discriminate K.
  - intros d s d' _ IH Hno. destruct (IH (no_cq_tail _ _ Hno)) as [K1 K2]. split; [exact K1|]. intros [|y a] b E; [left; cbn; lia|].
    injection E as <- E. apply (good_app (S d) [tab] (S d)); [reflexivity|]. eapply K2, E.
  - intros x o bl d s d' Hx Ho Hbl _ IH Hno. change (x :: o ++ bl ++ s) with ((x :: o) ++ bl ++ s) in Hno |- *.
    assert (Hz : forall c, In c (x :: o) -> still c = true \/ is_blank c = true).
    { intros c [<-|Hc]; [right; destruct Hx as [-> | ->]; reflexivity|left; eapply infix_still; eassumption]. }
    assert (Ht : ~ In tab (x :: o)).
    { intros [K|K]; [subst x; destruct Hx as [K|K]; discriminate K|]. apply (infix_still o Ho) in K. discriminate K. }
    destruct (blanks_counts bl Hbl) as (E1 & E2 & _). pose proof (no_cq_suf _ _ (no_cq_suf _ _ Hno)) as Hs. destruct (IH Hs) as [K1 K2].
    pose proof (opens_zero _ Hz) as Z1. pose proof (closes_zero _ Hz) as Z2. revert Z1 Z2 Ht Hno. clear Hz. remember (x :: o) as xo eqn:Exo. intros Z1 Z2 Ht Hno.
    split; [rewrite !opens_app, !closes_app; lia|]. intros a b E.
    apply tab_split in E as [(b' & ->)|(a' & -> & E)]; [exfalso; apply Ht; apply in_or_app; right; left; reflexivity|].
    apply tab_split in E as [(b' & ->)|(a2 & -> & E)].
    + right. left. exists [], x, o, a'. split; [subst xo; reflexivity|]. split; [exact Hx|]. split; [exact Ho|].
      unfold blanks in *. rewrite forallb_app in Hbl. apply andb_true_iff in Hbl. apply Hbl.
    + apply (good_app d xo d); [lia|]. apply (good_app d bl d); [lia|]. eapply K2, E.
  - intros c d s d' _ _ _ Hno. exfalso. destruct Hno as (_ & _ & K & _). apply K. exists [], (c ++ s). reflexivity.
  - intros c d s d' _ _ _ Hno. exfalso. destruct Hno as (_ & _ & _ & K). apply K. exists [], (c ++ L "-}" ++ s). reflexivity.
  - intros c d s d' _ _ _ Hno. exfalso. destruct Hno as (K & _). apply K. left. reflexivity.
  - intros c d s d' _ _ _ Hno. exfalso. destruct Hno as (K & _). apply K. left. reflexivity.
  - intros w c d s d' _ _ _ Hno. exfalso. destruct Hno as (_ & K & _). apply K. left. reflexivity.
  - intros h d t s d' _ IHh _ IHt _ IHs Hno. pose proof (no_cq_tail _ _ Hno) as Hno1. pose proof (no_cq_suf _ _ Hno1) as Hno2.
    pose proof (no_cq_suf _ _ (no_cq_suf _ _ Hno2)) as Hno3.
    destruct (IHh (no_cq_pre _ _ Hno1)) as [Kh1 Kh2]. destruct (IHt (no_cq_pre _ _ Hno2)) as [Kt1 Kt2]. destruct (IHs Hno3) as [Ks1 Ks2].
    change (92%N :: h ++ t ++ L "->" ++ s) with ([92%N] ++ h ++ t ++ L "->" ++ s).
    assert (Z : opens [92%N] = 0 /\ closes [92%N] = 0 /\ opens (L "->") = 0 /\ closes (L "->") = 0) by (repeat split). destruct Z as (Z1 & Z2 & Z3 & Z4).
    split; [rewrite !opens_app, !closes_app; lia|]. intros a b E.
    apply tab_split in E as [(b' & E)|(a1 & -> & E)]; [destruct a as [|? [|]]; discriminate E|].
    apply tab_split in E as [(b' & E)|(a2 & -> & E)].
    { destruct (Kh2 a1 b' E) as [K|(K0 & K1 & K2)]; [apply (good_app d [92%N] d); [lia|exact K]|]. right. right. exists [], a1. auto. }
    apply (good_app d [92%N] d); [lia|]. apply (good_app d h d); [lia|].
    apply tab_split in E as [(b' & E)|(a3 & -> & E)]; [eapply Kt2, E|]. apply (good_app d t d); [lia|].
    apply tab_split in E as [(b' & E)|(a4 & -> & E)]; [destruct a3 as [|? [|? [|]]]; discriminate E|].
    apply (good_app d (L "->") d); [lia|]. eapply Ks2, E.
  - intros d w _ IH Hno. destruct (IH Hno) as [K1 K2]. split; [lia|]. intros a b E. left. eapply K2, E.
  - intros d w b w' _ IHw Hne Hw Hb _ IH Hno. pose proof (no_cq_pre _ _ Hno) as Hno1. pose proof (no_cq_suf _ _ (no_cq_suf _ _ Hno)) as Hno2.
    destruct (IHw Hno1) as [K1 K2]. destruct (IH Hno2) as [K3 K4]. destruct (Hw Hno1) as [Ha Hl]. destruct (tabs_blanks b Hb) as [Hb1 Hb2].
    destruct (blanks_counts b Hb1) as (E1 & E2 & E3 & E4 & E5). split; [rewrite !opens_app, !closes_app; lia|]. intros a s E.
    apply tab_split in E as [(b' & E)|(a1 & -> & E)]; [left; eapply K2, E|].
    apply tab_split in E as [(b' & E)|(a2 & -> & E)].
    + right. assert (Hba : blanks a1). { unfold blanks in *. rewrite E, forallb_app in Hb1. apply andb_true_iff in Hb1. apply Hb1. }
      destruct (blanks_counts a1 Hba) as (_ & _ & F3 & F4 & F5). split; [destruct w; [congruence|discriminate]|]. split; [rewrite ups_app, downs_app; lia|].
      apply arrows_after; assumption.
    + destruct (K4 a2 s E) as [K|(_ & Q1 & Q2)].
      * left. apply (good_app d w d); [lia|]. apply (good_app d b d); [lia|exact K].
      * right. split; [destruct w; [congruence|discriminate]|]. split; [rewrite !ups_app, !downs_app; lia|].
        destruct (exists_last Hb2) as (b0 & c & ->). rewrite app_assoc, (app_assoc w). apply arrows_level.
        -- rewrite <- app_assoc, ups_app, downs_app. lia.
        -- rewrite <- app_assoc. apply arrows_after; assumption.
        -- exact Q2.
        -- intros ->. unfold blanks in Hb1. rewrite forallb_app in Hb1. apply andb_true_iff in Hb1 as [_ Hb1]. discriminate Hb1.
Qed.
