(** * The characters of an accepted text and its brackets *)
From Verif Require Import Base Nom Ast Spec Grammar Wf.

(** The characters that can stand outside comments and literals, without the
    brackets: names, numbers, operators, commas and blanks. *)
Definition plain (c : char) : bool :=
  is_name_char c || is_op_char c || (c =? C ",")%N || is_blank c.
Definition brackets : list (char * char) :=
  [(C "(", C ")"); (C "[", C "]"); (C "{", C "}")].

(** [nest st s st']: reading [s] from left to right where the closing brackets
    [st] are wanted (innermost first) leads to where [st'] are wanted. *)
Inductive nest : str -> str -> str -> Prop :=
| nest_end st : nest st [] st
| nest_plain c st s st' : plain c = true -> nest st s st' -> nest st (c :: s) st'
| nest_open o c st s st' : In (o, c) brackets -> nest (c :: st) s st' -> nest st (o :: s) st'
| nest_close c st s st' : nest st s st' -> nest (c :: st) (c :: s) st'
| nest_line_comment c st s st' : forallb not_newline c = true -> nest st s st' ->
    nest st (L "--" ++ c ++ s) st'
| nest_block_comment c st s st' : ~ (exists a b, c = a ++ L "-}" ++ b) -> nest st s st' ->
    nest st (L "{-" ++ c ++ L "-}" ++ s) st'
| nest_string c st s st' : string_content c -> nest st s st' ->
    nest st (quote :: c ++ quote :: s) st'
| nest_multi c st s st' : no_quote c -> nest st s st' ->
    nest st ([quote; quote; quote] ++ c ++ [quote; quote; quote] ++ s) st'
| nest_char w c st s st' : char_content w c -> nest st s st' ->
    nest st (squote :: w ++ squote :: s) st'.

(** ** Every derivation of the grammar nests its brackets *)

Lemma nest_app st a st' b st'' : nest st a st' -> nest st' b st'' -> nest st (a ++ b) st''.
Proof.
  intros H Hb. induction H; cbn [app]; rewrite <- ?app_assoc; cbn [app];
    try (econstructor; eauto; fail).
  - exact Hb.
Qed.
Lemma nest_forall (P : char -> bool) st w :
  (forall c, P c = true -> plain c = true) -> forallb P w = true -> nest st w st.
Proof.
  intros HP. induction w as [|c w IH]; [constructor|]. cbn. intros H. apply andb_true_iff in H as [H1 H2].
  apply nest_plain; auto.
Qed.

Lemma plain_name c : is_name_char c = true -> plain c = true.
Proof. intros H. unfold plain. rewrite H. reflexivity. Qed.
Lemma plain_op c : is_op_char c = true -> plain c = true.
Proof. intros H. unfold plain. rewrite H. apply orb_true_iff. left. apply orb_true_iff. left. apply orb_true_r. Qed.
Lemma plain_blank c : is_blank c = true -> plain c = true.
Proof. intros H. unfold plain. rewrite H. apply orb_true_r. Qed.
Lemma plain_lower c : is_lower c = true -> plain c = true.
Proof. intros H. apply plain_name. unfold is_name_char. rewrite H. reflexivity. Qed.
Lemma plain_upper c : is_upper c = true -> plain c = true.
Proof. intros H. apply plain_name. unfold is_name_char. rewrite H. destruct (is_lower c); reflexivity. Qed.
Lemma plain_dec c : is_dec c = true -> plain c = true.
Proof. intros H. apply plain_name. unfold is_name_char. rewrite H. destruct (is_lower c), (is_upper c); reflexivity. Qed.
Lemma plain_tyvar c : is_tyvar_char c = true -> plain c = true.
Proof.
  intros H. apply plain_name. unfold is_tyvar_char in H. unfold is_name_char.
  destruct (is_lower c); [reflexivity|]. cbn [orb] in H.
  destruct (c =? C "_")%N; [rewrite !orb_true_r; reflexivity|]. rewrite orb_false_r in H.
  replace (is_dec c) with true; [rewrite orb_true_r; reflexivity|].
  symmetry. unfold is_dec, between in *. apply andb_true_iff in H as [H1 H2].
  apply andb_true_iff. split; [|exact H2]. apply N.leb_le in H1. apply N.leb_le. lia.
Qed.

Definition nests (w : str) : Prop := forall st, nest st w st.

Lemma nests_app a b : nests a -> nests b -> nests (a ++ b).
Proof. intros Ha Hb st. eapply nest_app; eauto. Qed.
Lemma nests_nil : nests [].
Proof. constructor. Qed.
Lemma nests_lit w : forallb plain w = true -> nests w.
Proof. intros H st. apply (nest_forall plain); auto. Qed.
(** brackets around a text: [o ++ (parts) ++ c] in the right-nested form of Grammar.v *)
Lemma nest_bracket o c st s : In (o, c) brackets -> nest (c :: st) s st -> nest st (o :: s) st.
Proof. intros. eapply nest_open; eauto. Qed.
Lemma nest_last c st : nest (c :: st) [c] st.
Proof. apply nest_close, nest_end. Qed.
Lemma nest_step w st s st' : nests w -> nest st s st' -> nest st (w ++ s) st'.
Proof. intros H H'. eapply nest_app; [apply H|exact H']. Qed.

Lemma nests_lower n : lower_name n -> nests n.
Proof.
  intros [->|[(c & t & -> & H1 & H2) _]]; [apply nests_lit; reflexivity|].
  intros st. apply nest_plain; [apply plain_lower, H1|]. eapply nest_forall; [apply plain_name|exact H2].
Qed.
Lemma nests_upper n : upper_name n -> nests n.
Proof.
  intros (c & t & -> & H1 & H2) st. apply nest_plain; [apply plain_upper, H1|].
  eapply nest_forall; [apply plain_name|exact H2].
Qed.
Lemma nests_tyvar n : type_var_name n -> nests n.
Proof.
  intros (c & t & -> & H1 & H2) st. apply nest_plain; [apply plain_lower, H1|].
  eapply nest_forall; [apply plain_tyvar|exact H2].
Qed.
Lemma nests_operator n : operator_name n -> nests n.
Proof. intros (_ & H & _) st. eapply nest_forall; [apply plain_op|exact H]. Qed.
Lemma nests_infix n : infix_operator n -> nests n.
Proof. intros [->|[H _]]; [apply nests_lit; reflexivity|apply nests_operator, H]. Qed.
Lemma nests_join sep q : nests sep -> Forall upper_name q -> nests (join sep q).
Proof.
  intros Hs H. induction H as [|x q Hx H IH]; [apply nests_nil|]. apply nests_upper in Hx.
  destruct q as [|y q]; [exact Hx|].
  change (join sep (x :: y :: q)) with (x ++ sep ++ join sep (y :: q)).
  apply nests_app; [exact Hx|]. apply nests_app; [exact Hs|exact IH].
Qed.
Lemma nests_dotted q : qualified q -> nests (dotted q).
Proof. intros [_ H]. apply nests_join; [apply nests_lit; reflexivity|exact H]. Qed.
Lemma nests_digits d : digits1 d -> nests d.
Proof. intros [_ H] st. eapply nest_forall; [apply plain_dec|exact H]. Qed.
Lemma nests_sign d : sign_text d -> nests d.
Proof. intros [->|[->| ->]]; apply nests_lit; reflexivity. Qed.
Lemma nests_integer d : integer_text d -> nests d.
Proof. intros (sg & e & -> & H1 & H2). apply nests_app; [apply nests_sign, H1|apply nests_digits, H2]. Qed.
Lemma nests_float d : float_text d -> nests d.
Proof.
  intros (sg & e & f & -> & H1 & H2 & H3). apply nests_app; [apply nests_sign, H1|].
  apply nests_app; [apply nests_digits, H2|]. apply nests_app; [apply nests_lit; reflexivity|].
  apply nests_digits, H3.
Qed.
Lemma nests_trivia t : trivia t -> nests t.
Proof.
  intros H st. induction H as [|t _ IH|t _ IH|c t Hc _ _ IH]; [constructor|apply nest_plain; [reflexivity|exact IH]..|].
  apply nest_line_comment; assumption.
Qed.
Lemma nests_lay R i t j : lay R i t j -> nests t.
Proof. intros [H _]. apply nests_trivia, H. Qed.
Lemma nests_olay i t : olay i t -> nests t.
Proof. intros [->|[j H]]; [apply nests_nil|eapply nests_lay, H]. Qed.
Lemma nests_blanks b : blanks b -> nests b.
Proof. intros H st. eapply nest_forall; [apply plain_blank|exact H]. Qed.
Lemma nests_blanks1 b : blanks1 b -> nests b.
Proof. intros [_ H]. apply nests_blanks, H. Qed.
Lemma nests_ospaces b : all_spaces b = true -> nests b.
Proof.
  intros H st. eapply nest_forall; [|exact H]. cbn. intros c E. apply N.eqb_eq in E. subst c. reflexivity.
Qed.
Lemma nests_spaces1 b : spaces1 b -> nests b.
Proof. intros [_ H]. apply nests_ospaces, H. Qed.
Lemma nests_ospnl b : ospnl b -> nests b.
Proof.
  intros H st. eapply nest_forall; [|exact H]. intros c E. apply orb_true_iff in E as [E|E];
    apply N.eqb_eq in E; subst c; reflexivity.
Qed.
Lemma nests_spnl1 b : spnl1 b -> nests b.
Proof. intros [_ H]. apply nests_ospnl, H. Qed.
Lemma nests_tabs1 b : tabs1 b -> nests b.
Proof.
  intros [_ H] st. eapply nest_forall; [|exact H]. intros c E. apply orb_true_iff in E as [E|E];
    apply N.eqb_eq in E; subst c; reflexivity.
Qed.
Lemma nests_commas o : forallb (fun c => (c =? C ",")%N) o = true -> nests o.
Proof.
  intros H st. eapply nest_forall; [|exact H]. cbn. intros c E. apply N.eqb_eq in E. subst c. reflexivity.
Qed.
Lemma nests_string s : string_content s -> nests ([quote] ++ s ++ [quote]).
Proof. intros H st. apply (nest_string s st [] st); [exact H|constructor]. Qed.
Lemma nests_multi s : no_quote s -> nests ([quote; quote; quote] ++ s ++ [quote; quote; quote]).
Proof. intros H st. apply (nest_multi s st [] st); [exact H|constructor]. Qed.
Lemma nests_char w c : char_content w c -> nests ([squote] ++ w ++ [squote]).
Proof. intros H st. apply (nest_char w c st [] st); [exact H|constructor]. Qed.
Lemma nests_access fs : Forall lower_name fs -> nests (flat_map (fun f => L "." ++ f) fs).
Proof.
  induction 1 as [|f fs H _ IH]; [apply nests_nil|]. cbn [flat_map].
  apply nests_app; [|exact IH]. apply nests_app; [apply nests_lit; reflexivity|apply nests_lower, H].
Qed.
Create HintDb nest discriminated.
#[local] Hint Resolve nests_nil nests_lower nests_upper nests_tyvar nests_operator nests_infix nests_dotted
  nests_digits nests_integer nests_float nests_olay nests_blanks nests_blanks1 nests_ospaces nests_spaces1
  nests_ospnl nests_spnl1 nests_tabs1 nests_commas nests_string nests_multi nests_char nests_access : nest.
#[local] Hint Extern 2 (nests _) =>
  match goal with H : lay_ge _ ?t _ |- nests ?t => exact (nests_lay _ _ _ _ H)
                | H : lay_gt _ ?t _ |- nests ?t => exact (nests_lay _ _ _ _ H)
                | H : lay_eq _ ?t _ |- nests ?t => exact (nests_lay _ _ _ _ H) end : nest.

(** One step through a right-nested concatenation. *)
Ltac bracket := first [left; reflexivity | right; left; reflexivity | right; right; left; reflexivity].
Ltac step :=
  lazymatch goal with
  | |- nest ?st (?a ++ ?b) _ =>
      first
      [ apply nest_step; [solve [eauto 3 with nest nocore]|]
      | apply nest_step; [apply nests_lit; reflexivity|]
      | eapply nest_bracket; [bracket|]
      | apply nest_close ]
  | |- nest ?st ?a ?st => solve [refine ((_ : nests a) st); first [eauto 3 with nest nocore | apply nests_lit; reflexivity]]
  | |- nest (?c :: ?st) [?c] ?st => apply nest_last
  | |- nest (?c :: ?st) [?d] ?st => exact (nest_last c st)
  end.
Ltac nesting := repeat step.

Lemma nests_types :
  (forall i t w, GTy i t w -> nests w) /\ (forall i t w, GTySimple i t w -> nests w) /\
  (forall i t w, GParam i t w -> nests w) /\ (forall i ts w, GParams i ts w -> nests w) /\
  (forall i ts w, GTyElems i ts w -> nests w) /\ (forall i fs w, GTyFields i fs w -> nests w) /\
  (forall i n t w, GTyField i n t w -> nests w) /\ (forall i t w, GAnn i t w -> nests w).
Proof.
  apply (GType_ind (fun _ _ w _ => nests w) (fun _ _ w _ => nests w) (fun _ _ w _ => nests w)
    (fun _ _ w _ => nests w) (fun _ _ w _ => nests w) (fun _ _ w _ => nests w)
    (fun _ _ _ w _ => nests w) (fun _ _ w _ => nests w)); intros;
    try solve [eauto 3 with nest nocore]; intros st; nesting.
Qed.
Lemma nests_ty i t w : GTy i t w -> nests w.
Proof. apply nests_types. Qed.
Lemma nests_ann i t w : GAnn i t w -> nests w.
Proof. apply nests_types. Qed.
Lemma nests_params i t w : GParams i t w -> nests w.
Proof. apply nests_types. Qed.
#[local] Hint Resolve nests_ty nests_ann nests_params : nest.

Lemma nests_GVar e w : GVar e w -> nests w.
Proof. intros H; destruct H; try solve [eauto 3 with nest nocore]; intros st; nesting. Qed.
Lemma nests_GName n w : GName n w -> nests w.
Proof. intros H; destruct H; try solve [eauto 3 with nest nocore]; intros st; nesting. Qed.
Lemma nests_GNames fs w : GNames fs w -> nests w.
Proof. induction 1; intros st; nesting. Qed.
Lemma nests_GNameRecord e w : GNameRecord e w -> nests w.
Proof.
  intros H; destruct H as [|fs w H]; [|apply nests_GNames in H]; intros st; nesting.
  eapply nest_bracket; [bracket|apply nest_last].
Qed.
#[local] Hint Resolve nests_GVar nests_GName nests_GNameRecord : nest.
Lemma nests_GSig i s w : GSig i s w -> nests w.
Proof. intros H; destruct H; intros st; nesting. Qed.
#[local] Hint Resolve nests_GSig : nest.

Lemma nests_exprs :
  (forall i e w, GE i e w -> nests w) /\ (forall i e w, GApp i e w -> nests w) /\
  (forall i e w, GTerm i e w -> nests w) /\ (forall i e w, GList i e w -> nests w) /\
  (forall i es w, GElems i es w -> nests w) /\ (forall i e w, GTuple i e w -> nests w) /\
  (forall i es w, GTupleElems i es w -> nests w) /\ (forall i fs w, GFields i fs w -> nests w) /\
  (forall i n e w, GField i n e w -> nests w) /\ (forall i fs w, GUpdates i fs w -> nests w) /\
  (forall i n e w, GUpdate i n e w -> nests w) /\ (forall i es w, GLamArgs i es w -> nests w) /\
  (forall i es w, GEntries i es w -> nests w) /\ (forall i x w, GEntry i x w -> nests w) /\
  (forall i e w, GTarget i e w -> nests w) /\ (forall i f w, GFunc i f w -> nests w) /\
  (forall i d w, GDef i d w -> nests w) /\ (forall i es w, GDefArgs i es w -> nests w) /\
  (forall i bs w, GBranches i bs w -> nests w) /\ (forall i p e w, GBranch i p e w -> nests w).
Proof.
  apply (GExpr_ind
    (fun _ _ w _ => nests w) (fun _ _ w _ => nests w) (fun _ _ w _ => nests w) (fun _ _ w _ => nests w)
    (fun _ _ w _ => nests w) (fun _ _ w _ => nests w) (fun _ _ w _ => nests w) (fun _ _ w _ => nests w)
    (fun _ _ _ w _ => nests w) (fun _ _ w _ => nests w) (fun _ _ _ w _ => nests w)
    (fun _ _ w _ => nests w) (fun _ _ w _ => nests w) (fun _ _ w _ => nests w) (fun _ _ w _ => nests w)
    (fun _ _ w _ => nests w) (fun _ _ w _ => nests w) (fun _ _ w _ => nests w) (fun _ _ w _ => nests w)
    (fun _ _ _ w _ => nests w)); intros;
    try solve [eauto 3 with nest nocore]; intros st; nesting.
  eapply nest_bracket; [bracket|apply nest_last].
Qed.
Lemma nests_GE i e w : GE i e w -> nests w.
Proof. apply (proj1 nests_exprs). Qed.
Lemma nests_GFunc i e w : GFunc i e w -> nests w.
Proof. apply nests_exprs. Qed.
#[local] Hint Resolve nests_GE nests_GFunc : nest.

Lemma nests_GExportItem e w : GExportItem e w -> nests w.
Proof.
  intros H; destruct H; try solve [eauto 3 with nest nocore]; intros st; nesting.
  - eapply nest_bracket; [bracket|]. change (L "..)") with (L ".." ++ L ")"). nesting.
  - assert (nests (join (L ", ") cs)) by (apply nests_join; [apply nests_lit; reflexivity|apply H0]).
    nesting.
Qed.
Lemma nests_GExportItems e w : GExportItems e w -> nests w.
Proof. induction 1; apply nests_GExportItem in H; [exact H|]. intros st; nesting. Qed.
Lemma nests_GExports e w : GExports e w -> nests w.
Proof. intros H; destruct H; [|apply nests_GExportItems in H0]; intros st; nesting. Qed.
Lemma nests_GEffectField f w : GEffectField f w -> nests w.
Proof. intros H; destruct H. intros st; nesting. Qed.
Lemma nests_GEffectFields f w : GEffectFields f w -> nests w.
Proof. induction 1; apply nests_GEffectField in H; [exact H|]. intros st; nesting. Qed.
Lemma nests_GConstructors i f w : GConstructors i f w -> nests w.
Proof. induction 1; intros st; nesting. Qed.
Lemma nests_GPortArgs f w : GPortArgs f w -> nests w.
Proof. induction 1; [apply nests_nil|]; intros st; nesting. Qed.
#[local] Hint Resolve nests_GExports nests_GConstructors nests_GPortArgs : nest.
Lemma nests_GAlias f w : GAlias f w -> nests w.
Proof. intros H; destruct H; [apply nests_nil|]; intros st; nesting. Qed.
Lemma nests_GExposing f w : GExposing f w -> nests w.
Proof. intros H; destruct H; [apply nests_nil|]; intros st; nesting. Qed.
Lemma nests_lay0 t : lay0 t -> nests t.
Proof. intros [j H]. eapply nests_lay, H. Qed.
Lemma nests_assoc a : nests (assoc_word a).
Proof. destruct a; apply nests_lit; reflexivity. Qed.
#[local] Hint Resolve nests_GAlias nests_GExposing nests_lay0 nests_assoc : nest.

Lemma nests_line_comment c : forallb not_newline c = true -> nests (L "--" ++ c).
Proof. intros H st. rewrite <- (app_nil_r c). apply nest_line_comment; [exact H|constructor]. Qed.
Lemma nests_block_comment c : ~ (exists a b, c = a ++ L "-}" ++ b) -> nests (L "{-" ++ c ++ L "-}").
Proof. intros H st. apply (nest_block_comment c st [] st); [exact H|constructor]. Qed.
#[local] Hint Resolve nests_line_comment nests_block_comment : nest.

Lemma nests_GStmt f w : GStmt f w -> nests w.
Proof.
  intros H; destruct H; try solve [eauto 3 with nest nocore].
  3:{ assert (nests wf) by (destruct H4 as [[_ ->]|H4]; [apply nests_nil|eapply nests_GEffectFields, H4]).
      clear H4. intros st; nesting. }
  8:{ assert (nests n) by (destruct H3; eauto with nest nocore). intros st; nesting. }
  all: intros st; nesting.
Qed.
Lemma nests_GStmts f w : GStmts f w -> nests w.
Proof. induction 1; apply nests_GStmt in H; [exact H|]; intros stack; nesting. Qed.
Theorem nests_GFile f w : GFile f w -> nests w.
Proof. intros H; destruct H. apply nests_GStmts in H0. intros st; nesting. Qed.

(** ** Texts without comments and quotes *)

(** the closing bracket of an opening one *)
Definition closing (o : char) : option char :=
  if (o =? C "(")%N then Some (C ")") else if (o =? C "[")%N then Some (C "]")
  else if (o =? C "{")%N then Some (C "}") else None.
Definition is_close (c : char) : bool := mem_char c (L ")]}").
(** the usual check with a stack *)
Fixpoint balanced (st : list char) (s : str) : bool :=
  match s with
  | [] => match st with [] => true | _ => false end
  | c :: s' =>
      match closing c with
      | Some d => balanced (d :: st) s'
      | None =>
          if is_close c
          then match st with d :: st' => (c =? d)%N && balanced st' s' | [] => false end
          else plain c && balanced st s'
      end
  end.

Lemma plain_not_bracket c : plain c = true -> closing c = None /\ is_close c = false.
Proof.
  intros H. unfold closing, is_close, mem_char. cbn [existsb].
  repeat match goal with
  | |- context [(c =? ?k)%N] => destruct (N.eqb_spec c k) as [->|]; [discriminate H|]
  end; auto.
Qed.

Definition no_comment_or_quote (s : str) : Prop :=
  ~ In quote s /\ ~ In squote s /\
  ~ (exists a b, s = a ++ L "--" ++ b) /\ ~ (exists a b, s = a ++ L "{-" ++ b).

Lemma no_cq_tail c s : no_comment_or_quote (c :: s) -> no_comment_or_quote s.
Proof.
  intros (H1 & H2 & H3 & H4). repeat split.
  - intros H; apply H1; right; exact H.
  - intros H; apply H2; right; exact H.
  - intros (a & b & ->). apply H3. exists (c :: a), b. reflexivity.
  - intros (a & b & ->). apply H4. exists (c :: a), b. reflexivity.
Qed.

Lemma nest_balanced st s st' : nest st s st' -> st' = [] -> Forall (fun c => is_close c = true) st ->
  no_comment_or_quote s -> balanced st s = true.
Proof.
  intros H. induction H as [st|c st s st' Hc H IH|o c st s st' Ho H IH|c st s st' H IH|c st s st' Hc H IH
    |c st s st' Hc H IH|c st s st' Hc H IH|c st s st' Hc H IH|w c st s st' Hc H IH]; intros E Hst Hno.
  - subst st. reflexivity.
  - destruct (plain_not_bracket c Hc) as [E1 E2]. cbn [balanced]. rewrite E1, E2, Hc. cbn [andb].
    apply IH; auto. eapply no_cq_tail, Hno.
  - assert (E1 : closing o = Some c /\ is_close c = true).
    { destruct Ho as [Ho|[Ho|[Ho|[]]]]; injection Ho as <- <-; auto. }
    destruct E1 as [E1 E2]. cbn [balanced]. rewrite E1. apply IH; auto. eapply no_cq_tail, Hno.
  - inversion Hst as [|? ? Hc Hst' Eq]; subst. cbn [balanced].
    assert (E1 : closing c = None).
    { unfold is_close, mem_char in Hc. cbn [existsb] in Hc. unfold closing.
      repeat match goal with
      | |- context [(c =? ?k)%N] => destruct (N.eqb_spec c k) as [->|]; [discriminate Hc|]
      end. reflexivity. }
    rewrite E1, Hc, N.eqb_refl. cbn [andb]. apply IH; auto. eapply no_cq_tail, Hno.
  - exfalso. destruct Hno as (_ & _ & Hno & _). apply Hno. exists [], (c ++ s). reflexivity.
  - exfalso. destruct Hno as (_ & _ & _ & Hno). apply Hno. exists [], (c ++ L "-}" ++ s). reflexivity.
  - exfalso. destruct Hno as (Hno & _). apply Hno. left. reflexivity.
  - exfalso. destruct Hno as (Hno & _). apply Hno. left. reflexivity.
  - exfalso. destruct Hno as (_ & Hno & _). apply Hno. left. reflexivity.
Qed.
