(** * Soundness: what the parser accepts is derivable from the grammar *)
From Verif Require Import Base Nom Regex Ast Good Spec Helpers Types Expr Stmt Lexers Total
  Layout Seqs Grammar.

(** [sound P p]: whenever [p] succeeds with [a] it consumed a text [w] in
    relation [P] to [a]. *)
Definition sound {A} (P : A -> str -> Prop) (p : parser A) : Prop :=
  forall s r a, p s = Ok r a -> exists w, s = w ++ r /\ P a w.

(** ** Lexical parsers *)

Lemma sound_lo_name : sound (fun n w => w = n /\ lower_name n) lo_name.
Proof.
  intros s r a H. rewrite lo_name_eq in H. destruct s as [|c s]; [discriminate|].
  destruct (N.eqb_spec c (C "_")) as [->|Hc].
  - injection H as <- <-. exists (L "_"). repeat split. left; reflexivity.
  - destruct (is_lower c) eqn:Hl; [|discriminate].
    destruct (span is_name_char s) as [x y] eqn:Hs.
    destruct (mem_str (c :: x) reserved_words) eqn:Hm; [discriminate|].
    injection H as <- <-. apply span_longest in Hs as (-> & Hx & _).
    exists (c :: x). repeat split. right. split; [eauto 6|].
    intros Hin. apply mem_str_In in Hin. congruence.
Qed.

Lemma sound_up_name : sound (fun n w => w = n /\ upper_name n) up_name.
Proof.
  intros s r a H. rewrite up_name_eq in H. destruct s as [|c s]; [discriminate|].
  destruct (is_upper c) eqn:Hl; [|discriminate].
  destruct (span is_name_char s) as [x y] eqn:Hs. injection H as <- <-.
  apply span_longest in Hs as (-> & Hx & _). exists (c :: x). repeat split.
  exists c, x. auto.
Qed.

Lemma sound_type_variable :
  sound (fun t w => exists n, t = TypeVariable n /\ w = n /\ type_var_name n) type_variable.
Proof.
  intros s r a H. rewrite type_variable_eq in H. destruct s as [|c s]; [discriminate|].
  destruct (is_lower c) eqn:Hl; [|discriminate].
  destruct (span is_tyvar_char s) as [x y] eqn:Hs. injection H as <- <-.
  apply span_longest in Hs as (-> & Hx & _). exists (c :: x). repeat split.
  exists (c :: x). repeat split. exists c, x. auto.
Qed.

Lemma sound_operator : sound (fun n w => w = n /\ operator_name n) operator.
Proof.
  intros s r a H. rewrite operator_eq in H.
  destruct (span is_op_char s) as [x y] eqn:Hs.
  destruct x as [|c x]; [discriminate|].
  destruct (mem_str (c :: x) reserved_operators) eqn:Hm; [discriminate|].
  injection H as <- <-. apply span_longest in Hs as (-> & Hx & _).
  exists (c :: x). repeat split; [discriminate|exact Hx|].
  intros Hin. apply mem_str_In in Hin. congruence.
Qed.

Lemma sound_take_while1 f : sound (fun a w => w = a /\ a <> [] /\ forallb f a = true) (take_while1 f).
Proof.
  intros s r a H. unfold take_while1 in H. destruct (span f s) as [x y] eqn:Hs.
  apply span_longest in Hs as (-> & Hx & _). destruct x as [|c x]; [discriminate|].
  injection H as <- <-. exists (c :: x). repeat split; [discriminate|exact Hx].
Qed.

Lemma forallb_ext {A} (f g : A -> bool) l : (forall x, f x = g x) -> forallb f l = forallb g l.
Proof. intros H. induction l as [|x l IH]; [reflexivity|]. simpl. rewrite H, IH. reflexivity. Qed.

Lemma sound_is_a cs :
  sound (fun a w => w = a /\ a <> [] /\ forallb (fun c => mem_char c cs) a = true) (is_a cs).
Proof. apply sound_take_while1. Qed.

Lemma sound_spaces : sound (fun a w => w = a /\ spaces1 a) spaces.
Proof.
  intros s r a H. destruct (sound_is_a _ _ _ _ H) as (w & -> & -> & Hne & Hf).
  exists a. repeat split; [exact Hne|]. unfold all_spaces. rewrite <- Hf.
  apply forallb_ext. intros c. unfold mem_char. simpl. symmetry; apply orb_false_r.
Qed.

Lemma sound_spaces0 : sound (fun a w => w = a /\ ospaces a) spaces0.
Proof.
  intros s r a H. rewrite spaces0_eq in H. destruct (span is_sp s) as [x y] eqn:Hs.
  injection H as <- <-. apply span_longest in Hs as (-> & Hx & _). exists x. auto.
Qed.

Lemma sound_spnl : sound (fun a w => w = a /\ spnl1 a) spaces_and_newlines.
Proof.
  intros s r a H. destruct (sound_is_a _ _ _ _ H) as (w & -> & -> & Hne & Hf).
  exists a. repeat split; [exact Hne|]. rewrite <- Hf.
  apply forallb_ext. intros c. unfold mem_char, is_space_or_newline. simpl.
  rewrite orb_false_r. reflexivity.
Qed.

Lemma sound_multispace0 : sound (fun a w => w = a /\ blanks a) multispace0.
Proof.
  intros s r a H. unfold multispace0, take_while0 in H.
  destruct (span is_multispace s) as [x y] eqn:Hs. injection H as <- <-.
  apply span_longest in Hs as (-> & Hx & _). exists x. auto.
Qed.

Lemma sound_multispace : sound (fun a w => w = a /\ blanks1 a) multispace.
Proof.
  intros s r a H. destruct (sound_take_while1 _ _ _ _ H) as (w & -> & -> & Hne & Hf).
  exists a. repeat split; auto.
Qed.

Lemma sound_space1 : sound (fun a w => w = a /\ tabs1 a) space1.
Proof.
  intros s r a H. destruct (sound_take_while1 _ _ _ _ H) as (w & -> & -> & Hne & Hf).
  exists a. repeat split; [exact Hne|]. rewrite <- Hf.
  apply forallb_ext. intros c. unfold is_space, mem_char, is_space_or_tab. simpl.
  rewrite orb_false_r. reflexivity.
Qed.

Lemma sound_digit : sound (fun a w => w = a /\ digits1 a) digit.
Proof.
  intros s r a H. destruct (sound_take_while1 _ _ _ _ H) as (w & -> & -> & Hne & Hf).
  exists a. repeat split; auto.
Qed.

(** ** Layout *)

Lemma no_trivia_app t r : trivia t -> no_trivia (t ++ r) -> t = [].
Proof.
  intros Ht Hn. destruct Ht as [|t Ht|t Ht|c t Hc Hl Ht]; [reflexivity|..]; exfalso.
  - apply (proj1 Hn). reflexivity.
  - apply (proj1 (proj2 Hn)). reflexivity.
  - apply (proj2 (proj2 Hn)). split; [reflexivity|]. eexists; reflexivity.
Qed.

(** [t] is one or more pieces of trivia *)
Definition trivia1 (t : str) : Prop := trivia t /\ t <> [].

Lemma sp_Ok i ir s r j :
  spaces_or_new_lines_and_indent i ir s = Ok r j ->
  exists t, s = t ++ r /\ no_trivia r /\ trivia1 t /\ (r <> [] -> lay (ir_rel ir) i t j).
Proof.
  intros H. apply sp_iff in H as (t & (He & Ht & Hn & Hc) & Hne & Ha & ->).
  exists t. split; [exact He|]. split; [exact Hn|]. split; [split; assumption|]. intros Hr.
  destruct Hc as [Hc|Hc]; [|contradiction]. repeat split; auto.
Qed.

Lemma sp_ge_Ok i s r j :
  spaces_or_new_lines_and_indent i IR_GTE s = Ok r j ->
  exists t, s = t ++ r /\ no_trivia r /\ trivia1 t /\ (r <> [] -> lay_ge i t j).
Proof. apply sp_Ok. Qed.
Lemma sp_gt_Ok i s r j :
  spaces_or_new_lines_and_indent i IR_GT s = Ok r j ->
  exists t, s = t ++ r /\ no_trivia r /\ trivia1 t /\ (r <> [] -> lay_gt i t j).
Proof. apply sp_Ok. Qed.
Lemma sp_eq_Ok i s r j :
  spaces_or_new_lines_and_indent i IR_EQ s = Ok r j ->
  exists t, s = t ++ r /\ no_trivia r /\ trivia1 t /\ (r <> [] -> lay_eq i t j).
Proof. apply sp_Ok. Qed.

Lemma opt_sp_Ok i s r o :
  opt_sp i s = Ok r o -> exists t, s = t ++ r /\ (r <> [] -> olay i t).
Proof.
  intros H. apply opt_Ok in H as [(j & H & _)|(_ & -> & _)].
  - apply sp_ge_Ok in H as (t & -> & _ & _ & H). exists t. split; [reflexivity|].
    intros Hr. right. exists j. auto.
  - exists []. split; [reflexivity|]. left; reflexivity.
Qed.

Lemma opt_sp'_Ok i s r o :
  opt_spaces_or_new_lines_and_indent i IR_GTE s = Ok r o ->
  exists t, s = t ++ r /\ (r <> [] -> olay i t).
Proof.
  intros H. apply map_Ok in H as (o' & H & _). apply (opt_sp_Ok _ _ _ o'). exact H.
Qed.

Lemma comma_sep_Ok i s r c :
  comma_sep i s = Ok r c ->
  exists t1 t2, s = t1 ++ L "," ++ t2 ++ r /\ olay i t1 /\ (r <> [] -> olay i t2).
Proof.
  unfold comma_sep. intros H. inv.
  match goal with H : opt_sp i s = _, H' : opt_sp i _ = Ok r _ |- _ =>
    apply opt_sp_Ok in H as (t1 & -> & Ht1); apply opt_sp_Ok in H' as (t2 & -> & Ht2) end.
  exists t1, t2. split; [reflexivity|]. split; [apply Ht1; discriminate|exact Ht2].
Qed.

(** ** Automation *)

Create HintDb snddb discriminated.
#[export] Hint Resolve sound_lo_name sound_up_name sound_type_variable sound_operator
  sound_spaces sound_spaces0 sound_spnl sound_multispace0 sound_multispace sound_space1
  sound_digit : snddb.

(** Use the soundness of the sub-parsers on every equation in the context. *)
Ltac use1 :=
  match goal with
  | H : spaces_or_new_lines_and_indent _ IR_GTE _ = Ok _ _ |- _ =>
      apply sp_ge_Ok in H; destruct H as (?t & ? & ?Hnt & ?Htr & H); subst
  | H : spaces_or_new_lines_and_indent _ IR_GT _ = Ok _ _ |- _ =>
      apply sp_gt_Ok in H; destruct H as (?t & ? & ?Hnt & ?Htr & H); subst
  | H : spaces_or_new_lines_and_indent _ IR_EQ _ = Ok _ _ |- _ =>
      apply sp_eq_Ok in H; destruct H as (?t & ? & ?Hnt & ?Htr & H); subst
  | H : opt_sp _ _ = Ok _ _ |- _ =>
      apply opt_sp_Ok in H; destruct H as (?t & ? & H); subst
  | H : opt_spaces_or_new_lines_and_indent _ _ _ = Ok _ _ |- _ =>
      apply opt_sp'_Ok in H; destruct H as (?t & ? & H); subst
  | H : comma_sep _ _ = Ok _ _ |- _ =>
      apply comma_sep_Ok in H; destruct H as (?t & ?t & ? & ?H & H); subst
  | H : ?p ?s = Ok ?r ?a |- _ =>
      let X := fresh "X" in
      eassert (X : sound _ p) by (solve [eauto 2 with snddb nocore]);
      apply X in H; clear X; destruct H as (?w & ? & H); subst
  end.
Ltac conj1 := match goal with H : _ /\ _ |- _ => destruct H; subst end.
Ltac use := repeat first [inv1 | use1 | conj1].

(** ** Types *)

Lemma upper_nonempty n : upper_name n -> n <> [].
Proof. intros (c & t & -> & _). discriminate. Qed.
Lemma lower_nonempty n : lower_name n -> n <> [].
Proof. intros [->|[(c & t & -> & _) _]]; discriminate. Qed.
Lemma operator_nonempty n : operator_name n -> n <> [].
Proof. intros [H _]. exact H. Qed.
Lemma tyvar_nonempty n : type_var_name n -> n <> [].
Proof. intros (c & t & -> & _). discriminate. Qed.
Lemma app_nonempty {A} (a b : list A) : a <> [] -> a ++ b <> [].
Proof. destruct a; [congruence|discriminate]. Qed.

Lemma dotted_nonempty q : qualified q -> dotted q <> [].
Proof.
  intros [Hq HF]. destruct q as [|x q]; [congruence|].
  inversion HF as [|? ? Hx HF']; subst. unfold dotted; destruct q; simpl.
  - apply upper_nonempty, Hx.
  - apply app_nonempty, upper_nonempty, Hx.
Qed.

Lemma GTySimple_nonempty i t w : GTySimple i t w -> w <> [].
Proof. intros H; destruct H; try discriminate. apply tyvar_nonempty; assumption. Qed.
Lemma GTy_nonempty i t w : GTy i t w -> w <> [].
Proof.
  intros H; destruct H; [apply app_nonempty, dotted_nonempty; assumption|].
  eapply GTySimple_nonempty; eassumption.
Qed.
Lemma GParam_nonempty i t w : GParam i t w -> w <> [].
Proof.
  intros H; destruct H; [apply dotted_nonempty; assumption|].
  eapply GTySimple_nonempty; eassumption.
Qed.
Lemma GAnn_nonempty i t w : GAnn i t w -> w <> [].
Proof.
  intros H; destruct H; [|apply app_nonempty]; eapply GTy_nonempty; eassumption.
Qed.

(** Dot-separated upper-case names *)
Lemma dotted_seps s l r : seps (char_ (C ".")) up_name s l r ->
  forall x, upper_name x ->
  exists w, s = w ++ r /\ x ++ w = dotted (x :: l) /\ Forall upper_name l.
Proof.
  induction 1 as [s Hst|s s2 c s3 a l r Hs Hl Hp Hl3 Hrest IH]; intros x Hx.
  - exists []. repeat split; [|constructor]. simpl. apply app_nil_r.
  - use. destruct (IH a) as (w' & -> & He & HF); [assumption|].
    exists (L "." ++ a ++ w'). split; [simpl; rewrite <- app_assoc; reflexivity|].
    split; [|constructor; assumption]. unfold dotted in *. rewrite He. reflexivity.
Qed.

Lemma sound_dotted :
  sound (fun q w => w = dotted q /\ qualified q) (separated_nonempty_list (char_ (C ".")) up_name).
Proof.
  intros s r q H. apply separated_nonempty_list_Ok in H as (x & l & s1 & -> & H & _ & Hs).
  use. destruct (dotted_seps _ _ _ Hs x) as (w & -> & He & HF); [assumption|].
  exists (x ++ w). rewrite <- app_assoc. repeat split; auto; discriminate.
Qed.
#[export] Hint Resolve sound_dotted : snddb.
Lemma sound_module_name : sound (fun q w => w = dotted q /\ qualified q) module_name.
Proof. exact sound_dotted. Qed.
#[export] Hint Resolve sound_module_name : snddb.

Lemma GTyField_nonempty i n t w : GTyField i n t w -> w <> [].
Proof. intros H; destruct H. apply app_nonempty, lower_nonempty; assumption. Qed.
Lemma GTyFields_nonempty i fs w : GTyFields i fs w -> w <> [].
Proof.
  intros H; destruct H; [|apply app_nonempty]; eapply GTyField_nonempty; eassumption.
Qed.
Lemma GTyElems_nonempty i fs w : GTyElems i fs w -> w <> [].
Proof.
  intros H; destruct H; [|apply app_nonempty]; eapply GTy_nonempty; eassumption.
Qed.

(** Side conditions "something follows the layout". *)
Ltac nonnil :=
  match goal with
  | |- _ :: _ <> [] => discriminate
  | |- (_ :: _) ++ _ <> [] => discriminate
  | |- (?a ++ ?b) <> [] =>
      first [ apply app_nonempty; solve
        [ eauto 2 using upper_nonempty, lower_nonempty, operator_nonempty, tyvar_nonempty,
            dotted_nonempty, GTySimple_nonempty, GTy_nonempty, GParam_nonempty, GAnn_nonempty,
            GTyField_nonempty, GTyFields_nonempty, GTyElems_nonempty
        | nonnil ]
      | let H := fresh in intros H; apply app_eq_nil in H; destruct H as [_ H]; revert H;
        change (b <> []); nonnil ]
  end.

(** Discharge the premises [r <> [] -> ..] of layout hypotheses. *)
Ltac layouts :=
  repeat match goal with
  | H : _ <> [] -> _ |- _ => specialize (H ltac:(nonnil))
  end.

Lemma arrow_of_list_cons t1 t2 l a :
  arrow_of_list (t2 :: l) = Some a -> arrow_of_list (t1 :: t2 :: l) = Some (TypeApplication t1 a).
Proof.
  unfold arrow_of_list. destruct l as [|t3 l].
  - intros [= <-]. reflexivity.
  - cbn [rev]. destruct (rev l ++ [t3]) as [|x rl] eqn:Hr.
    { destruct (rev l); discriminate. }
    cbn [app]. destruct (rl ++ [t2]) as [|y rest] eqn:Hr2.
    { destruct rl; discriminate. }
    cbn [app]. intros [= <-]. rewrite fold_left_app. reflexivity.
Qed.

Lemma arrow_of_list_some t l : exists a, arrow_of_list (t :: l) = Some a.
Proof.
  revert t. induction l as [|t2 l IH]; intros t; [eexists; reflexivity|].
  destruct (IH t2) as [a Ha]. eexists. apply arrow_of_list_cons, Ha.
Qed.

Lemma arrow_of_list_app t1 t2 l a :
  arrow_of_list (t1 :: t2 :: l) = Some a ->
  exists b, arrow_of_list (t2 :: l) = Some b /\ a = TypeApplication t1 b.
Proof.
  intros H. destruct (arrow_of_list_some t2 l) as [b Hb]. exists b. split; [exact Hb|].
  rewrite (arrow_of_list_cons _ _ _ _ Hb) in H. congruence.
Qed.

(** Solve the first half of a goal [exists w, S = w ++ r /\ P w]. *)
Ltac prefix_of S r :=
  lazymatch S with
  | ?a ++ r => a
  | ?a :: r => constr:([a])
  | ?a ++ ?b => let p := prefix_of b r in constr:(a ++ p)
  | ?a :: ?b => let p := prefix_of b r in constr:(a :: p)
  end.
Ltac text :=
  repeat rewrite <- app_assoc;
  lazymatch goal with
  | |- exists w, ?S = w ++ ?r /\ _ =>
      let p := prefix_of S r in exists p; split;
      [cbn [app]; repeat (rewrite <- app_assoc; cbn [app]); reflexivity|]
  end.

Section SoundTypes.
  Variable T : N -> parser type_ast.
  Hypothesis HT : forall i, sound (GTy i) (T i).
  Hint Resolve HT : snddb.

  Definition arrow_sep : parser str :=
    delimited spaces_and_newlines (tag (L "->")) spaces_and_newlines.

  Lemma arrows_seps i s l r : seps arrow_sep (T i) s l r ->
    forall t wt a, GTy i t wt -> arrow_of_list (t :: l) = Some a ->
    exists w, wt ++ s = w ++ r /\ GAnn i a w.
  Proof.
    induction 1 as [s Hst|s s2 c s3 t' l r Hs Hl Hp Hl3 Hrest IH]; intros t wt a Ht Ha.
    - injection Ha as <-. exists wt. split; [reflexivity|]. constructor; exact Ht.
    - unfold arrow_sep in Hs. use.
      apply arrow_of_list_app in Ha as (b & Hb & ->).
      edestruct IH as (w' & He & Hw); [exact Hp|exact Hb|]. rewrite He.
      text. eapply GAnn_arrow; eassumption.
  Qed.

  Lemma sound_type_annotation_f i : sound (GAnn i) (type_annotation_f T i).
  Proof.
    intros s r a H. unfold type_annotation_f in H. inv.
    apply separated_nonempty_list_Ok in H as (t & l & s1 & -> & H & _ & Hs). use.
    edestruct (arrows_seps _ _ _ _ Hs) as (w' & He & Hw); [eassumption|eassumption|]. rewrite He.
    text. exact Hw.
  Qed.
  Hint Resolve sound_type_annotation_f : snddb.

  Lemma sound_type_record_pair_f i :
    sound (fun '(n, t) w => GTyField i n t w) (type_record_pair_f T i).
  Proof.
    intros s r a H. unfold type_record_pair_f in H. use. layouts.
    text. econstructor; eassumption.
  Qed.
  Hint Resolve sound_type_record_pair_f : snddb.

  Lemma ty_fields_seps i s l r : seps (comma_sep i) (type_record_pair_f T i) s l r ->
    forall n t wt, GTyField i n t wt ->
    exists w, wt ++ s = w ++ r /\ GTyFields i ((n, t) :: l) w.
  Proof.
    induction 1 as [s Hst|s s2 c s3 f l r Hs Hl Hp Hl3 Hrest IH]; intros n t wt Ht.
    - exists wt. split; [reflexivity|]. constructor; exact Ht.
    - destruct f as [n' t']. use.
      layouts.
      edestruct IH as (w' & He & Hw); [exact Hp|]. rewrite He.
      text. eapply GTyFields_cons; eassumption.
  Qed.

  Definition GTyFieldsO i fs w := (fs = [] /\ w = []) \/ GTyFields i fs w.
  Lemma sound_type_record_pairs_f i : sound (GTyFieldsO i) (type_record_pairs_f T i).
  Proof.
    intros s r a H. unfold type_record_pairs_f in H.
    apply separated_list_Ok in H as [(-> & -> & _)|([n t] & l & s1 & -> & H & _ & Hs)].
    - exists []. split; [reflexivity|left; auto].
    - use. edestruct (ty_fields_seps _ _ _ _ Hs) as (w' & He & Hw); [eassumption|]. rewrite He.
      text. right; exact Hw.
  Qed.
  Hint Resolve sound_type_record_pairs_f : snddb.

  Lemma ty_elems_seps i s l r : seps (comma_sep i) (T i) s l r ->
    forall t wt, GTy i t wt ->
    exists w, wt ++ s = w ++ r /\ GTyElems i (t :: l) w.
  Proof.
    induction 1 as [s Hst|s s2 c s3 t' l r Hs Hl Hp Hl3 Hrest IH]; intros t wt Ht.
    - exists wt. split; [reflexivity|]. constructor; exact Ht.
    - use. layouts.
      edestruct IH as (w' & He & Hw); [exact Hp|]. rewrite He.
      text. eapply GTyElems_cons; eassumption.
  Qed.

  Lemma sound_type_tuple_f i : sound (GTySimple i) (type_tuple_f T i).
  Proof.
    intros s r a H. unfold type_tuple_f in H. inv.
    match goal with H : separated_list _ _ _ = _ |- _ =>
      apply separated_list_Ok in H as [(-> & -> & _)|(t & l & s3 & -> & H & _ & Hs)] end; use.
    - layouts. text. apply GTy_unit; assumption.
    - layouts. edestruct (ty_elems_seps _ _ _ _ Hs) as (w' & He & Hw); [eassumption|]. rewrite He.
      text. apply GTy_tuple; assumption.
  Qed.

  Hint Resolve sound_type_tuple_f : snddb.

  Lemma sound_type_record_constructor_f i : sound (GTySimple i) (type_record_constructor_f T i).
  Proof.
    intros s r a H. unfold type_record_constructor_f in H. use.
    match goal with H : exists _, _ |- _ => destruct H as (n & -> & -> & Hn) end.
    match goal with H : GTyFieldsO _ _ _ |- _ => destruct H as [[-> ->]|Hfs] end.
    - exfalso. cbn [app] in *.
      match goal with H : no_trivia (?t ++ _), H' : trivia1 ?t |- _ =>
        destruct H' as [H1' H2']; apply H2', (no_trivia_app _ _ H1' H) end.
    - layouts. text. eapply GTy_extension; eassumption.
  Qed.
  Hint Resolve sound_type_record_constructor_f : snddb.

  Lemma sound_type_record_f i : sound (GTySimple i) (type_record_f T i).
  Proof.
    intros s r a H. unfold type_record_f in H. use.
    match goal with H : GTyFieldsO _ _ _ |- _ => destruct H as [[-> ->]|Hfs] end; layouts.
    - text. eapply GTy_record_empty; eassumption.
    - text. eapply GTy_record; eassumption.
  Qed.
  Hint Resolve sound_type_record_f : snddb.

  Lemma type_parens_arrow i s r t :
    type_parens_f T i s = Ok r t -> type_tuple_f T i s = Err ->
    exists a b, t = TypeApplication a b.
  Proof.
    intros H Ht. unfold type_parens_f, type_annotation_f in H.
    apply delimited_Ok in H as (s1 & x & s2 & y & H1 & H2 & H3).
    apply map_res_Ok in H2 as (l & H2 & Hl).
    apply separated_nonempty_list_Ok in H2 as (t1 & l' & s3 & -> & H2 & Hne & Hs).
    destruct l' as [|t2 l'].
    - exfalso. inversion Hs; subst. clear Hs. revert Ht.
      unfold type_tuple_f, map_, delimited, bind. rewrite H1. unfold separated_list. rewrite H2.
      destruct (Nat.eqb_spec (length s2) (length s1)); [contradiction|]. cbn [sep_loop].
      apply terminated_Ok in H3 as (s4 & z & H3 & H4). apply char_Ok in H4 as [-> ->].
      unfold comma_sep, delimited, bind at 1. rewrite H3. unfold bind at 1. cbn [char_ N.eqb Pos.eqb].
      unfold terminated, bind. rewrite H3. discriminate.
    - apply arrow_of_list_app in Hl as (b & _ & ->). eauto.
  Qed.

  Lemma sound_type_parens_f i s r a b :
    type_parens_f T i s = Ok r (TypeApplication a b) ->
    exists w, s = w ++ r /\ GTySimple i (TypeApplication a b) w.
  Proof.
    intros H. unfold type_parens_f in H. use. layouts. text. eapply GTy_parens; eassumption.
  Qed.

  Lemma sound_type_constant :
    sound (fun t w => exists q, t = TypeConstructor q [] /\ w = dotted q /\ qualified q) type_constant.
  Proof. intros s r a H. unfold type_constant in H. use. text. eauto. Qed.
  Hint Resolve sound_type_constant : snddb.

  (** the alternatives shared by [type_] and [type_parameter] *)
  Lemma sound_simple i : sound (GTySimple i)
    (type_record_constructor_f T i <|> type_record_f T i <|> type_tuple_f T i <|> type_parens_f T i).
  Proof.
    intros s r a H. apply alt_Ok in H as [H|[_ H]]; [use; eexists; eauto|].
    apply alt_Ok in H as [H|[_ H]]; [use; eexists; eauto|].
    apply alt_Ok in H as [H|[Ht H]]; [use; eexists; eauto|].
    destruct (type_parens_arrow _ _ _ _ H Ht) as (x & y & ->).
    apply sound_type_parens_f; exact H.
  Qed.
  Hint Resolve sound_simple : snddb.

  Lemma sound_type_parameter_f i : sound (GParam i) (type_parameter_f T i).
  Proof.
    intros s r a H. unfold type_parameter_f in H.
    apply alt_Ok in H as [H|[_ H]].
    { use. destruct H as (n & -> & -> & Hn). eexists; split; [reflexivity|].
      apply GParam_simple, GTy_variable, Hn. }
    apply alt_Ok in H as [H|[_ H]].
    { use. destruct H as (q & -> & -> & Hn). eexists; split; [reflexivity|].
      apply GParam_constant, Hn. }
    apply sound_simple in H as (w & -> & H). eexists; split; [reflexivity|].
    apply GParam_simple, H.
  Qed.
  Hint Resolve sound_type_parameter_f : snddb.

  Definition type_arg i : parser type_ast :=
    new_indent <- spaces_or_new_lines_and_indent i IR_GT ;;
    t <- type_parameter_f T new_indent ;;
    ret t.

  Lemma params_manys i s l r : manys (type_arg i) s l r ->
    exists w, s = w ++ r /\ GParams i l w.
  Proof.
    induction 1 as [s Hst|s s2 a l r Hp Hl Hrest (w & -> & IH)].
    - exists []. split; [reflexivity|constructor].
    - unfold type_arg in Hp. use. layouts. text. econstructor; eassumption.
  Qed.

  Lemma sound_type_constructor_f i :
    sound (fun t w => exists q args w', t = TypeConstructor q args /\ w = dotted q ++ w' /\
             qualified q /\ GParams i args w') (type_constructor_f T i).
  Proof.
    intros s r a H. unfold type_constructor_f in H. use.
    match goal with H : many0 _ _ = _ |- _ =>
      apply many0_Ok, params_manys in H as (w & -> & H) end.
    text. eauto 8.
  Qed.
  Hint Resolve sound_type_constructor_f : snddb.

  Lemma sound_type_f i : sound (GTy i) (type_f T i).
  Proof.
    intros s r a H. unfold type_f in H.
    apply alt_Ok in H as [H|[_ H]].
    { use. destruct H as (q & args & w' & -> & -> & Hq & Hw).
      eexists; split; [reflexivity|]. constructor; assumption. }
    apply alt_Ok in H as [H|[_ H]].
    { use. destruct H as (n & -> & -> & Hn). eexists; split; [reflexivity|].
      apply GTy_simple, GTy_variable, Hn. }
    apply sound_simple in H as (w & -> & H). eexists; split; [reflexivity|].
    apply GTy_simple, H.
  Qed.
End SoundTypes.

Lemma sound_type_n n : forall i, sound (GTy i) (type_n n i).
Proof.
  induction n as [|n IH]; intros i s r a H; [discriminate|].
  cbn [type_n] in H. exact (sound_type_f _ IH _ _ _ _ H).
Qed.
Lemma sound_type i : sound (GTy i) (type_ i).
Proof. intros s r a H. exact (sound_type_n _ _ _ _ _ H). Qed.
#[export] Hint Resolve sound_type : snddb.
Lemma sound_type_annotation i : sound (GAnn i) (type_annotation i).
Proof. apply sound_type_annotation_f, sound_type. Qed.
#[export] Hint Resolve sound_type_annotation : snddb.
Lemma sound_type_constructor i :
  sound (fun t w => exists q args w', t = TypeConstructor q args /\ w = dotted q ++ w' /\
           qualified q /\ GParams i args w') (type_constructor i).
Proof. apply sound_type_constructor_f, sound_type. Qed.
#[export] Hint Resolve sound_type_constructor : snddb.
