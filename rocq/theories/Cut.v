(** * Cutting a declaration out of its file

    The rules of Language.v say what the rest [r] of a text looks like after a
    phrase.  Here the text is [c ++ w], where [w] begins with a blank, and the
    phrase lies within [c]: is [c] alone read in the same way, and conversely? *)
From Verif Require Import Base Nom Regex Ast Good Spec Helpers Types Expr Stmt Lexers Total
  Layout Seqs Grammar Follow Sound SoundE SoundS LexProps Heads Rules Render CompleteT CompleteE
  CompleteX CompleteS Round Language Chains Exact Keywords Decls Brackets TypesExact.

(** [r] goes on, after blank space, with a character satisfying [P] *)
Definition follow (P : char -> bool) (r : str) : Prop :=
  exists b c s, r = b ++ c :: s /\ trivia b /\ closed b /\ no_trivia (c :: s) /\ P c = true.
Definition no_open (c : char) : bool := negb ((c =? C "(")%N || (c =? C "{")%N).
Definition no_arrow (c : char) : bool := no_open c && negb (c =? C "-")%N.

Definition suffix {A} (R : str -> A -> str -> Prop) : Prop :=
  forall s x r, R s x r -> exists p, p <> [] /\ s = p ++ r.

Lemma split_app {A} (a b r w : list A) : a ++ b = r ++ w ->
  (exists m, r = a ++ m /\ b = m ++ w) \/ (exists m, m <> [] /\ a = r ++ m /\ w = m ++ b).
Proof.
  revert r. induction a as [|x a IH]; intros r; cbn [app].
  - intros ->. left. eauto.
  - destruct r as [|y r]; cbn [app].
    + intros <-. right. exists (x :: a). split; [discriminate|auto].
    + intros [= -> H]. destruct (IH _ H) as [(m & -> & ->)|(m & Hm & -> & ->)]; [left|right]; eauto.
Qed.

Lemma suffix_type i : suffix (reads_type i).
Proof.
  intros s t r H. pose proof (eats_type i _ _ _ H) as Hl. apply sound_type in H as (p & -> & _). exists p.
  split; [|reflexivity]. intros ->. cbn in Hl. lia.
Qed.


Lemma blank_cases c : is_blank c = true -> c = 32%N \/ c = 9%N \/ c = 13%N \/ c = 10%N.
Proof.
  unfold is_blank. cbn [mem_char existsb]. intros H.
  repeat (apply orb_true_iff in H as [H|H]; [apply N.eqb_eq in H; auto|]). discriminate H.
Qed.
Lemma blank_name c : is_blank c = true -> is_name_char c = false.
Proof. intros H. destruct (blank_cases c H) as [->|[->|[->| ->]]]; reflexivity. Qed.
Lemma blank_tyvar c : is_blank c = true -> is_tyvar_char c = false.
Proof. intros H. destruct (blank_cases c H) as [->|[->|[->| ->]]]; reflexivity. Qed.
Lemma blank_op c : is_blank c = true -> is_op_char c = false.
Proof. intros H. destruct (blank_cases c H) as [->|[->|[->| ->]]]; reflexivity. Qed.
Definition no_blanks (s : str) : Prop := forall c, In c s -> is_blank c = false.
Lemma no_blanks_app a b : no_blanks a -> no_blanks b -> no_blanks (a ++ b).
Proof. intros Ha Hb c Hc. apply in_app_or in Hc as [Hc|Hc]; auto. Qed.
Lemma no_blanks_forallb P s : (forall c, is_blank c = true -> P c = false) -> forallb P s = true -> no_blanks s.
Proof.
  intros HP Hs c Hc. rewrite forallb_forall in Hs. specialize (Hs c Hc). destruct (is_blank c) eqn:E; [|reflexivity].
  rewrite (HP c E) in Hs. discriminate Hs.
Qed.
Lemma upper_no_blanks n : upper_name n -> no_blanks n.
Proof.
  intros (c & t & -> & Hc & Ht). intros x [<-|Hx].
  - destruct (is_blank c) eqn:E; [|reflexivity]. destruct (blank_cases c E) as [->|[->|[->| ->]]]; discriminate Hc.
  - exact (no_blanks_forallb _ _ blank_name Ht x Hx).
Qed.
Lemma lower_no_blanks n : lower_name n -> no_blanks n.
Proof.
  intros [->|[(c & t & -> & Hc & Ht) _]]; [intros x [<-|[]]; reflexivity|]. intros x [<-|Hx].
  - destruct (is_blank c) eqn:E; [|reflexivity]. destruct (blank_cases c E) as [->|[->|[->| ->]]]; discriminate Hc.
  - exact (no_blanks_forallb _ _ blank_name Ht x Hx).
Qed.
Lemma tyvar_no_blanks n : type_var_name n -> no_blanks n.
Proof.
  intros (c & t & -> & Hc & Ht). intros x [<-|Hx].
  - destruct (is_blank c) eqn:E; [|reflexivity]. destruct (blank_cases c E) as [->|[->|[->| ->]]]; discriminate Hc.
  - exact (no_blanks_forallb _ _ blank_tyvar Ht x Hx).
Qed.
Lemma dotted_no_blanks q : Forall upper_name q -> no_blanks (dotted q).
Proof.
  unfold dotted. induction 1 as [|n q Hn Hq IH]; [intros c []|].
  destruct q as [|m q]; [cbn [join]; apply upper_no_blanks, Hn|].
  change (join (L ".") (n :: m :: q)) with (n ++ L "." ++ join (L ".") (m :: q)).
  apply no_blanks_app; [apply upper_no_blanks, Hn|]. apply no_blanks_app; [intros c [<-|[]]; reflexivity|exact IH].
Qed.
Lemma trivia_app_closed a b : trivia a -> closed a -> trivia b -> trivia (a ++ b).
Proof.
  induction 1 as [|t Ht IH|t Ht IH|c t Hc Hl Ht IH]; intros Hcl Hb; cbn [app].
  - exact Hb.
  - constructor. apply IH; [|exact Hb]. revert Hcl. unfold closed. cbn [last_line].
    destruct (has_newline t) eqn:E; [auto|]. cbn. rewrite last_line_no_newline by exact E. auto.
  - constructor. apply IH; [|exact Hb]. revert Hcl. unfold closed. cbn [last_line].
    destruct (has_newline t) eqn:E; [auto|]. cbn. rewrite last_line_no_newline by exact E. auto.
  - destruct t as [|d t].
    + exfalso. rewrite app_nil_r in Hcl. unfold closed in Hcl. rewrite last_line_no_newline in Hcl.
      * discriminate Hcl.
      * cbn. clear -Hc. induction c as [|x c IH]; [reflexivity|]. cbn in Hc |- *. apply andb_true_iff in Hc as [H1 H2].
        unfold not_newline in H1. apply negb_true_iff in H1. rewrite H1. auto.
    + cbn in Hl. subst d. rewrite <- app_assoc. apply (trivia_comment c ((newline :: t) ++ b)); [exact Hc|reflexivity|].
      apply IH; [|exact Hb]. revert Hcl. unfold closed. rewrite app_assoc, last_line_app_newline; [auto|reflexivity].
Qed.

Section Cut.
  Variable w : str.
  Hypothesis Hw : exists h w', w = h :: w' /\ is_blank h = true.

  Lemma ends_w P r : (forall c, is_blank c = true -> P c = false) -> ends P (r ++ w) <-> ends P r.
  Proof.
    intros HP. destruct r as [|c r]; [|cbn; tauto]. destruct Hw as (h & w' & -> & Hh). cbn. rewrite (HP h Hh). tauto.
  Qed.
  Lemma no_blanks_within u r c : no_blanks u -> u ++ r = c ++ w -> exists r0, c = u ++ r0 /\ r = r0 ++ w.
  Proof.
    intros Hu E. destruct (split_app _ _ _ _ E) as [(m & -> & ->)|(m & Hm & -> & E')]; [eauto|].
    exfalso. destruct Hw as (h & w' & E2 & Hh). rewrite E2 in E'. destruct m as [|x m]; [congruence|].
    injection E' as <- _. rewrite (Hu h) in Hh; [discriminate|]. apply in_or_app. right. left. reflexivity.
  Qed.
  Lemma ends_dotted_w r : ends_dotted (r ++ w) <-> ends_dotted r.
  Proof.
    unfold ends_dotted. rewrite (ends_w is_name_char r blank_name).
    split; intros [H1 H2]; (split; [exact H1|]); intros (n & r' & E & Hn); apply H2.
    - exists n, (r' ++ w). rewrite E, <- !app_assoc. auto.
    - rewrite app_assoc in E. symmetry in E. apply no_blanks_within in E as (r0 & -> & ->).
      + exists n, r0. rewrite <- app_assoc. auto.
      + apply no_blanks_app; [intros c [<-|[]]; reflexivity|apply upper_no_blanks, Hn].
  Qed.
  Lemma dotted_w c q r : dotted_at (c ++ w) q (r ++ w) <-> dotted_at c q r.
  Proof.
    unfold dotted_at. rewrite ends_dotted_w. split; intros (E & H1 & H2); (split; [|auto]).
    - rewrite app_assoc in E. apply app_inv_tail in E. exact E.
    - rewrite E, <- app_assoc. reflexivity.
  Qed.
  Lemma dotted_within c q r : dotted_at (c ++ w) q r -> exists r0, r = r0 ++ w.
  Proof.
    intros (E & [_ H] & _). symmetry in E. apply no_blanks_within in E as (r0 & _ & ->); [eauto|apply dotted_no_blanks, H].
  Qed.
  Lemma tyvar_w c n r : type_variable_at (c ++ w) n (r ++ w) <-> type_variable_at c n r.
  Proof.
    unfold type_variable_at. rewrite (ends_w is_tyvar_char r blank_tyvar). split; intros (E & H1 & H2); (split; [|auto]).
    - rewrite app_assoc in E. apply app_inv_tail in E. exact E.
    - rewrite E, <- app_assoc. reflexivity.
  Qed.
  Lemma tyvar_within c n r : type_variable_at (c ++ w) n r -> exists r0, r = r0 ++ w.
  Proof.
    intros (E & H & _). symmetry in E. apply no_blanks_within in E as (r0 & _ & ->); [eauto|apply tyvar_no_blanks, H].
  Qed.

  Lemma no_trivia_w c s : no_trivia (c :: s) -> no_trivia (c :: s ++ w).
  Proof.
    intros (H1 & H2 & H3). split; [exact H1|]. split; [exact H2|]. intros (-> & r & E). apply H3. split; [reflexivity|].
    destruct s as [|d s]; [|injection E as -> _; eauto].
    destruct Hw as (h & w' & -> & Hh). injection E as -> _. discriminate Hh.
  Qed.
  Lemma follow_w P r : follow P r -> follow P (r ++ w).
  Proof.
    intros (b & c & s & -> & H1 & H2 & H3 & H4). exists b, c, (s ++ w). rewrite <- app_assoc.
    split; [reflexivity|]. split; [exact H1|]. split; [exact H2|]. split; [apply no_trivia_w, H3|exact H4].
  Qed.
  (** blank space before a token is the whole run of blank space *)
  Lemma follow_run P r : follow P r -> forall b c s, r = b ++ c :: s -> trivia b -> closed b -> no_trivia (c :: s) -> P c = true.
  Proof.
    intros (b & c & s & -> & H1 & H2 & H3 & H4) b' c' s' E H1' H2' H3'.
    destruct (trivia_run_unique (b ++ c :: s) b (c :: s) b' (c' :: s')) as [_ E'].
    - split; [reflexivity|]. auto.
    - split; [exact E|]. auto.
    - injection E' as <- _. exact H4.
  Qed.

  (** *** Repetitions *)
  Section Items.
    Context {A : Type} (sep : str -> Prop) (R : str -> A -> str -> Prop) (n : nat).
    Hypothesis Hsuf : suffix R.
    Lemma items_suffix s l r : items sep R s l r -> exists p, s = p ++ r.
    Proof.
      induction 1 as [r|t s x s' l r Ht Hx Hl (p & ->)]; [exists []; reflexivity|].
      destruct (Hsuf _ _ _ Hx) as (p' & _ & ->). exists (t ++ p' ++ p). rewrite <- !app_assoc. reflexivity.
    Qed.
    Lemma items_shrink : (forall c x r, length c < n -> R (c ++ w) x (r ++ w) -> R c x r) ->
      forall c l r, length c < n -> items sep R (c ++ w) l (r ++ w) -> items sep R c l r.
    Proof.
      intros HR c l r Hn H. remember (c ++ w) as s eqn:Es. remember (r ++ w) as r' eqn:Er. revert c r Hn Es Er.
      induction H as [r0|t s x s' l r0 Ht Hx Hl IH]; intros c r Hn Es Er.
      - rewrite Er in Es. apply app_inv_tail in Es. subst. constructor.
      - subst r0. destruct (items_suffix _ _ _ Hl) as (p & ->). destruct (Hsuf _ _ _ Hx) as (p' & Hp' & ->).
        assert (E : c = t ++ p' ++ p ++ r).
        { apply (app_inv_tail w). rewrite <- Es, <- !app_assoc. reflexivity. }
        subst c. rewrite !app_length in Hn. apply (items_cons sep R t (p' ++ p ++ r) x (p ++ r) l r); [exact Ht| |].
        + apply HR; [rewrite !app_length; lia|]. rewrite <- !app_assoc. exact Hx.
        + apply IH; [rewrite !app_length; lia|rewrite <- !app_assoc; reflexivity|reflexivity].
    Qed.
    Lemma items_grow (F : str -> Prop) : (forall t s, sep t -> F (t ++ s)) ->
      (forall c x r, length c < n -> R c x r -> F r -> R (c ++ w) x (r ++ w)) ->
      forall c l r, length c < n -> items sep R c l r -> F r -> items sep R (c ++ w) l (r ++ w).
    Proof.
      intros HF HR c l r Hn H Hr. induction H as [r|t s x s' l r Ht Hx Hl IH]; [constructor|].
      destruct (Hsuf _ _ _ Hx) as (p' & Hp' & E). rewrite <- app_assoc. subst s.
      rewrite !app_length in Hn. econstructor; [exact Ht| |apply IH; [lia|exact Hr]].
      apply HR; [rewrite app_length; lia|exact Hx|].
      inversion Hl; subst; auto.
    Qed.
    Lemma no_item_shrink : (forall c x r, length c < n -> R c x r -> exists x' r', R (c ++ w) x' r') ->
      forall r, length r < n -> no_item sep R (r ++ w) -> no_item sep R r.
    Proof.
      intros HR r Hn H t s x r' -> Ht Hx. rewrite app_length in Hn.
      destruct (HR s x r' ltac:(lia) Hx) as (x' & r2 & Hx').
      exact (H t (s ++ w) x' r2 (eq_sym (app_assoc _ _ _)) Ht Hx').
    Qed.
  End Items.

  (** *** Types *)
  Lemma olay_closed i t : olay i t -> trivia t /\ closed t.
  Proof. intros [->|(j & H1 & H2 & _)]; [split; [constructor|reflexivity]|auto]. Qed.
  Lemma follow_olay P i t c s : olay i t -> no_trivia (c :: s) -> P c = true -> follow P (t ++ c :: s).
  Proof. intros H H1 H2. destruct (olay_closed i t H). exists t, c, s. auto. Qed.
  Lemma follow_comma P i t s : comma i t -> P (C ",") = true -> follow P (t ++ s).
  Proof.
    intros (t1 & t2 & -> & H1 & H2) HP. rewrite <- !app_assoc. apply (follow_olay P i t1 (C ",") (t2 ++ s)); [exact H1| |exact HP].
    split; [discriminate|]. split; [discriminate|]. intros [H _]. discriminate H.
  Qed.
  Lemma spnl_trivia b : forallb is_space_or_newline b = true -> trivia b /\ closed b.
  Proof.
    induction b as [|c b IH]; cbn [forallb]; [split; [constructor|reflexivity]|].
    intros H. apply andb_true_iff in H as [Hc H]. destruct (IH H) as [H1 H2]. unfold is_space_or_newline in Hc.
    apply orb_true_iff in Hc as [Hc|Hc]; apply N.eqb_eq in Hc; subst c; (split; [constructor; exact H1|]);
      revert H2; unfold closed; cbn [last_line]; destruct (has_newline b) eqn:E; auto;
      rewrite last_line_no_newline by exact E; cbn; auto.
  Qed.
  Lemma follow_arrow P t s : arrow t -> P (C "-") = true -> follow P (t ++ s).
  Proof.
    intros (b1 & b2 & -> & [_ H1] & H2) HP. apply spnl_trivia in H1 as [H1 H1'].
    exists b1, (C "-"), (L ">" ++ b2 ++ s). rewrite <- !app_assoc. split; [reflexivity|]. split; [exact H1|].
    split; [exact H1'|]. split; [|exact HP]. split; [discriminate|]. split; [discriminate|]. intros [_ (r & E)]. discriminate E.
  Qed.
  Lemma follow_imp (P Q : char -> bool) r : (forall c, P c = true -> Q c = true) -> follow P r -> follow Q r.
  Proof. intros H (b & c & s & E & H1 & H2 & H3 & H4). exists b, c, s. auto 6. Qed.

  Definition shrinks {A} (n : nat) (R : str -> A -> str -> Prop) : Prop :=
    forall c x r, length c < n -> R (c ++ w) x (r ++ w) -> R c x r.
  Definition grows {A} (n : nat) (F : str -> Prop) (R : str -> A -> str -> Prop) : Prop :=
    forall c x r, length c < n -> R c x r -> F r -> R (c ++ w) x (r ++ w).
  Definition exists_ {A} (n : nat) (R : str -> A -> str -> Prop) : Prop :=
    forall c x r, length c < n -> R c x r -> exists x' r', R (c ++ w) x' r'.

  Lemma no_arrow_here {A} (R : str -> A -> str -> Prop) r : follow no_arrow r -> no_item arrow R r.
  Proof.
    intros Hr t s x r' -> Ha _. destruct (follow_arrow (fun _ => true) t s Ha eq_refl) as (b & c & s0 & E & H1 & H2 & H3 & _).
    pose proof (follow_run _ _ Hr b c s0 E H1 H2 H3) as Hc.
    destruct Ha as (b1 & b2 & -> & [_ Hb] & _). apply spnl_trivia in Hb as [Hb Hb'].
    rewrite <- !app_assoc in Hr.
    pose proof (follow_run _ _ Hr b1 (C "-") (L ">" ++ b2 ++ s) eq_refl Hb Hb') as H. cbv in H. discriminate H.
    split; [discriminate|]. split; [discriminate|]. intros [_ (r & Er)]. discriminate Er.
  Qed.

  Section Below.
    Variable n : nat.
    Hypothesis HS : forall i, shrinks n (reads_type i).
    Hypothesis HG : forall i, grows n (follow no_open) (reads_type i).
    Hypothesis HX : forall i, exists_ n (reads_type i).

    Lemma annotation_suffix i : suffix (annotation_rule reads_type i).
    Proof.
      intros s t r (a & s1 & l & Ha & Hl & _). destruct (suffix_type i _ _ _ Ha) as (p & Hp & ->).
      destruct (items_suffix _ _ (suffix_type i) _ _ _ Hl) as (p' & ->). exists (p ++ p').
      rewrite <- app_assoc. split; [destruct p; [congruence|discriminate]|reflexivity].
    Qed.
    Lemma annotation_shrinks i : shrinks n (annotation_rule reads_type i).
    Proof.
      intros c t r Hn (a & s1 & l & Ha & Hl & Hno & ->). destruct (items_suffix _ _ (suffix_type i) _ _ _ Hl) as (p & ->).
      destruct (suffix_type i _ _ _ Ha) as (p' & Hp' & E). assert (c = p' ++ p ++ r).
      { apply (app_inv_tail w). rewrite E, <- !app_assoc. reflexivity. }
      subst c. rewrite !app_length in Hn. exists a, (p ++ r), l. split; [|split; [|split; [|reflexivity]]].
      - apply HS; [rewrite !app_length; lia|]. rewrite <- !app_assoc. rewrite <- !app_assoc in Ha. exact Ha.
      - eapply (items_shrink arrow (reads_type i) n (suffix_type i) (HS i)); [rewrite app_length; lia|].
        rewrite <- app_assoc. exact Hl.
      - eapply (no_item_shrink arrow (reads_type i) n (HX i)); [lia|exact Hno].
    Qed.
    Lemma types_grow i c l r (F : str -> Prop) : (forall t s, arrow t -> F (t ++ s)) -> (forall r, F r -> follow no_open r) ->
      length c < n -> items arrow (reads_type i) c l r -> F r -> items arrow (reads_type i) (c ++ w) l (r ++ w).
    Proof.
      intros H1 H2 Hn H Hr. eapply (items_grow arrow (reads_type i) n (suffix_type i) F); eauto.
      intros c0 x r0 H3 H4 H5. apply HG; auto.
    Qed.
    Lemma no_arrow_open c : no_arrow c = true -> no_open c = true.
    Proof. unfold no_arrow. intros H. apply andb_true_iff in H. apply H. Qed.
    Lemma items_follow {A} P (R : str -> A -> str -> Prop) (sep : str -> Prop) s l r :
      (forall t s, sep t -> follow P (t ++ s)) -> items sep R s l r -> follow P r -> follow P s.
    Proof. intros H Hl Hr. inversion Hl; subst; auto. Qed.
    Lemma arrows_follow i s l r : items arrow (reads_type i) s l r -> follow no_arrow r -> follow no_open s.
    Proof.
      intros Hl Hr. eapply items_follow; [|exact Hl|eapply follow_imp; [apply no_arrow_open|exact Hr]].
      intros t s0 H. apply follow_arrow; auto.
    Qed.
    Lemma annotation_grows i : grows n (follow no_arrow) (annotation_rule reads_type i).
    Proof.
      intros c t r Hn (a & s1 & l & Ha & Hl & Hno & ->) Hr.
      destruct (suffix_type i _ _ _ Ha) as (p' & Hp' & E). subst c. rewrite app_length in Hn.
      exists a, (s1 ++ w), l. split; [|split; [|split; [|reflexivity]]].
      - apply HG; [rewrite app_length; lia|exact Ha|]. eapply arrows_follow; eassumption.
      - apply (types_grow i s1 l r (follow no_open)).
        + intros t s H. apply follow_arrow; auto.
        + auto.
        + lia.
        + exact Hl.
        + eapply follow_imp; [apply no_arrow_open|exact Hr].
      - apply no_arrow_here, follow_w, Hr.
    Qed.

    Lemma field_suffix i : suffix (type_field_rule reads_type i).
    Proof.
      intros s f r (t1 & t2 & s1 & -> & _ & _ & _ & H). destruct (annotation_suffix i _ _ _ H) as (p & _ & ->).
      exists (fst f ++ t1 ++ L ":" ++ t2 ++ p). rewrite <- !app_assoc. split; [|reflexivity].
      intros E. apply app_eq_nil in E as [_ E]. apply app_eq_nil in E as [_ E]. discriminate E.
    Qed.
    Lemma field_shrinks i : shrinks n (type_field_rule reads_type i).
    Proof.
      intros c f r Hn (t1 & t2 & s1 & E & H1 & H2 & H3 & H). destruct (annotation_suffix i _ _ _ H) as (p & Hp & ->).
      assert (c = fst f ++ t1 ++ L ":" ++ t2 ++ p ++ r).
      { apply (app_inv_tail w). rewrite E, <- !app_assoc. reflexivity. }
      subst c. exists t1, t2, (p ++ r). split; [reflexivity|]. split; [exact H1|]. split; [exact H2|]. split; [exact H3|].
      rewrite !app_length in Hn. apply annotation_shrinks; [rewrite app_length; lia|].
      rewrite <- app_assoc. exact H.
    Qed.
    Lemma field_grows i : grows n (follow no_arrow) (type_field_rule reads_type i).
    Proof.
      intros c f r Hn (t1 & t2 & s1 & -> & H1 & H2 & H3 & H) Hr. rewrite !app_length in Hn.
      exists t1, t2, (s1 ++ w). rewrite <- !app_assoc. split; [reflexivity|]. split; [exact H1|]. split; [exact H2|].
      split; [exact H3|]. apply annotation_grows; [lia|exact H|exact Hr].
    Qed.
    Lemma close_follow P i t c s : olay i t -> (c = C ")" \/ c = C "}" \/ c = C "]") -> P c = true -> follow P (t ++ c :: s).
    Proof.
      intros H Hc HP. apply (follow_olay P i); [exact H| |exact HP].
      destruct Hc as [->|[->| ->]]; (split; [discriminate|]; split; [discriminate|]; intros [E _]; discriminate E).
    Qed.

    Lemma tail_eq c (a b : str) : c ++ w = a ++ b ++ w -> c = a ++ b.
    Proof. intros E. apply (app_inv_tail w). rewrite E, <- app_assoc. reflexivity. Qed.
    Lemma items_bracket_shrink {A} i (R : str -> A -> str -> Prop) s l t x r :
      suffix R -> shrinks n R -> length s < n -> items (comma i) R (s ++ w) l (t ++ x ++ r ++ w) ->
      items (comma i) R s l (t ++ x ++ r).
    Proof.
      intros H1 H2 Hn H. eapply (items_shrink (comma i) R n H1 H2); [exact Hn|]. rewrite <- !app_assoc. exact H.
    Qed.

    Lemma record_shrinks i : shrinks n (type_record_rule reads_type i).
    Proof.
      intros c t r Hn [(t1 & E & H1 & ->)|[(t1 & s1 & f & s2 & fs & t2 & E & H1 & Hf & Hfs & H2 & ->)|
        (t1 & j1 & m & t2 & j2 & t3 & j3 & s1 & f & s2 & fs & t4 & j4 & E & H1 & Hm & H2 & H3 & Hf & Hfs & H4 & ->)]].
      - left. exists t1. split; [|auto]. apply (app_inv_tail w). rewrite E, <- !app_assoc. reflexivity.
      - right. left. destruct (items_suffix _ _ (field_suffix i) _ _ _ Hfs) as (p & ->).
        destruct (field_suffix i _ _ _ Hf) as (p' & Hp' & ->).
        assert (c = t1 ++ p' ++ p ++ t2 ++ L "}" ++ r).
        { apply (app_inv_tail w). rewrite E, <- !app_assoc. reflexivity. }
        subst c. rewrite !app_length in Hn.
        exists t1, (p' ++ p ++ t2 ++ L "}" ++ r), f, (p ++ t2 ++ L "}" ++ r), fs, t2.
        split; [reflexivity|]. split; [exact H1|]. split; [|split; [|auto]].
        + apply field_shrinks; [rewrite !app_length; lia|]. rewrite <- !app_assoc. exact Hf.
        + eapply (items_shrink (comma i) _ n (field_suffix i) (field_shrinks i)); [rewrite !app_length; lia|].
          rewrite <- !app_assoc. exact Hfs.
      - right. right. destruct (items_suffix _ _ (field_suffix i) _ _ _ Hfs) as (p & ->).
        destruct (field_suffix i _ _ _ Hf) as (p' & Hp' & ->).
        assert (c = t1 ++ m ++ t2 ++ L "|" ++ t3 ++ p' ++ p ++ t4 ++ L "}" ++ r).
        { apply (app_inv_tail w). rewrite E, <- !app_assoc. reflexivity. }
        subst c. rewrite !app_length in Hn.
        exists t1, j1, m, t2, j2, t3, j3, (p' ++ p ++ t4 ++ L "}" ++ r), f, (p ++ t4 ++ L "}" ++ r), fs, t4, j4.
        split; [reflexivity|]. do 4 (split; [assumption|]). split; [|split; [|auto]].
        + apply field_shrinks; [rewrite !app_length; lia|]. rewrite <- !app_assoc. exact Hf.
        + eapply (items_shrink (comma i) _ n (field_suffix i) (field_shrinks i)); [rewrite !app_length; lia|].
          rewrite <- !app_assoc. exact Hfs.
    Qed.
    Lemma comma_follow i t s : comma i t -> follow no_arrow (t ++ s).
    Proof. intros H. eapply follow_comma; [exact H|reflexivity]. Qed.
    Lemma ge_olay i t j : lay_ge i t j -> olay i t.
    Proof. intros H. right. eauto. Qed.
    Lemma brace_follow i t r : olay i t -> follow no_arrow (t ++ L "}" ++ r).
    Proof. intros H. apply (close_follow no_arrow i t (C "}") r H); auto. Qed.
    Lemma paren_follow i t r : olay i t -> follow no_arrow (t ++ L ")" ++ r).
    Proof. intros H. apply (close_follow no_arrow i t (C ")") r H); auto. Qed.
    Lemma record_grows i c t r : length c < n ->
      type_record_rule reads_type i c t r -> type_record_rule reads_type i (c ++ w) t (r ++ w).
    Proof.
      intros Hn [(t1 & -> & H1 & ->)|[(t1 & s1 & f & s2 & fs & t2 & -> & H1 & Hf & Hfs & H2 & ->)|
        (t1 & j1 & m & t2 & j2 & t3 & j3 & s1 & f & s2 & fs & t4 & j4 & -> & H1 & Hm & H2 & H3 & Hf & Hfs & H4 & ->)]].
      - left. exists t1. rewrite <- !app_assoc. auto.
      - right. left. destruct (field_suffix i _ _ _ Hf) as (p' & Hp' & E). rewrite app_length in Hn.
        assert (Hl : length s1 = length p' + length s2) by (rewrite E, app_length; reflexivity).
        exists t1, (s1 ++ w), f, (s2 ++ w), fs, t2. rewrite <- !app_assoc.
        split; [reflexivity|]. split; [exact H1|]. split; [|split; [|auto]].
        + apply field_grows; [lia|exact Hf|]. eapply items_follow; [|exact Hfs|eapply brace_follow, H2].
          apply comma_follow.
        + replace (t2 ++ L "}" ++ r ++ w) with ((t2 ++ L "}" ++ r) ++ w) by (rewrite <- !app_assoc; reflexivity).
          eapply (items_grow (comma i) _ n (field_suffix i) (follow no_arrow)); [apply comma_follow|apply field_grows| |exact Hfs|].
          * lia.
          * eapply brace_follow, H2.
      - right. right. destruct (field_suffix i _ _ _ Hf) as (p' & Hp' & E). rewrite !app_length in Hn.
        assert (Hl : length s1 = length p' + length s2) by (rewrite E, app_length; reflexivity).
        exists t1, j1, m, t2, j2, t3, j3, (s1 ++ w), f, (s2 ++ w), fs, t4, j4. rewrite <- !app_assoc.
        split; [reflexivity|]. do 4 (split; [assumption|]). split; [|split; [|auto]].
        + apply field_grows; [lia|exact Hf|]. eapply items_follow; [|exact Hfs|eapply brace_follow, ge_olay, H4].
          apply comma_follow.
        + replace (t4 ++ L "}" ++ r ++ w) with ((t4 ++ L "}" ++ r) ++ w) by (rewrite <- !app_assoc; reflexivity).
          eapply (items_grow (comma i) _ n (field_suffix i) (follow no_arrow)); [apply comma_follow|apply field_grows| |exact Hfs|].
          * lia.
          * eapply brace_follow, ge_olay, H4.
    Qed.

    Lemma paren_shrinks i : shrinks n (type_paren_rule reads_type i).
    Proof.
      intros c t r Hn [(t1 & E & H1 & ->)|[(t1 & s1 & f & s2 & fs & t2 & E & H1 & Hf & Hfs & H2 & ->)|
        (t1 & s1 & t2 & E & H1 & (a & s2 & b & l & Ha & Hl & Hno & ->) & H2)]].
      - left. exists t1. split; [|auto]. apply (app_inv_tail w). rewrite E, <- !app_assoc. reflexivity.
      - right. left. destruct (items_suffix _ _ (suffix_type i) _ _ _ Hfs) as (p & ->).
        destruct (suffix_type i _ _ _ Hf) as (p' & Hp' & ->).
        assert (c = t1 ++ p' ++ p ++ t2 ++ L ")" ++ r).
        { apply (app_inv_tail w). rewrite E, <- !app_assoc. reflexivity. }
        subst c. rewrite !app_length in Hn.
        exists t1, (p' ++ p ++ t2 ++ L ")" ++ r), f, (p ++ t2 ++ L ")" ++ r), fs, t2.
        split; [reflexivity|]. split; [exact H1|]. split; [|split; [|auto]].
        + apply HS; [rewrite !app_length; lia|]. rewrite <- !app_assoc. exact Hf.
        + eapply (items_shrink (comma i) _ n (suffix_type i) (HS i)); [rewrite !app_length; lia|].
          rewrite <- !app_assoc. exact Hfs.
      - right. right. destruct (items_suffix _ _ (suffix_type i) _ _ _ Hl) as (p & ->).
        destruct (suffix_type i _ _ _ Ha) as (p' & Hp' & ->).
        assert (c = t1 ++ p' ++ p ++ t2 ++ L ")" ++ r).
        { apply (app_inv_tail w). rewrite E, <- !app_assoc. reflexivity. }
        subst c. rewrite !app_length in Hn.
        exists t1, (p' ++ p ++ t2 ++ L ")" ++ r), t2. split; [reflexivity|]. split; [exact H1|]. split; [|exact H2].
        exists a, (p ++ t2 ++ L ")" ++ r), b, l. split; [|split; [|split; [|reflexivity]]].
        + apply HS; [rewrite !app_length; lia|]. rewrite <- !app_assoc. exact Ha.
        + eapply (items_shrink arrow _ n (suffix_type i) (HS i)); [rewrite !app_length; lia|].
          rewrite <- !app_assoc. exact Hl.
        + apply no_arrow_here. eapply paren_follow, H2.
    Qed.
    Lemma paren_grows i c t r : length c < n ->
      type_paren_rule reads_type i c t r -> type_paren_rule reads_type i (c ++ w) t (r ++ w).
    Proof.
      intros Hn [(t1 & -> & H1 & ->)|[(t1 & s1 & f & s2 & fs & t2 & -> & H1 & Hf & Hfs & H2 & ->)|
        (t1 & s1 & t2 & -> & H1 & (a & s2 & b & l & Ha & Hl & Hno & ->) & H2)]].
      - left. exists t1. rewrite <- !app_assoc. auto.
      - right. left. destruct (suffix_type i _ _ _ Hf) as (p' & Hp' & E). rewrite app_length in Hn.
        assert (Hlen : length s1 = length p' + length s2) by (rewrite E, app_length; reflexivity).
        exists t1, (s1 ++ w), f, (s2 ++ w), fs, t2. rewrite <- !app_assoc.
        split; [reflexivity|]. split; [exact H1|]. split; [|split; [|auto]].
        + apply HG; [lia|exact Hf|]. eapply follow_imp; [apply no_arrow_open|].
          eapply items_follow; [|exact Hfs|eapply paren_follow, H2]. apply comma_follow.
        + replace (t2 ++ L ")" ++ r ++ w) with ((t2 ++ L ")" ++ r) ++ w) by (rewrite <- !app_assoc; reflexivity).
          eapply (items_grow (comma i) _ n (suffix_type i) (follow no_arrow)); [apply comma_follow| | |exact Hfs|].
          * intros c x r0 H3 H4 H5. apply HG; [exact H3|exact H4|]. eapply follow_imp; [apply no_arrow_open|exact H5].
          * lia.
          * eapply paren_follow, H2.
      - right. right. destruct (suffix_type i _ _ _ Ha) as (p' & Hp' & E). rewrite app_length in Hn.
        assert (Hlen : length s1 = length p' + length s2) by (rewrite E, app_length; reflexivity).
        pose proof (paren_follow i t2 r H2) as Hp.
        exists t1, (s1 ++ w), t2. rewrite <- !app_assoc. split; [reflexivity|]. split; [exact H1|]. split; [|exact H2].
        replace (t2 ++ L ")" ++ r ++ w) with ((t2 ++ L ")" ++ r) ++ w) by (rewrite <- !app_assoc; reflexivity).
        exists a, (s2 ++ w), b, l. split; [|split; [|split; [|reflexivity]]].
        + apply HG; [lia|exact Ha|]. eapply arrows_follow; eassumption.
        + apply (types_grow i s2 (b :: l) _ (follow no_open)); auto.
          * intros t s H. apply follow_arrow; auto.
          * lia.
          * eapply follow_imp; [apply no_arrow_open|exact Hp].
        + apply no_arrow_here, follow_w, Hp.
    Qed.

    Lemma simple_shrinks i c t r : length c < S n ->
      simple_type_rule reads_type i (c ++ w) t (r ++ w) -> simple_type_rule reads_type i c t r.
    Proof.
      intros Hn [(m & H & ->)|[(s' & E & H)|(s' & E & H)]].
      - left. exists m. split; [apply tyvar_w, H|reflexivity].
      - right. left. destruct c as [|x c].
        { exfalso. destruct Hw as (h & w' & Ew & Hh). rewrite Ew in E. injection E as -> _. discriminate Hh. }
        injection E as -> <-. exists c. split; [reflexivity|]. apply record_shrinks; [cbn in Hn; lia|exact H].
      - right. right. destruct c as [|x c].
        { exfalso. destruct Hw as (h & w' & Ew & Hh). rewrite Ew in E. injection E as -> _. discriminate Hh. }
        injection E as -> <-. exists c. split; [reflexivity|]. apply paren_shrinks; [cbn in Hn; lia|exact H].
    Qed.
    Lemma simple_grows i c t r : length c < S n ->
      simple_type_rule reads_type i c t r -> simple_type_rule reads_type i (c ++ w) t (r ++ w).
    Proof.
      intros Hn [(m & H & ->)|[(s' & -> & H)|(s' & -> & H)]].
      - left. exists m. split; [apply tyvar_w, H|reflexivity].
      - right. left. exists (s' ++ w). split; [reflexivity|]. apply record_grows; [cbn in Hn; lia|exact H].
      - right. right. exists (s' ++ w). split; [reflexivity|]. apply paren_grows; [cbn in Hn; lia|exact H].
    Qed.

    Lemma argument_suffix i : suffix (argument_rule reads_type i).
    Proof.
      intros s t r H. apply argument_iff in H. pose proof (eats_param_step i _ _ _ H) as Hl.
      apply argument_iff in H as (t1 & j & s' & -> & _ & H).
      assert (exists p, s' = p ++ r) as (p & ->).
      { destruct H as [(q & (E & _) & _)|H]; [eauto|]. apply simple_iff, simple_type in H.
        destruct (suffix_type j _ _ _ H) as (p & _ & E). eauto. }
      exists (t1 ++ p). rewrite <- app_assoc. split; [|reflexivity]. intros E. apply app_eq_nil in E as [-> ->]. cbn in Hl. lia.
    Qed.
    Lemma argument_shrinks i : shrinks (S n) (argument_rule reads_type i).
    Proof.
      intros c t r Hn (t1 & j & s' & E & H1 & H). destruct (split_app _ _ _ _ (eq_sym E)) as [(m & -> & ->)|(m & Hm & -> & Ew)].
      - exists t1, j, m. split; [reflexivity|]. split; [exact H1|]. rewrite app_length in Hn.
        destruct H as [(q & H & ->)|H]; [left; exists q; split; [apply dotted_w, H|reflexivity]|].
        right. apply simple_shrinks; [lia|exact H].
      - exfalso. assert (exists p, p <> [] /\ s' = p ++ r ++ w) as (p & Hp & E').
        { destruct H as [(q & (E' & [Hq Hu] & _) & _)|H].
          - exists (dotted q). split; [|exact E']. inversion Hu as [|x q' (y & z & -> & _) _]; [congruence|].
            subst. destruct q'; discriminate.
          - apply simple_iff, simple_type in H. exact (suffix_type j _ _ _ H). }
        apply (f_equal (@length _)) in E'. apply (f_equal (@length _)) in Ew. rewrite !app_length in *.
        destruct p; [congruence|]. cbn [length] in *. lia.
    Qed.
    Lemma argument_grows i : grows (S n) (fun _ => True) (argument_rule reads_type i).
    Proof.
      intros c t r Hn (t1 & j & s' & -> & H1 & H) _. rewrite app_length in Hn.
      exists t1, j, (s' ++ w). rewrite <- app_assoc. split; [reflexivity|]. split; [exact H1|].
      destruct H as [(q & H & ->)|H]; [left; exists q; split; [apply dotted_w, H|reflexivity]|].
      right. apply simple_grows; [lia|exact H].
    Qed.

    (** the arguments end in [r ++ w] if they end in [r] and [r] goes on with something else *)
    Lemma arguments_end i r : length r < S n -> follow no_open r ->
      no_item nothing (argument_rule reads_type i) r -> no_item nothing (argument_rule reads_type i) (r ++ w).
    Proof.
      intros Hn (b0 & c0 & s1 & -> & Hb0 & Hb0' & Hc0 & Hop) Hno t0 s0 t r' E -> (b & j & s' & -> & Hb & H). cbn [app] in E.
      rewrite <- app_assoc in E. cbn [app] in E. rewrite app_length in Hn. cbn [length] in Hn.
      pose proof (param_no_trivia _ _ _ _ (proj2 (parameter_iff _ _ _ _) H)) as Hs'.
      destruct (trivia_run_unique (b0 ++ c0 :: s1 ++ w) b0 (c0 :: s1 ++ w) b s') as [-> <-].
      { split; [reflexivity|]. split; [exact Hb0|]. split; [apply no_trivia_w, Hc0|auto]. }
      { split; [exact E|]. destruct Hb as (H1 & H2 & _). auto. }
      assert (exists r0, r' = r0 ++ w) as (r0 & ->).
      { change (c0 :: s1 ++ w) with ((c0 :: s1) ++ w) in H. destruct H as [(q & H & _)|[(m & H & _)|[(s2 & E' & _)|(s2 & E' & _)]]].
        - eapply dotted_within, H.
        - eapply tyvar_within, H.
        - injection E' as -> _. discriminate Hop.
        - injection E' as -> _. discriminate Hop. }
      apply (Hno [] (b ++ c0 :: s1) t r0 eq_refl eq_refl). apply argument_shrinks; [rewrite app_length; cbn [length]; lia|].
      exists b, j, ((c0 :: s1) ++ w). rewrite <- app_assoc. auto.
    Qed.

    Lemma constructed_shrinks i : shrinks (S n) (constructed_rule reads_type i).
    Proof.
      intros c t r Hn (q & s1 & ts & Hq & Hts & Hno & ->). destruct (items_suffix _ _ (argument_suffix i) _ _ _ Hts) as (p & ->).
      rewrite app_assoc in Hq. pose proof Hq as (E & _). rewrite app_assoc in E. apply app_inv_tail in E.
      assert (Hl : length (p ++ r) <= length c) by (rewrite E, (app_length (dotted q)); lia).
      rewrite app_length in Hl. exists q, (p ++ r), ts. split; [apply dotted_w, Hq|]. split; [|split; [|reflexivity]].
      - eapply (items_shrink nothing _ (S n) (argument_suffix i) (argument_shrinks i)); [rewrite app_length; lia|].
        rewrite <- app_assoc. exact Hts.
      - eapply (no_item_shrink nothing _ (S n)); [|lia|exact Hno].
        intros c' x r' Hn' Hx. exists x, (r' ++ w). apply argument_grows; auto.
    Qed.
    Lemma constructed_grows_end i c t r : length c < S n -> constructed_rule reads_type i c t r ->
      no_item nothing (argument_rule reads_type i) (r ++ w) -> constructed_rule reads_type i (c ++ w) t (r ++ w).
    Proof.
      intros Hn (q & s1 & ts & Hq & Hts & Hno & ->) He. pose proof Hq as (E & _).
      assert (Hl : length s1 <= length c) by (rewrite E, app_length; lia).
      exists q, (s1 ++ w), ts. split; [apply dotted_w, Hq|]. split; [|split; [exact He|reflexivity]].
      eapply (items_grow nothing _ (S n) (argument_suffix i) (fun _ => True)); [auto|apply argument_grows|lia|exact Hts|exact I].
    Qed.
    Lemma constructed_grows i : grows (S n) (follow no_open) (constructed_rule reads_type i).
    Proof.
      intros c t r Hn H Hr. pose proof H as (q & s1 & ts & Hq & Hts & Hno & ->).
      destruct (items_suffix _ _ (argument_suffix i) _ _ _ Hts) as (p & ->). pose proof Hq as (E & _).
      apply constructed_grows_end; [exact Hn|exact H|]. apply arguments_end; auto.
      rewrite E, !app_length in Hn. lia.
    Qed.
    Lemma constructed_exists i s q s1 : dotted_at s q s1 -> exists t r, constructed_rule reads_type i s t r.
    Proof.
      intros H.
      assert (Hi : forall m s, length s < m -> exists l r, items nothing (argument_rule reads_type i) s l r /\
        no_item nothing (argument_rule reads_type i) r).
      { clear. induction m as [|m IH]; intros s Hm; [lia|].
        destruct (param_step i s) as [r t| |] eqn:E.
        - pose proof (eats_param_step i _ _ _ E) as Hl. destruct (IH r ltac:(lia)) as (l & r' & H1 & H2).
          exists (t :: l), r'. split; [|exact H2]. apply (items_cons nothing _ [] s t r); [reflexivity|apply argument_iff, E|exact H1].
        - exists [], s. split; [constructor|]. intros t s' x r' -> -> Hx. apply argument_iff in Hx. cbn [app] in E. congruence.
        - exists [], s. split; [constructor|]. intros t s' x r' -> -> Hx. apply argument_iff in Hx. cbn [app] in E. congruence. }
      destruct (Hi (S (length s1)) s1 ltac:(lia)) as (l & r & H1 & H2). exists (TypeConstructor q l), r, q, s1, l. auto.
    Qed.
    Lemma type_shrinks i : shrinks (S n) (reads_type i).
    Proof.
      intros c t r Hn H. apply type_iff in H. apply type_iff. destruct H as [H|H]; [left; apply constructed_shrinks; auto|right; apply simple_shrinks; auto].
    Qed.
    Lemma type_grows i : grows (S n) (follow no_open) (reads_type i).
    Proof.
      intros c t r Hn H Hr. apply type_iff in H. apply type_iff. destruct H as [H|H]; [left; apply constructed_grows; auto|right; apply simple_grows; auto].
    Qed.
    Lemma type_exists i : exists_ (S n) (reads_type i).
    Proof.
      intros c t r Hn H. apply type_iff in H as [H|H].
      - destruct H as (q & s1 & ts & Hq & _). apply dotted_w in Hq. destruct (constructed_exists i _ _ _ Hq) as (t' & r' & H').
        exists t', r'. apply type_iff. left. exact H'.
      - exists t, (r ++ w). apply type_iff. right. apply simple_grows; auto.
    Qed.
  End Below.

  Lemma types_cut n : (forall i, shrinks n (reads_type i)) /\ (forall i, grows n (follow no_open) (reads_type i)) /\
    (forall i, exists_ n (reads_type i)).
  Proof.
    induction n as [|n (H1 & H2 & H3)].
    - repeat split; intros i c x r Hn; lia.
    - split; [intros i; apply type_shrinks; auto|]. split; [intros i; apply type_grows; auto|intros i; apply type_exists; auto].
  Qed.

  Lemma type_cut i c t r : reads_type i (c ++ w) t (r ++ w) -> reads_type i c t r.
  Proof. apply (proj1 (types_cut (S (length c))) i c t r). lia. Qed.
  Lemma type_join i c t r : reads_type i c t r -> follow no_open r -> reads_type i (c ++ w) t (r ++ w).
  Proof. apply (proj1 (proj2 (types_cut (S (length c)))) i c t r). lia. Qed.
  Lemma annotation_cut i c t r : annotation_rule reads_type i (c ++ w) t (r ++ w) -> annotation_rule reads_type i c t r.
  Proof. destruct (types_cut (S (length c))) as (H1 & H2 & H3). apply (annotation_shrinks (S (length c)) H1 H3). lia. Qed.
  Lemma constructed_cut i c t r : constructed_rule reads_type i (c ++ w) t (r ++ w) -> constructed_rule reads_type i c t r.
  Proof. destruct (types_cut (S (length c))) as (H1 & H2 & H3). apply (constructed_shrinks (S (length c)) H1 H2 H3). lia. Qed.
  Lemma constructed_join i c t r : constructed_rule reads_type i c t r -> follow no_open r ->
    constructed_rule reads_type i (c ++ w) t (r ++ w).
  Proof. destruct (types_cut (S (length c))) as (H1 & H2 & H3). apply (constructed_grows (S (length c)) H1 H2 H3). lia. Qed.

  (** *** At the very end, before a line in column 0 *)
  Definition fresh : Prop := exists b s, trivia_run w b s /\ has_newline b = true /\
    (s = [] \/ last_line b = []) /\ ends (fun c => (c =? C "-")%N || (c =? C "|")%N) s.
  Hypothesis Hfresh : fresh.
  Lemma fresh_gt i t j s : w = t ++ s -> no_trivia s -> s <> [] -> ~ lay_gt i t j.
  Proof.
    intros E Hs Hn (H1 & H2 & _ & H4 & _). destruct Hfresh as (b & s' & Hb & Hnl & Hcol & _).
    destruct (trivia_run_unique w b s' t s) as [<- <-]; [exact Hb|split; auto|].
    specialize (H4 Hnl). destruct Hcol as [->|Hcol]; [congruence|].
    unfold width in H4. rewrite Hcol, Hnl in H4. cbn in H4. lia.
  Qed.
  Lemma no_argument i : no_item nothing (argument_rule reads_type i) w.
  Proof.
    intros t0 s0 t r E -> (b & j & s' & -> & Hb & H). cbn [app] in E.
    pose proof (proj2 (parameter_iff _ _ _ _) H) as Hp. pose proof (param_no_trivia _ _ _ _ Hp) as Hs.
    apply (fresh_gt i b j s' E Hs); [|exact Hb]. intros ->. destruct (heads_param _ _ _ _ Hp) as (? & ? & Ee & _). discriminate Ee.
  Qed.
  Lemma no_arrow_w {A} (R : str -> A -> str -> Prop) : no_item arrow R w.
  Proof.
    intros t s x r E (b1 & b2 & -> & [_ Hb] & _) _. apply spnl_trivia in Hb as [Hb Hb'].
    destruct Hfresh as (b & s' & Hw' & _ & _ & He). rewrite <- !app_assoc in E.
    destruct (trivia_run_unique w b s' b1 (L "->" ++ b2 ++ s)) as [<- ->]; [exact Hw'| |discriminate He].
    split; [exact E|]. split; [exact Hb|]. split; [|auto]. split; [discriminate|]. split; [discriminate|].
    intros [_ (r' & Er)]. discriminate Er.
  Qed.
  Lemma no_bar_w {A} m (R : str -> A -> str -> Prop) : no_item (bar m) R w.
  Proof.
    intros t s x r E (t1 & j & b2 & -> & (Hb & Hb' & _) & _) _.
    destruct Hfresh as (b & s' & Hw' & _ & _ & He). rewrite <- !app_assoc in E.
    destruct (trivia_run_unique w b s' t1 (L "|" ++ b2 ++ s)) as [<- ->]; [exact Hw'| |discriminate He].
    split; [exact E|]. split; [exact Hb|]. split; [|auto]. split; [discriminate|]. split; [discriminate|].
    intros [H _]. discriminate H.
  Qed.
  Lemma constructed_last i c t : constructed_rule reads_type i c t [] -> constructed_rule reads_type i (c ++ w) t w.
  Proof.
    intros H. destruct (types_cut (S (length c))) as (H1 & H2 & H3).
    apply (constructed_grows_end (S (length c)) H2 i c t []); [lia|exact H|apply no_argument].
  Qed.
  Lemma type_last i c t : reads_type i c t [] -> reads_type i (c ++ w) t w.
  Proof.
    intros H. apply type_iff in H. apply type_iff. destruct H as [H|H]; [left; apply constructed_last, H|right].
    destruct (types_cut (S (length c))) as (H1 & H2 & H3).
    apply (simple_grows (S (length c)) H2 i c t []); [lia|exact H].
  Qed.
  Lemma annotation_last i c t : annotation_rule reads_type i c t [] -> annotation_rule reads_type i (c ++ w) t w.
  Proof.
    intros (a & s1 & l & Ha & Hl & _ & ->). 
    assert (Hlast : forall s l, items arrow (reads_type i) s l [] -> items arrow (reads_type i) (s ++ w) l w).
    { clear -Hw Hfresh. intros s l H. remember [] as r eqn:Er. induction H as [r|t s x s' l r Ht Hx Hl IH]; [subst; constructor|].
      specialize (IH Er). rewrite <- app_assoc. econstructor; [exact Ht| |exact IH].
      inversion Hl; subst; [apply type_last, Hx|]. apply type_join; [exact Hx|]. apply follow_arrow; auto. }
    exists a, (s1 ++ w), l. split; [|split; [apply Hlast, Hl|split; [apply no_arrow_w|reflexivity]]].
    inversion Hl; subst; [apply type_last, Ha|]. apply type_join; [exact Ha|]. apply follow_arrow; auto.
  Qed.
End Cut.
