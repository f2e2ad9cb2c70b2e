(** * Comments do not matter: two texts that differ in their comments *)
From Verif Require Import Base Nom Regex Ast Good Spec Grammar Helpers Types Expr Stmt Lexers Layout Follow SoundE Seqs LexProps Total Heads Rules TwoRuns RenameSim Whole CommentSpec.

(** the relation with both texts treated alike *)
Inductive both : str -> str -> Prop :=
| b_nil : both [] []
| b_line c c' s s' : forallb not_newline c = true -> forallb not_newline c' = true -> line_end s -> line_end s' ->
    both s s' -> both (L "--" ++ c ++ s) (L "--" ++ c' ++ s')
| b_block c c' s s' : block_text c -> block_text c' ->
    both s s' -> both (L "{-" ++ c ++ L "-}" ++ s) (L "{-" ++ c' ++ L "-}" ++ s')
| b_string t s s' : string_token s t -> string_token s' t -> both s s' -> both (t ++ s) (t ++ s')
| b_literal t s s' : char_token t -> both s s' -> both (t ++ s) (t ++ s')
| b_char c s s' : ordinary c s -> ordinary c s' -> both s s' -> both (c :: s) (c :: s').

Lemma rc_sym s s' : both s s' -> both s' s.
Proof. induction 1; [apply b_nil|apply b_line|apply b_block|apply b_string|apply b_literal|apply b_char]; assumption. Qed.
Definition heads_eq (s s' : str) : Prop := match s, s' with [], [] => True | c :: _, c' :: _ => c = c' | _, _ => False end.
Lemma rc_head s s' : both s s' -> heads_eq s s'.
Proof.
  intros H. destruct H as [|c c' s s'|c c' s s'|t s s' Ht|t s s' Ht|c s s'].
  - exact I.
  - reflexivity.
  - reflexivity.
  - destruct Ht; reflexivity.
  - destruct Ht; reflexivity.
  - reflexivity.
Qed.
Lemma heads_ends P s s' : heads_eq s s' -> ends P s -> ends P s'.
Proof. destruct s, s'; cbn; intros H; try destruct H; auto. Qed.

(** one character that is no mark *)
Definition mark (c : char) : bool := (c =? C "-")%N || (c =? C "{")%N || (c =? quote)%N || (c =? squote)%N.
Lemma rc_one c s s' : mark c = false -> both (c :: s) s' -> exists s2, s' = c :: s2 /\ both s s2 /\ ordinary c s /\ ordinary c s2.
Proof.
  intros Hc H. remember (c :: s) as x eqn:E. destruct H as [|d d' s1 s1'|d d' s1 s1'|t s1 s1' Ht|t s1 s1' Ht|d s1 s1'].
  - discriminate E.
  - injection E as <- _. discriminate Hc.
  - injection E as <- _. discriminate Hc.
  - destruct Ht; injection E as <- _; discriminate Hc.
  - destruct Ht; injection E as <- _; discriminate Hc.
  - injection E as -> ->. eauto 8.
Qed.
Lemma rc_word w r s' : forallb (fun c => negb (mark c)) w = true -> both (w ++ r) s' -> exists r', s' = w ++ r' /\ both r r'.
Proof.
  revert s'. induction w as [|c w IH]; intros s' Hw H; [exists s'; auto|]. apply andb_true_iff in Hw as [Hc Hw]. apply negb_true_iff in Hc.
  apply (rc_one c _ _ Hc) in H as (s2 & -> & H & _). destruct (IH _ Hw H) as (r' & -> & Hr). exists r'. auto.
Qed.
(** a minus that begins no comment *)
Lemma rc_minus s s' : ~ dashes (C "-" :: s) -> both (C "-" :: s) s' -> exists s2, s' = C "-" :: s2 /\ both s s2 /\ ~ dashes s.
Proof.
  intros Hd H. remember (C "-" :: s) as x eqn:E. destruct H as [|d d' s1 s1'|d d' s1 s1'|t s1 s1' Ht|t s1 s1' Ht|d s1 s1' H1 H2 H].
  - discriminate E.
  - exfalso. apply Hd. exists (d ++ s1). reflexivity.
  - discriminate E.
  - destruct Ht; discriminate E.
  - destruct Ht; discriminate E.
  - injection E as -> ->. exists s1'. split; [reflexivity|]. split; [exact H|]. destruct H1 as (_ & _ & _ & H1 & _). apply H1. left. reflexivity.
Qed.
Lemma op_not_mark c : is_op_char c = true -> c <> C "-" -> mark c = false.
Proof.
  intros Hc Hd. unfold mark. destruct (N.eqb_spec c (C "-")) as [E|_]; [contradiction|]. cbn [orb].
  destruct (N.eqb_spec c (C "{")) as [->|_]; [discriminate Hc|]. destruct (N.eqb_spec c quote) as [->|_]; [discriminate Hc|].
  destruct (N.eqb_spec c squote) as [->|_]; [discriminate Hc|]. reflexivity.
Qed.
Lemma rc_ops w r s' : forallb is_op_char w = true -> ~ dashes (w ++ r) -> both (w ++ r) s' ->
  exists r', s' = w ++ r' /\ both r r'.
Proof.
  revert s'. induction w as [|c w IH]; intros s' Hw Hd H; [exists s'; auto|]. apply andb_true_iff in Hw as [Hc Hw]. cbn [app] in *.
  assert (Hx : exists s2, s' = c :: s2 /\ both (w ++ r) s2 /\ ~ dashes (w ++ r)).
  { destruct (N.eqb_spec c (C "-")) as [->|Hne]; [apply rc_minus; assumption|].
    apply rc_one in H as (s2 & -> & H & (_ & _ & _ & H1 & _) & _); [|apply op_not_mark; assumption]. exists s2. auto. }
  destruct Hx as (s2 & -> & H2 & H3). destruct (IH _ Hw H3 H2) as (r' & -> & Hr). exists r'. auto.
Qed.
Lemma rc_dashes s s' : both s s' -> ~ dashes s -> ~ dashes s'.
Proof.
  intros H Hd (w & E). subst s'. apply rc_sym in H. remember (L "--" ++ w) as x eqn:E. destruct H as [|d d' s1 s1'|d d' s1 s1'|t s1 s1' Ht|t s1 s1' Ht|d s1 s1' H1 H2 H].
  - discriminate E.
  - apply Hd. exists (d' ++ s1'). reflexivity.
  - discriminate E.
  - destruct Ht; discriminate E.
  - destruct Ht; discriminate E.
  - injection E as -> ->. destruct H1 as (_ & _ & H1 & _). apply H1. exists w. reflexivity.
Qed.

(** ** Two runs *)
Notation X := both.
Notation simc := (sim both).
Lemma fw_sim {A} (R : A -> A -> Prop) p : fw X R p p -> simc R p p.
Proof.
  intros H. apply sim_fw with (RB := R); [exact H|]. intros s s' r a Hs E. unfold back in Hs.
  destruct (H _ _ _ _ (rc_sym _ _ Hs) E) as (r' & b & t & t' & E' & Hb & Hr & Hx). exists r', b, t, t'. split; [exact E'|]. split; [exact Hb|].
  split; [|exact Hx]. unfold back. apply rc_sym, Hr.
Qed.
Lemma sim_plain {A} (p : parser A) (W : str -> A -> Prop) (Z : A -> str -> Prop) :
  (forall s r a, p s = Ok r a <-> exists w, s = w ++ r /\ W w a /\ Z a r) ->
  (forall w a, W w a -> forallb (fun c => negb (mark c)) w = true) ->
  (forall a r r', heads_eq r r' -> Z a r -> Z a r') -> simc eq p p.
Proof.
  intros Hp Hw HZ. apply fw_sim. intros s s' r a Hs H. apply Hp in H as (w & -> & H1 & H2).
  destruct (rc_word _ _ _ (Hw _ _ H1) Hs) as (r' & -> & Hr). exists r', a, w, w. split; [|tauto].
  apply Hp. exists w. split; [reflexivity|]. split; [exact H1|]. eapply HZ; [apply rc_head, Hr|exact H2].
Qed.
Lemma rc_sim_char c : mark c = false -> simc eq (char_ c) (char_ c).
Proof.
  intros Hc. apply (sim_plain _ (fun w a => w = [c] /\ a = c) (fun _ _ => True)); auto.
  - intros s r a. rewrite char_word. reflexivity.
  - intros w a [-> _]. cbn. rewrite Hc. reflexivity.
Qed.
Lemma rc_sim_tag u : forallb (fun c => negb (mark c)) u = true -> simc eq (tag u) (tag u).
Proof.
  intros Hu. apply (sim_plain _ (fun w a => w = u /\ a = u) (fun _ _ => True)); auto.
  - intros s r a. rewrite tag_word. reflexivity.
  - intros w a [-> _]. exact Hu.
Qed.
Lemma rc_sim_arrow : simc eq (tag (L "->")) (tag (L "->")).
Proof.
  apply fw_sim. intros s s' r a Hs H. apply tag_iff in H as [-> ->].
  apply rc_ops in Hs as (r' & -> & Hr); [|reflexivity|intros (x & Hx); discriminate Hx].
  exists r', (L "->"), (L "->"), (L "->"). split; [apply tag_iff; auto|tauto].
Qed.
Lemma heads_eq_ends f : forall r r', heads_eq r r' -> ends f r -> ends f r'. Proof. intros r r'. apply heads_ends. Qed.
Lemma no_marks f : forallb (fun c => negb (f c)) [C "-"; C "{"; quote; squote] = true -> forall w, forallb f w = true -> forallb (fun c => negb (mark c)) w = true.
Proof.
  intros Hf w Hw. rewrite forallb_forall in *. intros c Hc. apply Hw in Hc. apply negb_true_iff. unfold mark.
  assert (H : forall d, In d [C "-"; C "{"; quote; squote] -> (c =? d)%N = false).
  { intros d Hd. apply N.eqb_neq. intros ->. apply Hf in Hd. rewrite Hc in Hd. discriminate Hd. }
  rewrite !H; [reflexivity|cbn; tauto..].
Qed.
Lemma rc_sim_take0 f : forallb (fun c => negb (f c)) [C "-"; C "{"; quote; squote] = true -> simc eq (take_while0 f) (take_while0 f).
Proof.
  intros Hf. apply (sim_plain _ (fun w a => w = a /\ forallb f w = true) (fun _ r => ends f r)).
  - intros s r a. apply take0_word.
  - intros w a [_ H]. eapply no_marks; eassumption.
  - intros _. apply heads_eq_ends.
Qed.
Lemma rc_sim_take1 f : forallb (fun c => negb (f c)) [C "-"; C "{"; quote; squote] = true -> simc eq (take_while1 f) (take_while1 f).
Proof.
  intros Hf. apply (sim_plain _ (fun w a => w = a /\ w <> [] /\ forallb f w = true) (fun _ r => ends f r)).
  - intros s r a. apply take1_word.
  - intros w a (_ & _ & H). eapply no_marks; eassumption.
  - intros _. apply heads_eq_ends.
Qed.
Lemma rc_sim_lo_name : simc eq lo_name lo_name.
Proof.
  apply (sim_plain _ (fun w n => w = n /\ lower_name n) (fun n r => n = L "_" \/ ends is_name_char r)).
  - intros s r n. rewrite lo_name_iff. split.
    + intros (-> & H1 & H2). exists n. auto.
    + intros (w & -> & (-> & H1) & H2). auto.
  - intros w n [-> [->|[(c & t & -> & Hc & Ht) _]]]; [reflexivity|]. apply (no_marks is_name_char); [reflexivity|]. cbn. rewrite Ht.
    unfold is_name_char. rewrite Hc. reflexivity.
  - intros n r r' H [->|H1]; [left; reflexivity|right; eapply heads_ends; eassumption].
Qed.
Lemma rc_sim_up_name : simc eq up_name up_name.
Proof.
  apply (sim_plain _ (fun w n => w = n /\ upper_name n) (fun n r => ends is_name_char r)).
  - intros s r n. rewrite up_name_iff. split.
    + intros (-> & H1 & H2). exists n. auto.
    + intros (w & -> & (-> & H1) & H2). auto.
  - intros w n [-> (c & t & -> & Hc & Ht)]. apply (no_marks is_name_char); [reflexivity|]. cbn. rewrite Ht.
    unfold is_name_char. rewrite Hc. destruct (is_lower c); reflexivity.
  - intros _. apply heads_eq_ends.
Qed.
Lemma rc_sim_type_variable : simc eq type_variable type_variable.
Proof.
  apply (sim_plain _ (fun w t => t = TypeVariable w /\ type_var_name w) (fun _ r => ends is_tyvar_char r)).
  - intros s r t. rewrite type_variable_iff. split.
    + intros (n & -> & -> & H1 & H2). exists n. auto.
    + intros (w & -> & (-> & H1) & H2). eauto 6.
  - intros w t [_ (c & x & -> & Hc & Ht)]. apply (no_marks is_tyvar_char); [reflexivity|]. cbn. rewrite Ht.
    unfold is_tyvar_char. rewrite Hc. reflexivity.
  - intros _. apply heads_eq_ends.
Qed.
Lemma rc_signed sg d r s' : sign_text sg -> digits1 d -> both (sg ++ d ++ r) s' -> exists r', s' = sg ++ d ++ r' /\ both r r'.
Proof.
  intros Hs [Hne Hd] H. assert (Hd' : forallb (fun c => negb (mark c)) d = true) by (apply (no_marks is_dec); [reflexivity|exact Hd]).
  destruct Hs as [->|[->| ->]].
  - apply (rc_word d) in H; assumption.
  - apply (rc_one (C "+")) in H as (s2 & -> & H & _); [|reflexivity]. apply (rc_word d) in H as (r' & -> & Hr); [|assumption]. exists r'. auto.
  - cbn [app] in H. apply rc_minus in H as (s2 & -> & H & _).
    + apply (rc_word d) in H as (r' & -> & Hr); [|assumption]. exists r'. auto.
    + intros (w & E). destruct d as [|x d]; [congruence|]. injection E as -> _. discriminate Hd.
Qed.
Lemma rc_sim_integer : simc eq integer integer.
Proof.
  apply fw_sim. intros s s' r e Hs H. apply integer_iff in H as (n & -> & -> & (sg & d & -> & H1 & H2) & Hr).
  rewrite <- app_assoc in Hs. destruct (rc_signed _ _ _ _ H1 H2 Hs) as (r' & -> & Hr').
  exists r', (Integer (sg ++ d)), (sg ++ d), (sg ++ d). split; [|rewrite app_assoc; tauto].
  apply integer_iff. exists (sg ++ d). split; [reflexivity|]. split; [apply app_assoc|]. split; [exists sg, d; auto|]. eapply heads_ends; [apply rc_head, Hr'|exact Hr].
Qed.
Lemma rc_sim_float : simc eq float float.
Proof.
  apply fw_sim. intros s s' r e Hs H. apply float_iff in H as (n & -> & -> & (sg & d & d2 & -> & H1 & H2 & H3) & Hr).
  rewrite <- !app_assoc in Hs. destruct (rc_signed _ _ _ _ H1 H2 Hs) as (r1 & -> & Hr1).
  apply (rc_word (L "." ++ d2)) in Hr1 as (r' & -> & Hr'); [|cbn; apply (no_marks is_dec); [reflexivity|apply H3]].
  exists r', (Float (sg ++ d ++ L "." ++ d2)), (sg ++ d ++ L "." ++ d2), (sg ++ d ++ L "." ++ d2).
  split; [|rewrite <- !app_assoc; cbn [app]; tauto].
  apply float_iff. exists (sg ++ d ++ L "." ++ d2). split; [reflexivity|]. split; [rewrite <- !app_assoc; reflexivity|]. split; [exists sg, d, d2; auto|]. eapply heads_ends; [apply rc_head, Hr'|exact Hr].
Qed.

(** *** strings and characters *)
Lemma token_string w t : string_token w t -> exists c, string_ (t ++ w) = Ok w (String_ c) /\ forall w', string_token w' t -> string_ (t ++ w') = Ok w' (String_ c).
Proof.
  assert (K : forall c w, no_quote c -> string_ (([quote; quote; quote] ++ c ++ [quote; quote; quote]) ++ w) = Ok w (String_ c)).
  { intros c u Hc. apply string_iff. exists c. split; [reflexivity|]. left. split; [|exact Hc]. rewrite <- !app_assoc. reflexivity. }
  assert (K2 : forall c w, string_content c -> (c = [] -> ends (fun x => (x =? quote)%N) w) -> string_ ((quote :: c ++ [quote]) ++ w) = Ok w (String_ c)).
  { intros c u Hc Hu. apply string_iff. exists c. split; [reflexivity|]. right. cbn [app]. rewrite <- app_assoc. split; [|auto].
    intros (r' & c' & E & Hq). unfold quotes3 in E. destruct Hc as [|d s Hd Hc|d s Hd Hc|d s H1 H2 H3 Hc]; [|discriminate E|discriminate E|injection E as E _; congruence].
    injection E as E. specialize (Hu eq_refl). destruct u as [|x u]; [discriminate E|]. injection E as -> _. discriminate Hu. }
  intros H. assert (E : exists c, forall w', string_token w' t -> string_ (t ++ w') = Ok w' (String_ c)).
  { destruct H as [c Hc|c Hc Hu].
    - exists c. intros w' _. apply K, Hc.
    - exists c. intros w' H'. apply K2; [exact Hc|]. intros ->. clear Hu. remember (quote :: [] ++ [quote]) as x eqn:Ex. destruct H' as [c' _|c' _ Hw]; [destruct c'; discriminate Ex|].
      apply Hw. destruct c' as [|y c']; [reflexivity|]. injection Ex as _ Ex. destruct c'; discriminate Ex. }
  destruct E as (c & E). exists c. split; [apply E, H|exact E].
Qed.
Lemma rc_sim_string : simc eq string_ string_.
Proof.
  apply fw_sim. intros s s' r e Hs H.
  assert (Hq : exists s1, s = quote :: s1) by (apply string_iff in H as (c & _ & [[-> _]|(_ & -> & _)]); eexists; reflexivity).
  destruct Hs as [|c c' s s'|c c' s s'|t s s' Ht Ht' Hs|t s s' Ht|c s s' Ho]; destruct Hq as (s1 & Hq); try discriminate Hq.
  - destruct (token_string _ _ Ht) as (c & E1 & E2). rewrite E1 in H. injection H as <- <-. exists s', (String_ c), t, t. rewrite (E2 _ Ht'). tauto.
  - destruct Ht; discriminate Hq.
  - injection Hq as -> _. destruct Ho; congruence.
Qed.
Lemma rc_sim_character : simc eq character character.
Proof.
  apply fw_sim. intros s s' r e Hs H.
  assert (Hq : exists s1, s = squote :: s1) by (apply character_iff in H as (w & c & _ & -> & _); eexists; reflexivity).
  destruct Hs as [|c c' s s'|c c' s s'|t s s' Ht Ht' Hs|t s s' Ht Hs|c s s' Ho]; destruct Hq as (s1 & Hq); try discriminate Hq.
  - destruct Ht; discriminate Hq.
  - destruct Ht as [t c Hc]. assert (E : forall w, character ((squote :: t ++ [squote]) ++ w) = Ok w (Character c)).
    { intros w. apply character_iff. exists t, c. split; [reflexivity|]. split; [|exact Hc]. cbn [app]. rewrite <- app_assoc. reflexivity. }
    rewrite E in H. injection H as <- <-. exists s', (Character c), (squote :: t ++ [squote]), (squote :: t ++ [squote]). rewrite E. tauto.
  - injection Hq as -> _. destruct Ho as (_ & Ho & _); congruence.
Qed.

(** *** comments and layout *)
Lemma rc_line_inv s s' : both (L "--" ++ s) s' ->
  exists c c' r r', s = c ++ r /\ s' = L "--" ++ c' ++ r' /\ forallb not_newline c = true /\ forallb not_newline c' = true /\
    line_end r /\ line_end r' /\ both r r'.
Proof.
  intros H. remember (L "--" ++ s) as x eqn:E. destruct H as [|d d' s1 s1'|d d' s1 s1'|t s1 s1' Ht|t s1 s1' Ht|d s1 s1' H1 H2 H].
  - discriminate E.
  - apply app_inv_head in E. subst s. exists d, d', s1, s1'. auto 10.
  - discriminate E.
  - destruct Ht; discriminate E.
  - destruct Ht; discriminate E.
  - injection E as -> ->. exfalso. destruct H1 as (_ & _ & H1 & _). apply H1. exists s. reflexivity.
Qed.
Lemma line_ends r : ends not_newline r <-> line_end r.
Proof.
  destruct r as [|c r]; [tauto|]. cbn. unfold not_newline. rewrite negb_false_iff. apply N.eqb_eq.
Qed.
Lemma line_unique c r c2 r2 : c ++ r = c2 ++ r2 -> forallb not_newline c = true -> forallb not_newline c2 = true -> line_end r -> line_end r2 ->
  c = c2 /\ r = r2.
Proof.
  intros E H1 H2 H3 H4. apply line_ends in H3, H4. eapply (longest_unique not_newline); [split; [reflexivity|split; [exact H1|exact H3]]|].
  split; [exact E|]. split; assumption.
Qed.
Lemma rc_sim_comment : simc any single_line_comment single_line_comment.
Proof.
  apply fw_sim. intros s s' r c Hs H. apply single_line_comment_iff in H as (-> & Hc & Hr).
  apply rc_line_inv in Hs as (d & d' & r1 & r' & E & -> & Hd & Hd' & H1 & H2 & H3).
  destruct (line_unique _ _ _ _ E Hc Hd Hr H1) as [-> ->]. exists r', d', (L "--" ++ d), (L "--" ++ d').
  split; [apply single_line_comment_iff; auto|]. split; [exact I|]. split; [exact H3|]. rewrite <- !app_assoc. split; [reflexivity|]. split; [reflexivity|].
  split; discriminate.
Qed.
Lemma rc_sim_spaces0 : simc eq spaces0 spaces0.
Proof.
  unfold spaces0. eapply sim_map; [apply sim_opt, rc_sim_take1; reflexivity|]. intros a a' H. apply opt_rel_eq in H. subst a'. reflexivity.
Qed.
Lemma rc_sim_sp i ir : simc eq (spaces_or_new_lines_and_indent i ir) (spaces_or_new_lines_and_indent i ir).
Proof.
  unfold spaces_or_new_lines_and_indent. eapply sim_map_res with (RA := eq).
  - eapply sim_weak; [intros a b; apply Forall2_is_eq|]. apply sim_many1. unfold spaces_item. apply sim_alt; [|apply sim_alt].
    + eapply sim_value; [apply rc_sim_take1; reflexivity|reflexivity].
    + eapply sim_map; [apply rc_sim_comment|]. reflexivity.
    + eapply sim_weak; [intros a b; apply Forall2_is_eq|]. apply sim_many1. eapply sim_preceded; [apply rc_sim_char; reflexivity|]. apply sim_alt.
      * eapply sim_map; [apply rc_sim_spaces0|]. intros a a' ->. reflexivity.
      * eapply sim_map; [apply rc_sim_comment|]. reflexivity.
  - intros a a' ->. destruct (check_indent i ir a'); cbn; auto.
Qed.
Lemma rc_sim_opt_sp i ir : simc eq (opt_spaces_or_new_lines_and_indent i ir) (opt_spaces_or_new_lines_and_indent i ir).
Proof.
  unfold opt_spaces_or_new_lines_and_indent. eapply sim_map; [apply sim_opt, rc_sim_sp|]. intros a a' H. apply opt_rel_eq in H. subst. reflexivity.
Qed.
Lemma rc_sim_nl i : simc eq (new_line_and_same_indent i) (new_line_and_same_indent i).
Proof.
  unfold new_line_and_same_indent. eapply sim_map_res with (RA := eq).
  - eapply sim_preceded; [apply rc_sim_char; reflexivity|]. eapply sim_map; [apply rc_sim_spaces0|]. intros a a' ->. reflexivity.
  - intros a a' ->. destruct (a' =? i)%N; cbn; auto.
Qed.

(** *** where no comment begins *)
Definition sim_code {A B} (R : A -> B -> Prop) (p : parser A) (q : parser B) : Prop :=
  forall s s', both s s' -> ~ dashes s -> rel both R s s' (p s) (q s').
Lemma code_operator : sim_code eq operator operator.
Proof.
  assert (H : forall s s' r o, both s s' -> ~ dashes s -> operator s = Ok r o -> exists r', operator s' = Ok r' o /\ both r r' /\ s = o ++ r /\ s' = o ++ r').
  { intros s s' r o Hs Hd E. apply operator_iff in E as (-> & Ho & Hr). destruct (rc_ops _ _ _ (proj1 (proj2 Ho)) Hd Hs) as (r' & -> & Hr').
    exists r'. split; [|auto]. apply operator_iff. split; [reflexivity|]. split; [exact Ho|]. eapply heads_ends; [apply rc_head, Hr'|exact Hr]. }
  intros s s' Hs Hd. unfold rel. destruct (operator s) as [r o| |] eqn:E.
  - destruct (H _ _ _ _ Hs Hd E) as (r' & -> & Hr & -> & ->). split; [reflexivity|]. split; [exact Hr|]. exists o, o. tauto.
  - destruct (operator s') as [r' o| |] eqn:E'; auto. destruct (H _ _ _ _ (rc_sym _ _ Hs) (rc_dashes _ _ Hs Hd) E') as (r & E2 & _). congruence.
  - exact I.
Qed.
Lemma code_sim {A B} (R : A -> B -> Prop) p q : simc R p q -> sim_code R p q.
Proof. intros H s s' Hs _. apply H, Hs. Qed.
Lemma code_alt {A B} (R : A -> B -> Prop) p q p' q' : sim_code R p p' -> sim_code R q q' -> sim_code R (p <|> q) (p' <|> q').
Proof.
  intros Hp Hq s s' Hs Hd. pose proof (Hq s s' Hs Hd) as H2. specialize (Hp s s' Hs Hd). unfold alt, rel in *.
  destruct (p s), (p' s'); auto; try tauto. destruct (q s); auto.
Qed.
Lemma code_bind {A B A' B'} (R : A -> A' -> Prop) (RB : B -> B' -> Prop) p p' f f' :
  sim_code R p p' -> (forall a a', R a a' -> simc RB (f a) (f' a')) -> sim_code RB (bind p f) (bind p' f').
Proof. intros Hp Hf s s' Hs Hd. eapply rel_bind; [apply Hp; assumption|exact Hf]. Qed.
Lemma code_map {A B A' B'} (RA : A -> A' -> Prop) (RB : B -> B' -> Prop) f f' p p' :
  sim_code RA p p' -> (forall a a', RA a a' -> RB (f a) (f' a')) -> sim_code RB (map_ f p) (map_ f' p').
Proof.
  intros Hp Hf s s' Hs Hd. specialize (Hp s s' Hs Hd). unfold map_, rel in *. destruct (p s), (p' s'); auto.
  destruct Hp as [H1 H2]. auto.
Qed.
Lemma bind_code {A B A' B'} (R : A -> A' -> Prop) (RB : B -> B' -> Prop) p p' f f' :
  simc R p p' -> (forall s s' r a, both s s' -> p s = Ok r a -> ~ dashes r) ->
  (forall a a', R a a' -> sim_code RB (f a) (f' a')) -> simc RB (bind p f) (bind p' f').
Proof.
  intros Hp Hd Hf s s' Hs. pose proof (Hp s s' Hs) as H. unfold bind, rel in *. destruct (p s) as [r a| |] eqn:E; destruct (p' s') as [r' a'| |]; try tauto.
  - destruct H as (Ha & Hr & t & t' & -> & -> & Ht). specialize (Hf a a' Ha r r' Hr (Hd _ _ _ _ Hs E)). unfold rel in Hf.
    destruct (f a r) as [r1 b| |]; destruct (f' a' r') as [r1' b'| |]; try tauto.
    destruct Hf as (Hb & Hr1 & u & u' & -> & -> & Hu). split; [exact Hb|]. split; [exact Hr1|].
    exists (t ++ u), (t' ++ u'). rewrite !app_assoc. split; [reflexivity|]. split; [reflexivity|].
    split; intros E0; apply app_eq_nil in E0 as [E1 E2]; apply Ht in E1; apply Hu in E2; subst; reflexivity.
  - destruct (f a r); exact I.
Qed.
Lemma sp_code i ir s s' r n : both s s' -> spaces_or_new_lines_and_indent i ir s = Ok r n -> ~ dashes r.
Proof.
  intros _ H. apply sp_iff in H as (t & (_ & _ & Hn & _) & _). intros (w & ->). destruct Hn as (_ & _ & Hn). apply Hn. split; [reflexivity|]. exists w. reflexivity.
Qed.
Lemma paren_code s s' r a : both s s' -> char_ (C "(") s = Ok r a -> ~ dashes r.
Proof.
  intros Hs H. apply char_word in H as (w & -> & (-> & _) & _). apply (rc_one (C "(")) in Hs as (s2 & _ & _ & (_ & _ & _ & H & _) & _); [|reflexivity].
  apply H. right. reflexivity.
Qed.

(** *** braces *)
Lemma bind_brace {B B'} (RB : B -> B' -> Prop) f f' :
  simc RB (f (C "{")) (f' (C "{")) ->
  (forall x s, x <> C "-" -> f (C "{") (C "-" :: x :: s) = Err /\ f' (C "{") (C "-" :: x :: s) = Err) ->
  simc RB (bind (char_ (C "{")) f) (bind (char_ (C "{")) f').
Proof.
  intros Hf Hd s s' Hs. assert (Hn : forall s, (forall r, s <> C "{" :: r) -> char_ (C "{") s = Err).
  { intros u Hu. destruct (char_ (C "{") u) as [r a| |] eqn:E; [|reflexivity|].
    - apply char_word in E as (w & -> & (-> & _) & _). destruct (Hu r eq_refl).
    - unfold char_ in E. destruct u; [discriminate E|]. destruct (_ =? _)%N; discriminate E. }
  destruct s as [|c s].
  - pose proof (rc_head _ _ Hs) as Hh. destruct s'; [|destruct Hh]. unfold bind. rewrite Hn by discriminate. exact I.
  - pose proof (rc_head _ _ Hs) as Hh. destruct s' as [|c0 s']; [destruct Hh|]. cbn in Hh. subst c0.
    destruct (N.eqb_spec c (C "{")) as [->|Hc]; [|unfold bind; rewrite !Hn by congruence; exact I].
    remember (C "{" :: s) as x eqn:E. remember (C "{" :: s') as x' eqn:E'.
    destruct Hs as [|d d' s1 s1'|d d' s1 s1' (_ & y & c & -> & Hy) (_ & y' & c' & -> & Hy')|t s1 s1' Ht|t s1 s1' Ht|d s1 s1' H1 H2 H].
    + discriminate E.
    + discriminate E.
    + injection E as <-. injection E' as <-. unfold bind. cbn [app char_]. rewrite N.eqb_refl.
      destruct (Hd y (c ++ L "-}" ++ s1) Hy) as [E1 _]. destruct (Hd y' (c' ++ L "-}" ++ s1') Hy') as [_ E2]. cbn [app] in *. rewrite E1, E2. exact I.
    + destruct Ht; discriminate E.
    + destruct Ht; discriminate E.
    + injection E as -> ->. injection E' as ->. specialize (Hf s s' H). unfold bind, char_. rewrite N.eqb_refl. unfold rel in *.
      destruct (f (C "{") s) as [r a| |]; destruct (f' (C "{") s') as [r' a'| |]; auto. destruct Hf as (Ha & Hr & t & t' & -> & -> & Ht).
      split; [exact Ha|]. split; [exact Hr|]. exists (C "{" :: t), (C "{" :: t'). split; [reflexivity|]. split; [reflexivity|]. split; discriminate.
Qed.

(** ** All parsers *)
Lemma q_bind {A B} (p p' : parser A) (f f' : A -> parser B) : simc eq p p' -> (forall a, simc eq (f a) (f' a)) -> simc eq (bind p f) (bind p' f').
Proof. intros Hp Hf. eapply sim_bind; [exact Hp|]. intros a a' <-. apply Hf. Qed.
Lemma q_map {A B} (f : A -> B) p p' : simc eq p p' -> simc eq (map_ f p) (map_ f p').
Proof. intros Hp. eapply sim_map; [exact Hp|]. intros a a' <-. reflexivity. Qed.
Lemma q_map_res {A B} (f : A -> option B) p p' : simc eq p p' -> simc eq (map_res f p) (map_res f p').
Proof. intros Hp. eapply sim_map_res; [exact Hp|]. intros a a' <-. destruct (f a); cbn; auto. Qed.
Lemma q_value {A B} (b : B) (p p' : parser A) : simc eq p p' -> simc eq (value b p) (value b p').
Proof. apply q_map. Qed.
Lemma q_opt {A} (p p' : parser A) : simc eq p p' -> simc eq (opt p) (opt p').
Proof. intros Hp. eapply sim_weak; [intros a b; apply opt_rel_eq|]. apply sim_opt, Hp. Qed.
Lemma q_many0 {A} (p p' : parser A) : simc eq p p' -> simc eq (many0 p) (many0 p').
Proof. intros Hp. eapply sim_weak; [intros a b; apply Forall2_is_eq|]. apply sim_many0, Hp. Qed.
Lemma q_many1 {A} (p p' : parser A) : simc eq p p' -> simc eq (many1 p) (many1 p').
Proof. intros Hp. eapply sim_weak; [intros a b; apply Forall2_is_eq|]. apply sim_many1, Hp. Qed.
Lemma q_sep {A B} (sep sep' : parser B) (p p' : parser A) : simc eq sep sep' -> simc eq p p' -> simc eq (separated_list sep p) (separated_list sep' p').
Proof. intros Hs Hp. eapply sim_weak; [intros a b; apply Forall2_is_eq|]. eapply sim_separated_list; eassumption. Qed.
Lemma q_sep1 {A B} (sep sep' : parser B) (p p' : parser A) : simc eq sep sep' -> simc eq p p' -> simc eq (separated_nonempty_list sep p) (separated_nonempty_list sep' p').
Proof. intros Hs Hp. eapply sim_weak; [intros a b; apply Forall2_is_eq|]. eapply sim_separated_nonempty; eassumption. Qed.
Lemma q_ret {A} (a : A) : simc eq (ret a) (ret a).
Proof. apply sim_ret. reflexivity. Qed.

Ltac q1 :=
  lazymatch goal with
  | |- TwoRuns.sim _ _ (bind _ _) _ => apply q_bind; [|intros ?]
  | |- TwoRuns.sim _ _ (preceded _ _) _ => eapply sim_preceded
  | |- TwoRuns.sim _ _ (terminated _ _) _ => eapply sim_terminated
  | |- TwoRuns.sim _ _ (delimited _ _ _) _ => eapply sim_delimited
  | |- TwoRuns.sim _ _ (separated_list _ _) _ => eapply q_sep
  | |- TwoRuns.sim _ _ (separated_nonempty_list _ _) _ => eapply q_sep1
  | |- TwoRuns.sim _ _ (many0 _) _ => apply q_many0
  | |- TwoRuns.sim _ _ (many1 _) _ => apply q_many1
  | |- TwoRuns.sim _ _ (map_ _ _) _ => apply q_map
  | |- TwoRuns.sim _ _ (map_res _ _) _ => apply q_map_res
  | |- TwoRuns.sim _ _ (value _ _) _ => apply q_value
  | |- TwoRuns.sim _ _ (ret _) _ => apply q_ret
  | |- TwoRuns.sim _ _ (opt_sp _) _ => unfold opt_sp
  | |- TwoRuns.sim _ _ (comma_sep _) _ => unfold comma_sep
  | |- TwoRuns.sim _ _ (opt _) _ => apply q_opt
  | |- TwoRuns.sim _ _ (alt _ _) _ => apply sim_alt
  | |- TwoRuns.sim _ _ (tag _) _ => first [apply rc_sim_tag; reflexivity|apply rc_sim_arrow]
  | |- TwoRuns.sim _ _ (char_ _) _ => apply rc_sim_char; reflexivity
  | |- TwoRuns.sim _ _ (spaces_or_new_lines_and_indent _ _) _ => apply rc_sim_sp
  | |- TwoRuns.sim _ _ (opt_spaces_or_new_lines_and_indent _ _) _ => apply rc_sim_opt_sp
  | |- TwoRuns.sim _ _ sp_gt0 _ => apply rc_sim_sp
  | |- TwoRuns.sim _ _ lo_name _ => apply rc_sim_lo_name
  | |- TwoRuns.sim _ _ up_name _ => apply rc_sim_up_name
  | |- TwoRuns.sim _ _ type_variable _ => apply rc_sim_type_variable
  | |- TwoRuns.sim _ _ spaces _ => apply rc_sim_take1; reflexivity
  | |- TwoRuns.sim _ _ spaces_and_newlines _ => apply rc_sim_take1; reflexivity
  | |- TwoRuns.sim _ _ space1 _ => apply rc_sim_take1; reflexivity
  | |- TwoRuns.sim _ _ multispace _ => apply rc_sim_take1; reflexivity
  | |- TwoRuns.sim _ _ digit _ => apply rc_sim_take1; reflexivity
  | |- TwoRuns.sim _ _ (is_a _) _ => apply rc_sim_take1; reflexivity
  | |- TwoRuns.sim _ _ multispace0 _ => apply rc_sim_take0; reflexivity
  end.
Ltac qs := repeat q1.

(** *** at a block comment nothing that begins with a brace can be read *)
Definition inside (s : str) : Prop := exists x r, s = C "-" :: x :: r /\ x <> C "-".
Lemma q_brace {B} (f f' : parser B) : simc eq f f' -> (forall s, inside s -> f s = Err) -> (forall s, inside s -> f' s = Err) ->
  simc eq (bind (char_ (C "{")) (fun _ => f)) (bind (char_ (C "{")) (fun _ => f')).
Proof.
  intros Hf H H'. apply bind_brace; [exact Hf|]. intros x s Hx. split; [apply H|apply H']; exists x, s; auto.
Qed.
Lemma inside_sp i ir s : inside s -> spaces_or_new_lines_and_indent i ir s = Err.
Proof.
  intros (x & r & -> & Hx). apply sp_nil. repeat split; [discriminate|discriminate|]. intros [_ (r' & E)]. injection E as E _. contradiction.
Qed.
Lemma inside_lo_name s : inside s -> lo_name s = Err.
Proof. intros (x & r & -> & Hx). eapply heads_Err; [apply heads_lo_name|apply ok_0; apply ok_lo_name|reflexivity]. Qed.
Lemma inside_char c s : inside s -> c <> C "-" -> char_ c s = Err.
Proof. intros (x & r & -> & Hx) Hc. unfold char_. destruct (N.eqb_spec (C "-") c); [congruence|]. reflexivity. Qed.
Lemma inside_opt {A} (p : parser A) s : p s = Err -> opt p s = Ok s None.
Proof. unfold opt. intros ->. reflexivity. Qed.
Lemma inside_multi s : inside s -> multispace0 s = Ok s [].
Proof. intros (x & r & -> & Hx). reflexivity. Qed.
Lemma sep_empty {A B} (sep : parser B) (p : parser A) s : p s = Err -> separated_list sep p s = Ok s [].
Proof. unfold separated_list. intros ->. reflexivity. Qed.
Lemma bind_assoc {A B D} (p : parser A) (f : A -> parser B) (g : B -> parser D) s :
  bind (bind p f) g s = bind p (fun a => bind (f a) g) s.
Proof. unfold bind. destruct (p s); reflexivity. Qed.
Lemma map_bind {A B D} (h : B -> D) (p : parser A) (f : A -> parser B) s : map_ h (bind p f) s = bind p (fun a => map_ h (f a)) s.
Proof. unfold map_, bind. destruct (p s); reflexivity. Qed.

Lemma q_brace2 {A B} (p : parser A) (f f' : parser B) : simc eq (bind p (fun _ => f)) (bind p (fun _ => f')) ->
  (forall s, inside s -> bind p (fun _ => f) s = Err) -> (forall s, inside s -> bind p (fun _ => f') s = Err) ->
  simc eq (bind (bind (char_ (C "{")) (fun _ => p)) (fun _ => f)) (bind (bind (char_ (C "{")) (fun _ => p)) (fun _ => f')).
Proof.
  intros Hf H H' s s' Hs. rewrite !bind_assoc. apply q_brace; assumption.
Qed.

Section Types.
  Variables T T' : N -> parser type_ast.
  Hypothesis HT : forall i, simc eq (T i) (T' i).

  Lemma q_annotation i : simc eq (type_annotation_f T i) (type_annotation_f T' i).
  Proof. unfold type_annotation_f. qs. apply HT. Qed.
  Lemma q_tuple_type i : simc eq (type_tuple_f T i) (type_tuple_f T' i).
  Proof. unfold type_tuple_f. qs. apply HT. Qed.
  Lemma q_pair i : simc eq (type_record_pair_f T i) (type_record_pair_f T' i).
  Proof. unfold type_record_pair_f. qs. apply q_annotation. Qed.
  Lemma q_pairs i : simc eq (type_record_pairs_f T i) (type_record_pairs_f T' i).
  Proof. unfold type_record_pairs_f. qs. apply q_pair. Qed.
  Lemma q_extension i : simc eq (type_record_constructor_f T i) (type_record_constructor_f T' i).
  Proof.
    unfold type_record_constructor_f, delimited. apply q_brace.
    - qs. apply q_pairs.
    - intros s Hs. apply bind_Err1, bind_Err1, inside_sp, Hs.
    - intros s Hs. apply bind_Err1, bind_Err1, inside_sp, Hs.
  Qed.
  Lemma pairs_inside U i s : inside s -> type_record_pairs_f U i s = Ok s [].
  Proof. intros Hs. apply sep_empty, bind_Err1, inside_lo_name, Hs. Qed.
  Lemma q_record_type i : simc eq (type_record_f T i) (type_record_f T' i).
  Proof.
    unfold type_record_f, delimited, preceded.
    assert (K : forall U s, inside s -> bind (opt_sp i) (fun _ => b <- map_ TypeRecord (type_record_pairs_f U i) ;; terminated (opt_sp i) (char_ (C "}")) ;;; ret b) s = Err).
    { intros U s Hs. eapply bind_Err2; [apply inside_opt, inside_sp, Hs|]. eapply bind_Err2; [unfold map_; rewrite pairs_inside by exact Hs; reflexivity|].
      apply bind_Err1. eapply bind_Err2; [apply inside_opt, inside_sp, Hs|]. apply bind_Err1, inside_char; [exact Hs|discriminate]. }
    apply q_brace2; [|apply K|apply K]. qs. apply q_pairs.
  Qed.
  Lemma q_parens_type i : simc eq (type_parens_f T i) (type_parens_f T' i).
  Proof. unfold type_parens_f. qs. apply q_annotation. Qed.
  Lemma q_parameter i : simc eq (type_parameter_f T i) (type_parameter_f T' i).
  Proof.
    unfold type_parameter_f, type_constant. qs.
    - apply q_extension.
    - apply q_record_type.
    - apply q_tuple_type.
    - apply q_parens_type.
  Qed.
  Lemma q_constructor i : simc eq (type_constructor_f T i) (type_constructor_f T' i).
  Proof. unfold type_constructor_f. qs. apply q_parameter. Qed.
  Lemma q_type_f i : simc eq (type_f T i) (type_f T' i).
  Proof.
    unfold type_f. qs.
    - apply q_constructor.
    - apply q_extension.
    - apply q_record_type.
    - apply q_tuple_type.
    - apply q_parens_type.
  Qed.
End Types.
Lemma q_type_n n : forall n' i, simc eq (type_n n i) (type_n n' i).
Proof.
  induction n as [|n IH]; intros [|n'] i s s' Hs; try exact I; [apply rel_abort|].
  cbn [type_n]. apply q_type_f; auto.
Qed.
Lemma q_type i : simc eq (type_ i) (type_ i).
Proof. intros s s' Hs. apply q_type_n; assumption. Qed.
Lemma q_type_annotation i : simc eq (type_annotation i) (type_annotation i).
Proof. apply q_annotation, q_type. Qed.
Lemma q_type_constructor i : simc eq (type_constructor i) (type_constructor i).
Proof. apply q_constructor, q_type. Qed.

(** *** expressions *)
Lemma q_paren_operator : simc eq (delimited (char_ (C "(")) operator (char_ (C ")"))) (delimited (char_ (C "(")) operator (char_ (C ")"))).
Proof.
  unfold delimited. eapply bind_code; [apply rc_sim_char; reflexivity|apply paren_code|]. intros _ _ _.
  eapply code_bind; [apply code_operator|]. intros a a' <-. qs.
Qed.
Lemma q_variable : simc eq variable variable.
Proof.
  unfold variable, lower_case, upper_with_dots, op. apply sim_alt; [qs|]. apply sim_alt; [qs|]. apply q_map.
  unfold delimited. eapply bind_code; [apply rc_sim_char; reflexivity|apply paren_code|]. intros _ _ _.
  eapply code_bind; [apply code_alt; [apply code_operator|]|].
  - apply code_sim. qs.
  - intros a a' <-. qs.
Qed.
Lemma q_access : simc eq access access.
Proof. unfold access. qs. apply q_variable. Qed.
Lemma q_access_function : simc eq access_function access_function.
Proof. unfold access_function. qs. Qed.
Lemma q_binding_name : simc eq binding_name binding_name.
Proof. unfold binding_name. apply sim_alt; [qs|apply q_paren_operator]. Qed.
Lemma q_signature i : simc eq (function_signature i) (function_signature i).
Proof. unfold function_signature. qs; [apply q_binding_name|apply q_type_annotation]. Qed.

Section Expressions.
  Variables E E' : N -> parser expr.
  Hypothesis HE : forall i, simc eq (E i) (E' i).

  Lemma q_tuple i : simc eq (tuple_f E i) (tuple_f E' i).
  Proof. unfold tuple_f. qs. apply HE. Qed.
  Lemma q_list i : simc eq (list_f E i) (list_f E' i).
  Proof. unfold list_f. qs. apply HE. Qed.
  Lemma q_record_field i : simc eq (record_field_f E i) (record_field_f E' i).
  Proof. unfold record_field_f, separated_pair. qs. apply HE. Qed.
  Lemma q_record i : simc eq (record_f E i) (record_f E' i).
  Proof.
    unfold record_f. apply q_map. unfold delimited, preceded.
    assert (K : forall F s, inside s -> bind (opt_sp i) (fun _ => b <- separated_list (comma_sep i) (record_field_f F i) ;; terminated (opt_sp i) (char_ (C "}")) ;;; ret b) s = Err).
    { intros F s Hs. eapply bind_Err2; [apply inside_opt, inside_sp, Hs|]. eapply bind_Err2; [apply sep_empty, bind_Err1, inside_lo_name, Hs|].
      apply bind_Err1. eapply bind_Err2; [apply inside_opt, inside_sp, Hs|]. apply bind_Err1, inside_char; [exact Hs|discriminate]. }
    apply q_brace2; [|apply K|apply K]. qs. apply q_record_field.
  Qed.
  Lemma q_simplified_record : simc eq simplified_record simplified_record.
  Proof.
    unfold simplified_record. apply q_map. unfold delimited.
    assert (K : forall s, inside s -> bind (separated_list (char_ (C ",")) simplified_field) (fun b => char_ (C "}") ;;; ret b) s = Err).
    { intros s Hs. eapply bind_Err2; [apply sep_empty|apply bind_Err1, inside_char; [exact Hs|discriminate]].
      unfold simplified_field. eapply bind_Err2; [apply inside_multi, Hs|]. apply bind_Err1, inside_lo_name, Hs. }
    apply q_brace; [|exact K|exact K]. unfold simplified_field. qs.
  Qed.
  Lemma q_update_field i : simc eq (update_field_f E i) (update_field_f E' i).
  Proof. unfold update_field_f. qs. apply HE. Qed.
  Lemma q_record_update i : simc eq (record_update_f E i) (record_update_f E' i).
  Proof.
    unfold record_update_f, delimited at 1 3, preceded.
    apply q_brace2.
    - qs. apply q_update_field.
    - intros s Hs. eapply bind_Err2; [unfold opt_spaces_or_new_lines_and_indent, map_; rewrite inside_opt by apply inside_sp, Hs; reflexivity|].
      apply bind_Err1, bind_Err1, inside_lo_name, Hs.
    - intros s Hs. eapply bind_Err2; [unfold opt_spaces_or_new_lines_and_indent, map_; rewrite inside_opt by apply inside_sp, Hs; reflexivity|].
      apply bind_Err1, bind_Err1, inside_lo_name, Hs.
  Qed.
  Lemma q_parens i : simc eq (parens_f E i) (parens_f E' i).
  Proof. unfold parens_f. qs. apply HE. Qed.
  Lemma q_term i : simc eq (term_f E i) (term_f E' i).
  Proof.
    unfold term_f.
    apply sim_alt; [apply q_access|]. apply sim_alt; [apply q_variable|]. apply sim_alt; [apply q_access_function|].
    apply sim_alt; [apply rc_sim_string|]. apply sim_alt; [apply rc_sim_float|]. apply sim_alt; [apply rc_sim_integer|].
    apply sim_alt; [apply rc_sim_character|]. apply sim_alt; [apply q_parens|].
    apply sim_alt; [apply q_list|]. apply sim_alt; [apply q_tuple|].
    apply sim_alt; [apply q_record_update|]. apply sim_alt; [apply q_record|]. apply q_simplified_record.
  Qed.
  Lemma q_lambda i : simc eq (lambda_f E i) (lambda_f E' i).
  Proof. unfold lambda_f. qs; [apply q_term|apply HE]. Qed.
  Lemma q_application i : simc eq (application_or_var_f E i) (application_or_var_f E' i).
  Proof. unfold application_or_var_f. qs. apply q_term. Qed.
  Lemma q_definition i : simc eq (function_definition_f E i) (function_definition_f E' i).
  Proof. unfold function_definition_f. qs; [apply q_binding_name|apply q_term|apply HE]. Qed.
  Lemma q_function_f i : simc eq (function_f E i) (function_f E' i).
  Proof. unfold function_f. qs; [apply q_signature|apply rc_sim_nl|apply q_definition]. Qed.
  Lemma q_target i : simc eq (let_binding_target_f E i) (let_binding_target_f E' i).
  Proof. unfold let_binding_target_f. qs; [apply q_variable|apply q_list|apply q_tuple|apply q_simplified_record]. Qed.
  Lemma q_let_binding i : simc eq (let_binding_f E i) (let_binding_f E' i).
  Proof. unfold let_binding_f. qs; [apply q_target|apply HE]. Qed.
  Lemma q_let_bindings i : simc eq (let_bindings_f E i) (let_bindings_f E' i).
  Proof. unfold let_bindings_f. qs; [apply q_let_binding|apply q_function_f]. Qed.
  Lemma q_let i : simc eq (let_expression_f E i) (let_expression_f E' i).
  Proof. unfold let_expression_f. qs; [apply q_let_bindings|apply HE]. Qed.
  Lemma q_case i : simc eq (case_f E i) (case_f E' i).
  Proof. unfold case_f. qs; apply HE. Qed.
  Lemma q_case_expression i : simc eq (case_expression_f E i) (case_expression_f E' i).
  Proof. unfold case_expression_f, cases_f. qs; [apply HE|apply q_case]. Qed.
  Lemma q_if i : simc eq (if_expression_f E i) (if_expression_f E' i).
  Proof. unfold if_expression_f. qs; apply HE. Qed.
  Lemma q_operator_exp i : simc eq (operator_exp_f E i) (operator_exp_f E' i).
  Proof.
    unfold operator_exp_f. eapply bind_code; [apply rc_sim_sp|intros s s' r a; apply sp_code|]. intros _ _ _.
    eapply code_bind with (R := eq).
    - unfold operator_or_as. eapply code_map; [apply code_alt; [apply code_sim; qs|apply code_operator]|]. intros a a' <-. reflexivity.
    - intros a a' <-. qs. apply HE.
  Qed.
  Lemma q_binary i : simc eq (binary_f E i) (binary_f E' i).
  Proof. unfold binary_f. qs; [apply q_application|apply q_operator_exp]. Qed.
  Lemma q_expression_f i : simc eq (expression_f E i) (expression_f E' i).
  Proof. unfold expression_f. qs; [apply q_binary|apply q_let|apply q_case_expression|apply q_if|apply q_lambda]. Qed.
End Expressions.
Lemma q_expression_n n : forall n' i, simc eq (expression_n n i) (expression_n n' i).
Proof.
  induction n as [|n IH]; intros [|n'] i s s' Hs; try exact I; [apply rel_abort|].
  cbn [expression_n]. apply q_expression_f; auto.
Qed.
Lemma q_expression i : simc eq (expression i) (expression i).
Proof. intros s s' Hs. apply q_expression_n; assumption. Qed.
Lemma q_function i : simc eq (function i) (function i).
Proof. apply q_function_f, q_expression. Qed.

(** *** statements and files *)
Lemma q_exports : simc eq exports exports.
Proof.
  unfold exports, all_export, subset_export, function_export, function_name, type_export, constructor_exports, constructor_subset_exports, all_export.
  eapply sim_delimited; [qs| |qs]. apply sim_alt; [qs|]. apply q_map, q_sep1; [qs|]. apply sim_alt; [|qs].
  apply q_map, sim_alt; [qs|apply q_paren_operator].
Qed.
Lemma q_module_name : simc eq module_name module_name.
Proof. unfold module_name. qs. Qed.
Lemma q_port_module : simc eq port_module_declaration port_module_declaration.
Proof. unfold port_module_declaration. qs; [apply q_module_name|apply q_exports]. Qed.
Lemma q_effect_fields : simc eq (delimited (char_ (C "{")) (separated_list (tag (L ", ")) effect_field) (char_ (C "}")))
  (delimited (char_ (C "{")) (separated_list (tag (L ", ")) effect_field) (char_ (C "}"))).
Proof.
  unfold delimited.
  assert (K : forall s, inside s -> bind (separated_list (tag (L ", ")) effect_field) (fun b => char_ (C "}") ;;; ret b) s = Err).
  { intros s Hs. eapply bind_Err2; [apply sep_empty|apply bind_Err1, inside_char; [exact Hs|discriminate]].
    unfold effect_field. apply bind_Err1, inside_lo_name, Hs. }
  apply q_brace; [|exact K|exact K]. unfold effect_field. qs.
Qed.
Lemma q_effect_module : simc eq effect_module_declaration effect_module_declaration.
Proof.
  unfold effect_module_declaration. do 8 (apply q_bind; [first [apply q_module_name|qs]|intros ?]).
  apply q_bind; [apply q_effect_fields|intros ?]. qs. apply q_exports.
Qed.
Lemma q_module : simc eq module_declaration module_declaration.
Proof. unfold module_declaration. qs; [apply q_module_name|apply q_exports]. Qed.
Lemma q_import : simc eq import_statement import_statement.
Proof. unfold import_statement. qs; [apply q_module_name|apply q_exports]. Qed.
Lemma q_alias : simc eq type_alias_declaration type_alias_declaration.
Proof. unfold type_alias_declaration. qs; [apply q_type|apply q_type_annotation]. Qed.
Lemma q_type_declaration i : simc eq (type_declaration i) (type_declaration i).
Proof. unfold type_declaration. qs; [apply q_type|apply q_type_constructor]. Qed.
Lemma q_port_type : simc eq port_type_declaration port_type_declaration.
Proof. unfold port_type_declaration. qs. apply q_type_annotation. Qed.
Lemma q_port : simc eq port_declaration port_declaration.
Proof. unfold port_declaration. qs. apply q_expression. Qed.

Lemma lead_spaces b : all_spaces b = true -> forallb lead b = true.
Proof.
  unfold all_spaces. rewrite !forallb_forall. intros H c Hc. apply H in Hc. unfold lead. rewrite Hc. reflexivity.
Qed.
Lemma lead_digits d : forallb is_dec d = true -> forallb lead d = true.
Proof.
  rewrite !forallb_forall. intros H c Hc. apply H in Hc. unfold lead. rewrite Hc. destruct (c =? space)%N; reflexivity.
Qed.
Lemma lead_marks w : forallb lead w = true -> forallb (fun c => negb (mark c)) w = true.
Proof. apply no_marks. reflexivity. Qed.
Lemma infix_word_split a w : infix_word a w -> exists v, w = L "infix" ++ v /\ forallb lead v = true.
Proof. intros H. destruct H; [exists (L "l")|exists (L "r")|exists []]; auto. Qed.
Lemma q_infix : simc eq infix_declaration infix_declaration.
Proof.
  apply fw_sim. intros s s' r st Hs H. apply infix_declaration_iff in H as (a & w & b & d & b' & n & -> & -> & Hw & Hb & Hd & Hb' & Hv & Hn).
  destruct (infix_word_split _ _ Hw) as (v & -> & Hl).
  assert (HL : forallb lead (v ++ b ++ d ++ b') = true).
  { rewrite !forallb_app, Hl, (lead_spaces b), (lead_digits d), (lead_spaces b'); [reflexivity|apply Hb'|apply Hd|apply Hb]. }
  assert (Hq : quiet (v ++ b ++ d ++ b' ++ n ++ r)).
  { rewrite <- app_assoc in Hs. apply (rc_one (C "i")) in Hs as (s2 & _ & _ & (_ & _ & _ & _ & _ & Hq) & _); [|reflexivity]. apply Hq. reflexivity. }
  assert (Hnd : ~ dashes (n ++ r)).
  { intros (z & E). rewrite E in Hq. enough (Hx : forallb lead (v ++ b ++ d ++ b') = false) by congruence. apply (Hq _ z). rewrite <- !app_assoc. reflexivity. }
  assert (Hs2 : both ((L "infix" ++ v ++ b ++ d ++ b') ++ n ++ r) s') by (rewrite <- !app_assoc in *; exact Hs).
  apply rc_word in Hs2 as (s2 & -> & Hs2); [|rewrite forallb_app, (lead_marks _ HL); reflexivity].
  assert (Hn2 : exists r', s2 = n ++ r' /\ both r r').
  { destruct Hn as [[Hn _]|[Hn _]].
    - apply rc_word in Hs2; [exact Hs2|]. destruct Hn as [->|[(c & t & -> & Hc & Ht) _]]; [reflexivity|].
      apply (no_marks is_name_char); [reflexivity|]. cbn. rewrite Ht. unfold is_name_char. rewrite Hc. reflexivity.
    - apply rc_ops in Hs2; [exact Hs2|apply Hn|exact Hnd]. }
  destruct Hn2 as (r' & -> & Hr). exists r', (InfixDeclaration a (dec_value d) n), ((L "infix" ++ v ++ b ++ d ++ b') ++ n), ((L "infix" ++ v ++ b ++ d ++ b') ++ n).
  split; [|split; [reflexivity|split; [exact Hr|rewrite <- !app_assoc; tauto]]].
  apply infix_declaration_iff. exists a, (L "infix" ++ v), b, d, b', n. rewrite <- !app_assoc. repeat (split; [first [assumption|reflexivity]|]).
  destruct Hn as [[Hn [->|He]]|[Hn He]]; [left; auto|left; split; [exact Hn|right]|right; split; [exact Hn|]]; (eapply heads_ends; [apply rc_head, Hr|exact He]).
Qed.

Lemma rc_sim_block : simc same_code multi_line_comment multi_line_comment.
Proof.
  apply fw_sim. intros s s' r a Hs H. apply map_Ok in H as (c & H & ->). pose proof H as Hc. apply block_comment_iff in H as [E Hn].
  destruct Hs as [|d d' s1 s1' Hd Hd'|d d' s1 s1' Hd Hd' Hs|t s1 s1' Ht|t s1 s1' Ht|d s1 s1' H1 H2 H].
  - discriminate E.
  - discriminate E.
  - assert (K : forall x w, block_text x -> preceded (tag (L "{-")) (take_until_and_consume (L "-}")) (L "{-" ++ x ++ L "-}" ++ w) = Ok w x).
    { intros x w [Hx _]. apply block_comment_iff. split; [reflexivity|exact Hx]. }
    rewrite (K _ _ Hd) in Hc. injection Hc as <- <-. exists s1', (Comment d'), (L "{-" ++ d ++ L "-}"), (L "{-" ++ d' ++ L "-}").
    split; [unfold multi_line_comment, map_; rewrite (K _ _ Hd'); reflexivity|]. split; [constructor|]. split; [exact Hs|].
    rewrite <- !app_assoc. split; [reflexivity|]. split; [reflexivity|]. split; discriminate.
  - destruct Ht; discriminate E.
  - destruct Ht; discriminate E.
  - injection E as -> ->. destruct H1 as (_ & _ & _ & _ & H1 & _). specialize (H1 eq_refl). discriminate H1.
Qed.
Lemma rc_sim_statement : simc same_code statement statement.
Proof.
  assert (K : forall p, simc eq p p -> simc same_code p p).
  { intros p Hp. eapply sim_weak; [|exact Hp]. intros a b <-. constructor. }
  unfold statement. apply sim_alt; [apply K, q_port_module|]. apply sim_alt; [apply K, q_effect_module|]. apply sim_alt; [apply K, q_module|].
  apply sim_alt; [apply K, q_import|]. apply sim_alt; [apply K, q_alias|]. apply sim_alt; [apply K, q_type_declaration|].
  apply sim_alt; [apply K, q_port_type|]. apply sim_alt; [apply K, q_port|]. apply sim_alt; [apply K, q_map, q_function|].
  apply sim_alt; [apply K, q_infix|]. unfold comment. apply sim_alt; [|apply rc_sim_block].
  unfold single_line_comment_stmt. eapply sim_map; [apply rc_sim_comment|]. intros a a' _. constructor.
Qed.
Lemma rc_sim_eof : simc any eof eof.
Proof.
  intros s s' Hs. pose proof (rc_head _ _ Hs) as Hh. unfold eof. destruct s, s'; try destruct Hh; [|exact I].
  split; [exact I|]. split; [exact Hs|]. exists [], []. tauto.
Qed.
Lemma rc_sim_file : simc (Forall2 same_code) file file.
Proof.
  unfold file, statements. eapply sim_terminated; [|apply rc_sim_eof]. eapply sim_delimited; [apply rc_sim_take0; reflexivity| |apply rc_sim_take0; reflexivity].
  eapply sim_separated_nonempty; [apply rc_sim_take0; reflexivity|apply rc_sim_statement].
Qed.

(** ** From one side to both *)
Lemma ordinary_other c s s' : both s s' -> ordinary c s -> ordinary c s'.
Proof.
  intros Hs (H1 & H2 & H3 & H4 & H5 & H6). split; [exact H1|]. split; [exact H2|]. split; [|split; [|split]].
  - intros (w & E). apply H3. injection E as -> ->. apply rc_head in Hs. destruct s as [|x s]; [destruct Hs|]. cbn in Hs. subst x. exists s. reflexivity.
  - intros Hc. eapply rc_dashes; [exact Hs|]. apply H4, Hc.
  - intros Hc. eapply heads_ends; [apply rc_head, Hs|]. apply H5, Hc.
  - intros r' E. injection E as -> ->. apply rc_sym, (rc_word (L "nfix")) in Hs as (r & -> & Hr); [|reflexivity].
    specialize (H6 r eq_refl). intros a b ->. destruct (forallb lead a) eqn:Ha; [|reflexivity]. exfalso.
    apply rc_word in Hr as (r2 & -> & Hr); [|apply lead_marks, Ha]. apply rc_line_inv in Hr as (_ & d & _ & r' & _ & -> & _).
    rewrite (H6 a (d ++ r') eq_refl) in Ha. discriminate Ha.
Qed.
Lemma recomment_both s s' : recomment s s' -> both s s'.
Proof.
  induction 1 as [|c c' s s' Hc Hc' Hs H IH|c c' s s' Hc Hc' H IH|t s s' Ht H IH|t s s' Ht H IH|c s s' Hc H IH].
  - apply b_nil.
  - apply b_line; auto. apply line_ends. apply line_ends in Hs. eapply heads_ends; [apply rc_head, IH|exact Hs].
  - apply b_block; auto.
  - apply b_string; auto. destruct Ht as [c Hc|c Hc He]; [apply token_multi, Hc|]. apply token_single; [exact Hc|]. intros E.
    eapply heads_ends; [apply rc_head, IH|]. apply He, E.
  - apply b_literal; auto.
  - apply b_char; auto. eapply ordinary_other; eassumption.
Qed.
Lemma both_recomment s s' : both s s' -> recomment s s'.
Proof. induction 1; [apply rc_nil|apply rc_line|apply rc_block|apply rc_string|apply rc_literal|apply rc_char]; assumption. Qed.
Lemma recomment_sym s s' : recomment s s' -> recomment s' s.
Proof. intros H. apply both_recomment, rc_sym, recomment_both, H. Qed.
