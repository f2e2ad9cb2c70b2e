(** * Spacing and comments do not matter: two texts that differ in them *)
From Verif Require Import Base Nom Regex Ast Good Spec Grammar Helpers Types Expr Stmt Lexers Layout Follow SoundE Seqs LexProps Total Heads Rules TwoRuns RenameSim Whole CommentSpec LayoutSpec.
From Verif Require Import Recomment.
From Verif Require Rename Reindent.

(** the relation with both texts treated alike *)
Notation nosp := (ends (fun c => (c =? space)%N)).
Inductive both : str -> str -> Prop :=
| b_nil : both [] []
| b_spaces n m s s' : 0 < n -> 0 < m -> nosp s -> nosp s' -> both s s' -> both (spaces_of n ++ s) (spaces_of m ++ s')
| b_newline k s s' : ends is_sp_nl s -> ends is_sp_nl s' -> both s s' -> both (newline :: spaces_of k ++ s) (newline :: spaces_of k ++ s')
| b_newlines w w' k s s' : forallb is_sp_nl w = true -> forallb is_sp_nl w' = true -> ends is_sp_nl s -> ends is_sp_nl s' ->
    both s s' -> both (newline :: w ++ newline :: spaces_of k ++ s) (newline :: w' ++ newline :: spaces_of k ++ s')
| b_line c c' s s' : forallb not_newline c = true -> forallb not_newline c' = true -> line_end s -> line_end s' ->
    both s s' -> both (L "--" ++ c ++ s) (L "--" ++ c' ++ s')
| b_block c c' s s' : block_text c -> block_text c' ->
    both s s' -> both (L "{-" ++ c ++ L "-}" ++ s) (L "{-" ++ c' ++ L "-}" ++ s')
| b_string t s s' : string_token s t -> string_token s' t -> both s s' -> both (t ++ s) (t ++ s')
| b_literal t s s' : char_token t -> both s s' -> both (t ++ s) (t ++ s')
| b_comma n m s s' : (n = 0 <-> m = 0) -> (n = 1 <-> m = 1) -> nosp s -> nosp s' ->
    both s s' -> both (C "," :: spaces_of n ++ s) (C "," :: spaces_of m ++ s')
| b_char c s s' : ordinary c s -> ordinary c s' -> is_sp_nl c = false -> c <> C "," -> both s s' -> both (c :: s) (c :: s').

Lemma rc_sym s s' : both s s' -> both s' s.
Proof.
  induction 1; [apply b_nil|apply b_spaces|apply b_newline|apply b_newlines|apply b_line|apply b_block|apply b_string|apply b_literal|apply b_comma|apply b_char];
    first [assumption|symmetry; assumption].
Qed.
Lemma rc_head s s' : both s s' -> heads_eq s s'.
Proof.
  intros H. destruct H as [|n m s s' Hn Hm| | | | |t s s' Ht|t s s' Ht| |]; try reflexivity; try exact I.
  - destruct n, m; [lia..|]. reflexivity.
  - destruct Ht; reflexivity.
  - destruct Ht; reflexivity.
Qed.
Ltac cases H :=
  destruct H as [|n1 m1 s1 s1' Hn1 Hm1 Hs1 Hs1' Hb|k1 s1 s1' Hs1 Hs1' Hb|w1 w1' k1 s1 s1' Hw1 Hw1' Hs1 Hs1' Hb|d d' s1 s1' Hd1 Hd1' Hs1 Hs1' Hb|d d' s1 s1' Hd1 Hd1' Hb|t1 s1 s1' Ht1 Ht1' Hb|t1 s1 s1' Ht1 Hb|n1 m1 s1 s1' Hn1 Hm1 Hs1 Hs1' Hb|d s1 s1' Ho1 Ho1' Hp1 Hq1 Hb].
Lemma comma_spaces n m s s' : (n = 0 <-> m = 0) -> nosp s -> nosp s' -> both s s' -> both (spaces_of n ++ s) (spaces_of m ++ s').
Proof.
  intros H Hs Hs' Hb. destruct n as [|n].
  - assert (m = 0) as -> by tauto. exact Hb.
  - apply b_spaces; auto; [lia|]. destruct m; [|lia]. destruct H as [_ H]. discriminate (H eq_refl).
Qed.

(** one character that is no mark *)
Definition mark (c : char) : bool := (c =? C "-")%N || (c =? C "{")%N || (c =? quote)%N || (c =? squote)%N || (c =? space)%N || (c =? newline)%N.
Lemma rc_one c s s' : mark c = false -> both (c :: s) s' -> exists s2, s' = c :: s2 /\ both s s2 /\ (c = C "," \/ ordinary c s /\ ordinary c s2).
Proof.
  intros Hc H. remember (c :: s) as x eqn:E. cases H; try discriminate E.
  - destruct n1; [lia|]. injection E as <- _. discriminate Hc.
  - injection E as <- _. discriminate Hc.
  - injection E as <- _. discriminate Hc.
  - injection E as <- _. discriminate Hc.
  - injection E as <- _. discriminate Hc.
  - destruct Ht1; injection E as <- _; discriminate Hc.
  - destruct Ht1; injection E as <- _; discriminate Hc.
  - injection E as <- <-. eexists. split; [reflexivity|]. split; [apply comma_spaces; assumption|auto].
  - injection E as -> ->. eauto 8.
Qed.
Lemma rc_word w r s' : forallb (fun c => negb (mark c)) w = true -> both (w ++ r) s' -> exists r', s' = w ++ r' /\ both r r'.
Proof.
  revert s'. induction w as [|c w IH]; intros s' Hw H; [exists s'; auto|]. apply andb_true_iff in Hw as [Hc Hw]. apply negb_true_iff in Hc.
  apply (rc_one c _ _ Hc) in H as (s2 & -> & H & _). destruct (IH _ Hw H) as (r' & -> & Hr). exists r'. auto.
Qed.
(** a minus that begins no comment *)
Lemma rc_minus s s' : ~ dashes (C "-" :: s) -> both (C "-" :: s) s' -> exists s2, s' = C "-" :: s2 /\ both s s2 /\ ~ dashes s.
Proof.
  intros Hd H. remember (C "-" :: s) as x eqn:E. cases H; try discriminate E.
  - destruct n1; [lia|]. discriminate E.
  - exfalso. apply Hd. exists (d ++ s1). reflexivity.
  - destruct Ht1; discriminate E.
  - destruct Ht1; discriminate E.
  - injection E as -> ->. exists s1'. split; [reflexivity|]. split; [exact Hb|]. destruct Ho1 as (_ & _ & _ & H1 & _). apply H1. left. reflexivity.
Qed.
Lemma op_not_mark c : is_op_char c = true -> c <> C "-" -> mark c = false.
Proof.
  intros Hc Hd. unfold mark. destruct (N.eqb_spec c (C "-")) as [E|_]; [contradiction|]. cbn [orb].
  destruct (N.eqb_spec c (C "{")) as [->|_]; [discriminate Hc|]. destruct (N.eqb_spec c quote) as [->|_]; [discriminate Hc|].
  destruct (N.eqb_spec c squote) as [->|_]; [discriminate Hc|]. destruct (N.eqb_spec c space) as [->|_]; [discriminate Hc|].
  destruct (N.eqb_spec c newline) as [->|_]; [discriminate Hc|]. reflexivity.
Qed.
Lemma rc_ops w r s' : forallb is_op_char w = true -> ~ dashes (w ++ r) -> both (w ++ r) s' ->
  exists r', s' = w ++ r' /\ both r r'.
Proof.
  revert s'. induction w as [|c w IH]; intros s' Hw Hd H; [exists s'; auto|]. apply andb_true_iff in Hw as [Hc Hw]. cbn [app] in *.
  assert (Hx : exists s2, s' = c :: s2 /\ both (w ++ r) s2 /\ ~ dashes (w ++ r)).
  { destruct (N.eqb_spec c (C "-")) as [->|Hne]; [apply rc_minus; assumption|].
    apply rc_one in H as (s2 & -> & H & [->|[(_ & _ & _ & H1 & _) _]]); [discriminate Hc| |apply op_not_mark; assumption]. exists s2. auto. }
  destruct Hx as (s2 & -> & H2 & H3). destruct (IH _ Hw H3 H2) as (r' & -> & Hr). exists r'. auto.
Qed.
Lemma rc_dashes s s' : both s s' -> ~ dashes s -> ~ dashes s'.
Proof.
  intros H Hd (w & E). subst s'. apply rc_sym in H. remember (L "--" ++ w) as x eqn:E. cases H; try discriminate E.
  - destruct n1; [lia|]. discriminate E.
  - apply Hd. exists (d' ++ s1'). reflexivity.
  - destruct Ht1; discriminate E.
  - destruct Ht1; discriminate E.
  - injection E as -> ->. destruct Ho1 as (_ & _ & H1 & _). apply H1. exists w. reflexivity.
Qed.

(** ** Two runs *)
Notation X := both.
Notation simc := (sim both).
Lemma fw_sim {A} (R : A -> A -> Prop) p : fw X R p p -> simc R p p.
Proof.
  intros H. apply sim_fw with (RB := R); [exact H|]. intros s s' r a Hs E. unfold back in Hs.
  destruct (H _ _ _ _ (rc_sym _ _ Hs) E) as (r' & b & t & t' & E' & Hb & Hr & Hx). exists r', b, t, t'. split; [exact E'|]. split; [exact Hb|].
  split; [|exact Hx]. unfold back. apply rc_sym, Hr.
Qed.
Lemma sim_plain {A} (p : parser A) (W : str -> A -> Prop) (Z : A -> str -> Prop) :
  (forall s r a, p s = Ok r a <-> exists w, s = w ++ r /\ W w a /\ Z a r) ->
  (forall w a, W w a -> forallb (fun c => negb (mark c)) w = true) ->
  (forall a r r', heads_eq r r' -> Z a r -> Z a r') -> simc eq p p.
Proof.
  intros Hp Hw HZ. apply fw_sim. intros s s' r a Hs H. apply Hp in H as (w & -> & H1 & H2).
  destruct (rc_word _ _ _ (Hw _ _ H1) Hs) as (r' & -> & Hr). exists r', a, w, w. split; [|tauto].
  apply Hp. exists w. split; [reflexivity|]. split; [exact H1|]. eapply HZ; [apply rc_head, Hr|exact H2].
Qed.
Lemma rc_sim_char c : mark c = false -> simc eq (char_ c) (char_ c).
Proof.
  intros Hc. apply (sim_plain _ (fun w a => w = [c] /\ a = c) (fun _ _ => True)); auto.
  - intros s r a. rewrite char_word. reflexivity.
  - intros w a [-> _]. cbn. rewrite Hc. reflexivity.
Qed.
Lemma rc_sim_tag u : forallb (fun c => negb (mark c)) u = true -> simc eq (tag u) (tag u).
Proof.
  intros Hu. apply (sim_plain _ (fun w a => w = u /\ a = u) (fun _ _ => True)); auto.
  - intros s r a. rewrite tag_word. reflexivity.
  - intros w a [-> _]. exact Hu.
Qed.
Lemma rc_sim_arrow : simc eq (tag (L "->")) (tag (L "->")).
Proof.
  apply fw_sim. intros s s' r a Hs H. apply tag_iff in H as [-> ->].
  apply rc_ops in Hs as (r' & -> & Hr); [|reflexivity|intros (x & Hx); discriminate Hx].
  exists r', (L "->"), (L "->"), (L "->"). split; [apply tag_iff; auto|tauto].
Qed.
Lemma heads_eq_ends f : forall r r', heads_eq r r' -> ends f r -> ends f r'. Proof. intros r r'. apply heads_ends. Qed.
Lemma no_marks f : forallb (fun c => negb (f c)) [C "-"; C "{"; quote; squote; space; newline] = true -> forall w, forallb f w = true -> forallb (fun c => negb (mark c)) w = true.
Proof.
  intros Hf w Hw. rewrite forallb_forall in *. intros c Hc. apply Hw in Hc. apply negb_true_iff. unfold mark.
  assert (H : forall d, In d [C "-"; C "{"; quote; squote; space; newline] -> (c =? d)%N = false).
  { intros d Hd. apply N.eqb_neq. intros ->. apply Hf in Hd. rewrite Hc in Hd. discriminate Hd. }
  rewrite !H; [reflexivity|cbn; tauto..].
Qed.
Lemma rc_sim_take0 f : forallb (fun c => negb (f c)) [C "-"; C "{"; quote; squote; space; newline] = true -> simc eq (take_while0 f) (take_while0 f).
Proof.
  intros Hf. apply (sim_plain _ (fun w a => w = a /\ forallb f w = true) (fun _ r => ends f r)).
  - intros s r a. apply take0_word.
  - intros w a [_ H]. eapply no_marks; eassumption.
  - intros _. apply heads_eq_ends.
Qed.
Lemma rc_sim_take1 f : forallb (fun c => negb (f c)) [C "-"; C "{"; quote; squote; space; newline] = true -> simc eq (take_while1 f) (take_while1 f).
Proof.
  intros Hf. apply (sim_plain _ (fun w a => w = a /\ w <> [] /\ forallb f w = true) (fun _ r => ends f r)).
  - intros s r a. apply take1_word.
  - intros w a (_ & _ & H). eapply no_marks; eassumption.
  - intros _. apply heads_eq_ends.
Qed.
Lemma rc_sim_lo_name : simc eq lo_name lo_name.
Proof.
  apply (sim_plain _ (fun w n => w = n /\ lower_name n) (fun n r => n = L "_" \/ ends is_name_char r)).
  - intros s r n. rewrite lo_name_iff. split.
    + intros (-> & H1 & H2). exists n. auto.
    + intros (w & -> & (-> & H1) & H2). auto.
  - intros w n [-> [->|[(c & t & -> & Hc & Ht) _]]]; [reflexivity|]. apply (no_marks is_name_char); [reflexivity|]. cbn. rewrite Ht.
    unfold is_name_char. rewrite Hc. reflexivity.
  - intros n r r' H [->|H1]; [left; reflexivity|right; eapply heads_ends; eassumption].
Qed.
Lemma rc_sim_up_name : simc eq up_name up_name.
Proof.
  apply (sim_plain _ (fun w n => w = n /\ upper_name n) (fun n r => ends is_name_char r)).
  - intros s r n. rewrite up_name_iff. split.
    + intros (-> & H1 & H2). exists n. auto.
    + intros (w & -> & (-> & H1) & H2). auto.
  - intros w n [-> (c & t & -> & Hc & Ht)]. apply (no_marks is_name_char); [reflexivity|]. cbn. rewrite Ht.
    unfold is_name_char. rewrite Hc. destruct (is_lower c); reflexivity.
  - intros _. apply heads_eq_ends.
Qed.
Lemma rc_sim_type_variable : simc eq type_variable type_variable.
Proof.
  apply (sim_plain _ (fun w t => t = TypeVariable w /\ type_var_name w) (fun _ r => ends is_tyvar_char r)).
  - intros s r t. rewrite type_variable_iff. split.
    + intros (n & -> & -> & H1 & H2). exists n. auto.
    + intros (w & -> & (-> & H1) & H2). eauto 6.
  - intros w t [_ (c & x & -> & Hc & Ht)]. apply (no_marks is_tyvar_char); [reflexivity|]. cbn. rewrite Ht.
    unfold is_tyvar_char. rewrite Hc. reflexivity.
  - intros _. apply heads_eq_ends.
Qed.
Lemma rc_signed sg d r s' : sign_text sg -> digits1 d -> both (sg ++ d ++ r) s' -> exists r', s' = sg ++ d ++ r' /\ both r r'.
Proof.
  intros Hs [Hne Hd] H. assert (Hd' : forallb (fun c => negb (mark c)) d = true) by (apply (no_marks is_dec); [reflexivity|exact Hd]).
  destruct Hs as [->|[->| ->]].
  - apply (rc_word d) in H; assumption.
  - apply (rc_one (C "+")) in H as (s2 & -> & H & _); [|reflexivity]. apply (rc_word d) in H as (r' & -> & Hr); [|assumption]. exists r'. auto.
  - cbn [app] in H. apply rc_minus in H as (s2 & -> & H & _).
    + apply (rc_word d) in H as (r' & -> & Hr); [|assumption]. exists r'. auto.
    + intros (w & E). destruct d as [|x d]; [congruence|]. injection E as -> _. discriminate Hd.
Qed.
Lemma rc_sim_integer : simc eq integer integer.
Proof.
  apply fw_sim. intros s s' r e Hs H. apply integer_iff in H as (n & -> & -> & (sg & d & -> & H1 & H2) & Hr).
  rewrite <- app_assoc in Hs. destruct (rc_signed _ _ _ _ H1 H2 Hs) as (r' & -> & Hr').
  exists r', (Integer (sg ++ d)), (sg ++ d), (sg ++ d). split; [|rewrite app_assoc; tauto].
  apply integer_iff. exists (sg ++ d). split; [reflexivity|]. split; [apply app_assoc|]. split; [exists sg, d; auto|]. eapply heads_ends; [apply rc_head, Hr'|exact Hr].
Qed.
Lemma rc_sim_float : simc eq float float.
Proof.
  apply fw_sim. intros s s' r e Hs H. apply float_iff in H as (n & -> & -> & (sg & d & d2 & -> & H1 & H2 & H3) & Hr).
  rewrite <- !app_assoc in Hs. destruct (rc_signed _ _ _ _ H1 H2 Hs) as (r1 & -> & Hr1).
  apply (rc_word (L "." ++ d2)) in Hr1 as (r' & -> & Hr'); [|cbn; apply (no_marks is_dec); [reflexivity|apply H3]].
  exists r', (Float (sg ++ d ++ L "." ++ d2)), (sg ++ d ++ L "." ++ d2), (sg ++ d ++ L "." ++ d2).
  split; [|rewrite <- !app_assoc; cbn [app]; tauto].
  apply float_iff. exists (sg ++ d ++ L "." ++ d2). split; [reflexivity|]. split; [rewrite <- !app_assoc; reflexivity|]. split; [exists sg, d, d2; auto|]. eapply heads_ends; [apply rc_head, Hr'|exact Hr].
Qed.

(** *** strings and characters *)
Lemma rc_sim_string : simc eq string_ string_.
Proof.
  apply fw_sim. intros s s' r e Hs H.
  assert (Hq : exists s1, s = quote :: s1) by (apply string_iff in H as (c & _ & [[-> _]|(_ & -> & _)]); eexists; reflexivity).
  cases Hs; destruct Hq as (s2 & Hq); try discriminate Hq.
  - destruct n1; [lia|]. discriminate Hq.
  - destruct (token_string _ _ Ht1) as (c & E1 & E2). rewrite E1 in H. injection H as <- <-. exists s1', (String_ c), t1, t1. rewrite (E2 _ Ht1'). tauto.
  - destruct Ht1; discriminate Hq.
  - injection Hq as -> _. destruct Ho1; congruence.
Qed.
Lemma rc_sim_character : simc eq character character.
Proof.
  apply fw_sim. intros s s' r e Hs H.
  assert (Hq : exists s1, s = squote :: s1) by (apply character_iff in H as (w & c & _ & -> & _); eexists; reflexivity).
  cases Hs; destruct Hq as (s2 & Hq); try discriminate Hq.
  - destruct n1; [lia|]. discriminate Hq.
  - destruct Ht1; discriminate Hq.
  - destruct Ht1 as [t c Hc]. assert (E : forall w, character ((squote :: t ++ [squote]) ++ w) = Ok w (Character c)).
    { intros w. apply character_iff. exists t, c. split; [reflexivity|]. split; [|exact Hc]. cbn [app]. rewrite <- app_assoc. reflexivity. }
    rewrite E in H. injection H as <- <-. exists s1', (Character c), (squote :: t ++ [squote]), (squote :: t ++ [squote]). rewrite E. tauto.
  - injection Hq as -> _. destruct Ho1 as (_ & Ho & _); congruence.
Qed.

(** *** comments and layout *)
Lemma rc_line_inv s s' : both (L "--" ++ s) s' ->
  exists c c' r r', s = c ++ r /\ s' = L "--" ++ c' ++ r' /\ forallb not_newline c = true /\ forallb not_newline c' = true /\
    line_end r /\ line_end r' /\ both r r'.
Proof.
  intros H. remember (L "--" ++ s) as x eqn:E. cases H; try discriminate E.
  - destruct n1; [lia|]. discriminate E.
  - apply app_inv_head in E. subst s. exists d, d', s1, s1'. auto 10.
  - destruct Ht1; discriminate E.
  - destruct Ht1; discriminate E.
  - injection E as -> ->. exfalso. destruct Ho1 as (_ & _ & H1 & _). apply H1. exists s. reflexivity.
Qed.
Lemma rc_sim_comment : simc any single_line_comment single_line_comment.
Proof.
  apply fw_sim. intros s s' r c Hs H. apply single_line_comment_iff in H as (-> & Hc & Hr).
  apply rc_line_inv in Hs as (d & d' & r1 & r' & E & -> & Hd & Hd' & H1 & H2 & H3).
  destruct (line_unique _ _ _ _ E Hc Hd Hr H1) as [-> ->]. exists r', d', (L "--" ++ d), (L "--" ++ d').
  split; [apply single_line_comment_iff; auto|]. split; [exact I|]. split; [exact H3|]. rewrite <- !app_assoc. split; [reflexivity|]. split; [reflexivity|].
  split; discriminate.
Qed.
(** *** runs of blanks *)
Lemma f_spaces f n : f space = true -> forallb f (spaces_of n) = true.
Proof. intros H. induction n; [reflexivity|]. cbn. rewrite H. exact IHn. Qed.
Lemma f_blank f w : f space = true -> f newline = true -> forallb is_sp_nl w = true -> forallb f w = true.
Proof.
  intros H1 H2. apply Rename.forallb_imp. intros c Hc. unfold is_sp_nl in Hc. apply orb_true_iff in Hc as [Hc|Hc]; apply N.eqb_eq in Hc; subst c; assumption.
Qed.
Definition blank_class (f : char -> bool) : bool :=
  f space && negb (f (C "-")) && negb (f (C "{")) && negb (f quote) && negb (f squote) && negb (f (C ",")).
Lemma rl_span f s s' : blank_class f = true -> both s s' ->
  exists w r w' r', s = w ++ r /\ s' = w' ++ r' /\ forallb f w = true /\ forallb f w' = true /\ ends f r /\ ends f r' /\ both r r' /\ (w = [] <-> w' = []).
Proof.
  unfold blank_class. rewrite !andb_true_iff, !negb_true_iff. intros (((((Fs & F1) & F2) & F3) & F4) & F5) H.
  assert (Z : forall s s', both s s' -> ends f s -> exists w r w' r', s = w ++ r /\ s' = w' ++ r' /\ forallb f w = true /\ forallb f w' = true /\ ends f r /\ ends f r' /\ both r r' /\ (w = [] <-> w' = [])).
  { intros u u' Hu He. exists [], u, [], u'. repeat (split; [first [assumption|reflexivity]|]). split; [eapply heads_ends; [apply rc_head, Hu|exact He]|]. tauto. }
  induction H as [|n m s s' Hn Hm Hs Hs' H IH|k s s' Hs Hs' H IH|v v' k s s' Hv Hv' Hs Hs' H IH|c c' s s' Hc Hc' Hs Hs' H IH|c c' s s' Hc Hc' H IH|t s s' Ht Ht' H IH|t s s' Ht H IH|n m s s' Hn Hm Hs Hs' H IH|c s s' Hc Hc' Hp Hq H IH].
  - apply Z; [apply b_nil|exact I].
  - destruct IH as (w & r & w' & r' & -> & -> & H1 & H2 & H3 & H4 & H5 & _).
    exists (spaces_of n ++ w), r, (spaces_of m ++ w'), r'. rewrite !forallb_app, !f_spaces, H1, H2 by exact Fs. rewrite !app_assoc. repeat (split; [first [assumption|reflexivity]|]).
    destruct n, m; [lia..|]. split; discriminate.
  - destruct (f newline) eqn:Fn; [|apply Z; [apply b_newline; assumption|exact Fn]].
    destruct IH as (w & r & w' & r' & -> & -> & H1 & H2 & H3 & H4 & H5 & _).
    exists (newline :: spaces_of k ++ w), r, (newline :: spaces_of k ++ w'), r'. cbn [forallb app]. rewrite !forallb_app, !f_spaces, H1, H2, Fn by exact Fs. rewrite <- !app_assoc. repeat (split; [first [assumption|reflexivity]|]).
    split; discriminate.
  - destruct (f newline) eqn:Fn; [|apply Z; [apply b_newlines; assumption|exact Fn]].
    destruct IH as (w & r & w' & r' & -> & -> & H1 & H2 & H3 & H4 & H5 & _).
    exists (newline :: v ++ newline :: spaces_of k ++ w), r, (newline :: v' ++ newline :: spaces_of k ++ w'), r'. cbn [forallb app].
    rewrite !forallb_app, (f_blank f v), (f_blank f v') by assumption. cbn [forallb app]. rewrite !forallb_app, !f_spaces, H1, H2, Fn by exact Fs. rewrite <- !app_assoc. cbn [app]. rewrite <- !app_assoc. repeat (split; [first [assumption|reflexivity]|]).
    split; discriminate.
  - apply Z; [apply b_line; assumption|exact F1].
  - apply Z; [apply b_block; assumption|exact F2].
  - apply Z; [apply b_string; assumption|]. destruct Ht; exact F3.
  - apply Z; [apply b_literal; assumption|]. destruct Ht; exact F4.
  - apply Z; [apply b_comma; assumption|exact F5].
  - destruct (f c) eqn:Fc; [|apply Z; [apply b_char; assumption|exact Fc]].
    destruct IH as (w & r & w' & r' & -> & -> & H1 & H2 & H3 & H4 & H5 & _).
    exists (c :: w), r, (c :: w'), r'. cbn [forallb]. rewrite H1, H2, Fc. repeat (split; [first [assumption|reflexivity]|]). split; discriminate.
Qed.
Lemma rl_skip f w r s' : blank_class f = true -> forallb f w = true -> ends f r -> both (w ++ r) s' ->
  exists w' r', s' = w' ++ r' /\ forallb f w' = true /\ ends f r' /\ both r r' /\ (w = [] <-> w' = []).
Proof.
  intros Hf Hw Hr H. destruct (rl_span _ _ _ Hf H) as (w1 & r1 & w' & r' & E & -> & H1 & H2 & H3 & H4 & H5 & H6).
  assert (E1 := span_all f w r Hw Hr). rewrite E, (span_all f w1 r1 H1 H3) in E1. injection E1 as -> ->. exists w', r'. auto 10.
Qed.
Lemma rl_take1 f : blank_class f = true -> simc any (take_while1 f) (take_while1 f).
Proof.
  intros Hf. apply fw_sim. intros s s' r a Hs H. apply take1_word in H as (w & -> & (-> & H1 & H2) & H3).
  destruct (rl_skip f _ _ _ Hf H2 H3 Hs) as (w' & r' & -> & H4 & H5 & H6 & H7). exists r', w', a, w'.
  split; [apply take1_word; exists w'; intuition congruence|]. split; [exact I|]. tauto.
Qed.
Lemma rl_take0 f : blank_class f = true -> simc any (take_while0 f) (take_while0 f).
Proof.
  intros Hf. apply fw_sim. intros s s' r a Hs H. apply take0_word in H as (w & -> & (-> & H2) & H3).
  destruct (rl_skip f _ _ _ Hf H2 H3 Hs) as (w' & r' & -> & H4 & H5 & H6 & H7). exists r', w', a, w'.
  split; [apply take0_word; exists w'; auto|]. split; [exact I|]. tauto.
Qed.
Lemma rl_opt {A} (p : parser A) : simc any p p -> simc any (opt p) (opt p).
Proof. intros H. eapply sim_weak; [|apply sim_opt, H]. intros a b _. exact I. Qed.

(** *** layout *)
(** two pieces of layout that put what follows them at the same place *)
Definition alike (t t' : str) : Prop :=
  has_newline t = has_newline t' /\ all_spaces (last_line t) = all_spaces (last_line t') /\
  (has_newline t = true -> all_spaces (last_line t) = true -> length (last_line t) = length (last_line t')) /\ (t = [] <-> t' = []).
Lemma alike_width i t t' : alike t t' -> width i t = width i t'.
Proof.
  intros (H1 & H2 & H3 & _). unfold width. rewrite <- H2, <- H1. destruct (all_spaces (last_line t)); [|reflexivity].
  destruct (has_newline t); [|reflexivity]. rewrite H3; reflexivity.
Qed.
Lemma all_spaces_of n : all_spaces (spaces_of n) = true.
Proof. apply (f_spaces (fun c => (c =? space)%N)). reflexivity. Qed.
Lemma all_spaces_last t : all_spaces t = true -> last_line t = t.
Proof. intros H. apply last_line_no_newline, all_spaces_no_newline, H. Qed.
Definition starts_new (t : str) : Prop := t = [] \/ has_newline t = true \/ all_spaces t = false.
Lemma starts_new_ends s t r : trivia_run s t r -> nosp s -> starts_new t.
Proof.
  intros (-> & _) Hs. destruct t as [|c t]; [left; reflexivity|]. right. right. cbn in *. rewrite Hs. reflexivity.
Qed.
Lemma alike_app a a' t t' : a <> [] -> a' <> [] -> starts_new t -> alike a a' -> alike t t' -> alike (a ++ t) (a' ++ t').
Proof.
  intros Ha Ha' Hc (H1 & H2 & H3 & _) (A1 & A2 & A3 & A4). unfold alike.
  assert (E : (a ++ t = [] <-> a' ++ t' = [])) by (split; intros E; apply app_eq_nil in E as [E _]; contradiction).
  destruct Hc as [Hc|Hc].
  - assert (t' = []) by tauto. subst. rewrite !app_nil_r in *. auto.
  - rewrite !has_newline_app, <- A1, H1. destruct (has_newline t) eqn:Hn.
    + rewrite !last_line_app_newline, !orb_true_r by congruence. split; [reflexivity|]. split; [exact A2|]. split; [|exact E]. intros _. apply A3. reflexivity.
    + destruct Hc as [Hc|Hc]; [discriminate Hc|]. rewrite !last_line_app_plain, !all_spaces_app by congruence.
      rewrite !last_line_no_newline in A2 by congruence. rewrite <- A2, Hc, !andb_false_r. split; [reflexivity|]. split; [reflexivity|]. split; [discriminate|exact E].
Qed.
Lemma alike_refl t : alike t t.
Proof. unfold alike. tauto. Qed.
Lemma alike_nil_run s s' : both s s' -> no_trivia s -> no_trivia s' -> exists t r t' r', trivia_run s t r /\ trivia_run s' t' r' /\ alike t t' /\ both r r'.
Proof.
  intros H H1 H2. exists [], s, [], s'. split; [repeat split; [constructor|exact H1|left; reflexivity]|].
  split; [repeat split; [constructor|exact H2|left; reflexivity]|]. split; [apply alike_refl|exact H].
Qed.
Lemma trivia_app a t : trivia a -> (all_spaces (last_line a) = true \/ line_end t) -> trivia t -> trivia (a ++ t).
Proof.
  intros Ha. induction Ha as [|a Ha IH|a Ha IH|c a Hc Hl Ha IH]; intros Ho Ht.
  - exact Ht.
  - cbn. apply trivia_space, IH; [|exact Ht]. destruct Ho as [Ho|Ho]; [left|right; exact Ho]. 
    destruct (last_line_cons_spaces space a [C "a"]) as [H|H]; [left; exact Ho|exact H|discriminate H].
  - cbn. apply trivia_newline, IH; [|exact Ht]. destruct Ho as [Ho|Ho]; [left|right; exact Ho]. 
    destruct (last_line_cons_spaces newline a [C "a"]) as [H|H]; [left; exact Ho|exact H|discriminate H].
  - rewrite <- !app_assoc. destruct a as [|x a].
    + rewrite app_nil_l. apply trivia_comment; [exact Hc| |exact Ht]. destruct Ho as [Ho|Ho]; [|exact Ho].
      rewrite app_nil_r in Ho. rewrite last_line_no_newline in Ho; [discriminate Ho|]. cbn. apply not_newline_no_newline, Hc.
    + cbn in Hl. subst x. apply trivia_comment; [exact Hc|reflexivity|]. apply IH; [|exact Ht]. destruct Ho as [Ho|Ho]; [left|right; exact Ho].
      assert (Hx : has_newline (newline :: a) = true) by reflexivity.
      rewrite app_assoc, last_line_app_newline in Ho by exact Hx. exact Ho.
Qed.
Lemma run_app a s t r : trivia a -> all_spaces (last_line a) = true \/ line_end s ->
  (all_spaces (last_line a) = true \/ t = [] /\ r = [] \/ has_newline t = true) -> trivia_run s t r -> trivia_run (a ++ s) (a ++ t) r.
Proof.
  intros Ha Ho Hl (-> & Ht & Hr & He). split; [apply app_assoc|]. split; [|split; [exact Hr|]].
  - apply trivia_app; [exact Ha| |exact Ht]. destruct Ho as [Ho|Ho]; [left; exact Ho|]. destruct t; [right; exact I|]. right. exact Ho.
  - destruct Hl as [Hl|[[-> ->]|Hl]]; [|right; reflexivity|rewrite last_line_app_newline by exact Hl; exact He].
    destruct He as [He|He]; [|right; exact He]. left. destruct (has_newline t) eqn:Hn.
    + rewrite last_line_app_newline by exact Hn. exact He.
    + rewrite last_line_app_plain, all_spaces_app, Hl by exact Hn. rewrite last_line_no_newline in He by exact Hn. exact He.
Qed.
Lemma trivia_blanks w : forallb is_sp_nl w = true -> trivia w.
Proof.
  induction w as [|c w IH]; intros H; [constructor|]. cbn in H. apply andb_true_iff in H as [H1 H2]. unfold is_sp_nl in H1.
  apply orb_true_iff in H1 as [H1|H1]; apply N.eqb_eq in H1; subst c; constructor; auto.
Qed.
Lemma nosp_of s : ends is_sp_nl s -> nosp s.
Proof. destruct s; [exact (fun H => H)|]. cbn. unfold is_sp_nl. intros H. apply orb_false_iff in H. apply H. Qed.
Lemma run_of_line_end s t r : trivia_run s t r -> line_end s -> t = [] /\ r = [] \/ has_newline t = true.
Proof.
  intros (-> & _ & Hr & _) Hs. destruct t as [|c t].
  - left. split; [reflexivity|]. destruct r; [reflexivity|]. cbn in Hs. destruct Hr as (_ & Hr & _). contradiction.
  - right. cbn in Hs. subst c. reflexivity.
Qed.
Lemma rl_runs s s' : both s s' -> exists t r t' r', trivia_run s t r /\ trivia_run s' t' r' /\ alike t t' /\ both r r'.
Proof.
  intros H. induction H as [|n m s s' Hn Hm Hs Hs' H IH|k s s' Hs Hs' H IH|v v' k s s' Hv Hv' Hs Hs' H IH|c c' s s' Hc Hc' Hs Hs' H IH|c c' s s' Hc Hc' H IH|t s s' Ht Ht' H IH|t s s' Ht H IH|n m s s' Hn Hm Hs Hs' H IH|c s s' Hc Hc' Hp Hq H IH].
  - apply alike_nil_run; [apply b_nil|exact I|exact I].
  - destruct IH as (t & r & t' & r' & H1 & H2 & H3 & H4). exists (spaces_of n ++ t), r, (spaces_of m ++ t'), r'.
    assert (L1 : forall k, all_spaces (last_line (spaces_of k)) = true) by (intros k; rewrite all_spaces_last; apply all_spaces_of).
    split; [apply run_app; auto; apply trivia_spaces, all_spaces_of|]. split; [apply run_app; auto; apply trivia_spaces, all_spaces_of|].
    split; [|exact H4]. apply alike_app; [destruct n; [lia|discriminate]|destruct m; [lia|discriminate]|eapply starts_new_ends; eassumption| |exact H3].
    unfold alike. rewrite !all_spaces_no_newline, !L1 by apply all_spaces_of. split; [reflexivity|]. split; [reflexivity|]. split; [discriminate|]. destruct n, m; [lia..|]. split; discriminate.
  - destruct IH as (t & r & t' & r' & H1 & H2 & H3 & H4). exists ((newline :: spaces_of k) ++ t), r, ((newline :: spaces_of k) ++ t'), r'.
    assert (L1 : all_spaces (last_line (newline :: spaces_of k)) = true) by (rewrite last_line_newline_spaces by apply all_spaces_of; apply all_spaces_of).
    assert (Tr : trivia (newline :: spaces_of k)) by apply trivia_newline, trivia_spaces, all_spaces_of.
    apply nosp_of in Hs. apply nosp_of in Hs'.
    split; [apply (run_app (newline :: spaces_of k)); auto|]. split; [apply (run_app (newline :: spaces_of k)); auto|].
    split; [|exact H4]. apply alike_app; [discriminate|discriminate|eapply starts_new_ends; eassumption|apply alike_refl|exact H3].
  - destruct IH as (t & r & t' & r' & H1 & H2 & H3 & H4).
    assert (Ll : forall u, last_line (newline :: u ++ newline :: spaces_of k) = spaces_of k).
    { intros u. change (newline :: u ++ newline :: spaces_of k) with ((newline :: u) ++ newline :: spaces_of k).
      rewrite last_line_app_newline by reflexivity. apply last_line_newline_spaces, all_spaces_of. }
    assert (L1 : forall u, all_spaces (last_line (newline :: u ++ newline :: spaces_of k)) = true) by (intros u; rewrite Ll; apply all_spaces_of).
    assert (Tr : forall u, forallb is_sp_nl u = true -> trivia (newline :: u ++ newline :: spaces_of k)).
    { intros u Hu. apply trivia_blanks. cbn. rewrite forallb_app, Hu. cbn. apply f_spaces. reflexivity. }
    assert (As : forall u x, newline :: u ++ newline :: spaces_of k ++ x = (newline :: u ++ newline :: spaces_of k) ++ x) by (intros u x; cbn [app]; rewrite <- app_assoc; reflexivity).
    exists ((newline :: v ++ newline :: spaces_of k) ++ t), r, ((newline :: v' ++ newline :: spaces_of k) ++ t'), r'.
    apply nosp_of in Hs. apply nosp_of in Hs'. rewrite !As.
    split; [apply run_app; auto|]. split; [apply run_app; auto|].
    split; [|exact H4]. apply alike_app; [discriminate|discriminate|eapply starts_new_ends; eassumption| |exact H3].
    unfold alike. rewrite !Ll. split; [reflexivity|]. split; [reflexivity|]. split; [reflexivity|split; discriminate].
  - destruct IH as (t & r & t' & r' & H1 & H2 & H3 & H4). exists ((L "--" ++ c) ++ t), r, ((L "--" ++ c') ++ t'), r'.
    assert (Nl : forall x, forallb not_newline x = true -> has_newline (L "--" ++ x) = false) by (intros x Hx; cbn; apply not_newline_no_newline, Hx).
    assert (Tr : forall x, forallb not_newline x = true -> trivia (L "--" ++ x)) by (intros x Hx; rewrite <- (app_nil_r x); apply trivia_comment; [exact Hx|exact I|constructor]).
    assert (K : forall x, line_end x -> nosp x) by (intros [|y x]; [auto|]; cbn; intros ->; reflexivity).
    rewrite !app_assoc. pose proof (run_of_line_end _ _ _ H1 Hs). pose proof (run_of_line_end _ _ _ H2 Hs').
    split; [apply run_app; auto|]. split; [apply run_app; auto|]. split; [|exact H4].
    apply alike_app; [discriminate|discriminate|eapply starts_new_ends; [eassumption|auto]| |exact H3].
    unfold alike. rewrite !last_line_no_newline, !Nl by auto. split; [reflexivity|]. split; [reflexivity|]. split; [discriminate|split; discriminate].
  - apply alike_nil_run; [apply b_block; assumption|..]; (split; [discriminate|]; split; [discriminate|]; intros [E _]; discriminate E).
  - apply alike_nil_run; [apply b_string; assumption|..]; (destruct Ht; (split; [discriminate|]; split; [discriminate|]; intros [E _]; discriminate E)).
  - apply alike_nil_run; [apply b_literal; assumption|..]; (destruct Ht; (split; [discriminate|]; split; [discriminate|]; intros [E _]; discriminate E)).
  - apply alike_nil_run; [apply b_comma; assumption|..]; (split; [discriminate|]; split; [discriminate|]; intros [E _]; discriminate E).
  - pose proof Hp as Hp'. apply orb_false_iff in Hp' as [P1 P2]. apply N.eqb_neq in P1, P2.
    apply alike_nil_run; [apply b_char; assumption|..];
      (split; [exact P1|]; split; [exact P2|]; intros [-> (z & ->)]).
    + destruct Hc as (_ & _ & Hc & _). apply Hc. exists z. reflexivity.
    + destruct Hc' as (_ & _ & Hc' & _). apply Hc'. exists z. reflexivity.
Qed.
Lemma rc_sim_sp i ir : simc eq (spaces_or_new_lines_and_indent i ir) (spaces_or_new_lines_and_indent i ir).
Proof.
  apply fw_sim. intros s s' r n Hs H. apply sp_iff in H as (t & Hr & Ht & Ha & ->).
  destruct (rl_runs _ _ Hs) as (t1 & r1 & t' & r' & H1 & H2 & H3 & H4). destruct (trivia_run_unique _ _ _ _ _ H1 Hr) as [-> ->].
  exists r', (width i t), t, t'. assert (E := alike_width i _ _ H3). destruct H3 as (N1 & _ & _ & N2). split.
  - apply sp_iff. exists t'. split; [exact H2|]. split; [intros E'; apply Ht, N2, E'|]. split; [|exact E]. unfold accepts in *. rewrite <- E, <- N1. exact Ha.
  - split; [reflexivity|]. split; [exact H4|]. destruct H1 as (-> & _), H2 as (-> & _). tauto.
Qed.
Lemma rc_sim_opt_sp i ir : simc eq (opt_spaces_or_new_lines_and_indent i ir) (opt_spaces_or_new_lines_and_indent i ir).
Proof.
  unfold opt_spaces_or_new_lines_and_indent. eapply sim_map; [apply sim_opt, rc_sim_sp|]. intros a a' H. apply opt_rel_eq in H. subst. reflexivity.
Qed.

(** *** a line feed before a definition *)
Lemma spaces_of_run k s : nosp s -> spaces0 (spaces_of k ++ s) = Ok s (spaces_of k).
Proof. intros Hs. rewrite spaces0_eq, (span_all is_sp (spaces_of k) s); [reflexivity|apply all_spaces_of|exact Hs]. Qed.
Definition stuck (i : N) (s : str) : Prop :=
  new_line_and_same_indent i s = Err \/ exists z a, new_line_and_same_indent i s = Ok (newline :: z) a.
Lemma nl_newline i k s : nosp s -> new_line_and_same_indent i (newline :: spaces_of k ++ s) = (if (len_u32 (spaces_of k) =? i)%N then Ok s (len_u32 (spaces_of k)) else Err).
Proof.
  intros Hs. unfold new_line_and_same_indent, map_res, preceded, bind, map_. unfold char_. change (newline =? 10)%N with true. cbv iota beta. rewrite spaces_of_run by exact Hs.
  destruct (_ =? i)%N; reflexivity.
Qed.
Lemma nl_other i s : ends (fun c => (c =? newline)%N) s -> new_line_and_same_indent i s = Err.
Proof.
  intros Hs. unfold new_line_and_same_indent, map_res, preceded, bind, char_. destruct s as [|c s]; [reflexivity|]. cbn in Hs.
  change 10%N with newline. rewrite Hs. reflexivity.
Qed.
Lemma blank_head w k s : forallb is_sp_nl w = true -> exists j z, w ++ newline :: spaces_of k ++ s = spaces_of j ++ newline :: z.
Proof.
  induction w as [|c w IH]; intros H; [exists 0; eexists; reflexivity|]. cbn in H. apply andb_true_iff in H as [H1 H2].
  unfold is_sp_nl in H1. apply orb_true_iff in H1 as [H1|H1]; apply N.eqb_eq in H1; subst c.
  - destruct (IH H2) as (j & z & E). exists (S j), z. cbn. rewrite E. reflexivity.
  - exists 0. eexists. reflexivity.
Qed.
Lemma nl_stuck i w k s : forallb is_sp_nl w = true -> stuck i (newline :: w ++ newline :: spaces_of k ++ s).
Proof.
  intros H. destruct (blank_head _ k s H) as (j & z & ->). unfold stuck. rewrite nl_newline by reflexivity.
  destruct (_ =? i)%N; [right; eauto|left; reflexivity].
Qed.
Lemma rl_nl i s s' : both s s' -> rel both eq s s' (new_line_and_same_indent i s) (new_line_and_same_indent i s') \/ stuck i s /\ stuck i s'.
Proof.
  intros H. assert (K : ends (fun c => (c =? newline)%N) s -> rel both eq s s' (new_line_and_same_indent i s) (new_line_and_same_indent i s') \/ stuck i s /\ stuck i s').
  { intros Hs. left. rewrite !nl_other; [exact I| |exact Hs]. eapply heads_ends; [apply rc_head, H|exact Hs]. }
  cases H.
  - apply K. exact I.
  - apply K. destruct n1; [lia|reflexivity].
  - left. apply nosp_of in Hs1. apply nosp_of in Hs1'. rewrite !nl_newline by assumption. destruct (_ =? i)%N; [|exact I].
    split; [reflexivity|]. split; [exact Hb|]. exists (newline :: spaces_of k1), (newline :: spaces_of k1). tauto.
  - right. split; apply nl_stuck; assumption.
  - apply K. reflexivity.
  - apply K. reflexivity.
  - apply K. destruct Ht1; reflexivity.
  - apply K. destruct Ht1; reflexivity.
  - apply K. reflexivity.
  - apply K. cbn. apply orb_false_iff in Hp1. apply Hp1.
Qed.
Lemma stuck_Err E i s r g : function_signature i s = Ok r g -> stuck i r -> function_f E i s = Err.
Proof.
  intros Hg H. unfold function_f. destruct H as [H|(z & a & H)].
  - eapply bind_Err2; [apply opt_None; unfold terminated, bind; rewrite Hg, H; reflexivity|].
    apply bind_Err1, (Reindent.signature_no_definition E _ _ _ _ Hg).
  - eapply bind_Err2; [unfold opt, terminated, bind; rewrite Hg, H; reflexivity|].
    apply bind_Err1, Reindent.definition_f_trivia; [reflexivity|]. intros (_ & Hx & _). apply Hx. reflexivity.
Qed.
Lemma sig_abort E i s w : function_signature i s = Abort w -> function_f E i s = Abort w.
Proof. intros H. unfold function_f, bind, opt, terminated, bind. rewrite H. reflexivity. Qed.
(** *** a comma and a space *)
Lemma rl_comma_space : simc eq (tag (L ", ")) (tag (L ", ")).
Proof.
  apply fw_sim. intros s s' r a Hs H. apply tag_iff in H as [-> ->].
  enough (K : exists r', s' = L ", " ++ r' /\ both r r').
  { destruct K as (r' & -> & Hr). exists r', (L ", "), (L ", "), (L ", "). split; [apply tag_iff; auto|]. tauto. }
  remember (L ", " ++ r) as x eqn:E. cases Hs; try discriminate E.
  - destruct n1; [lia|]. discriminate E.
  - destruct Ht1; discriminate E.
  - destruct Ht1; discriminate E.
  - injection E as E. destruct n1 as [|n1].
    + cbn in E. subst s1. discriminate Hs1.
    + cbn in E. injection E as <-. destruct m1 as [|m1]; [destruct Hn1 as [_ Hn1]; discriminate (Hn1 eq_refl)|].
      exists (spaces_of m1 ++ s1'). split; [reflexivity|]. apply comma_spaces; auto. lia.
  - injection E as -> _. contradiction.
Qed.
(** *** where no comment begins *)
Definition sim_code {A B} (R : A -> B -> Prop) (p : parser A) (q : parser B) : Prop :=
  forall s s', both s s' -> ~ dashes s -> rel both R s s' (p s) (q s').
Lemma code_operator : sim_code eq operator operator.
Proof.
  assert (H : forall s s' r o, both s s' -> ~ dashes s -> operator s = Ok r o -> exists r', operator s' = Ok r' o /\ both r r' /\ s = o ++ r /\ s' = o ++ r').
  { intros s s' r o Hs Hd E. apply operator_iff in E as (-> & Ho & Hr). destruct (rc_ops _ _ _ (proj1 (proj2 Ho)) Hd Hs) as (r' & -> & Hr').
    exists r'. split; [|auto]. apply operator_iff. split; [reflexivity|]. split; [exact Ho|]. eapply heads_ends; [apply rc_head, Hr'|exact Hr]. }
  intros s s' Hs Hd. unfold rel. destruct (operator s) as [r o| |] eqn:E.
  - destruct (H _ _ _ _ Hs Hd E) as (r' & -> & Hr & -> & ->). split; [reflexivity|]. split; [exact Hr|]. exists o, o. tauto.
  - destruct (operator s') as [r' o| |] eqn:E'; auto. destruct (H _ _ _ _ (rc_sym _ _ Hs) (rc_dashes _ _ Hs Hd) E') as (r & E2 & _). congruence.
  - exact I.
Qed.
Lemma code_sim {A B} (R : A -> B -> Prop) p q : simc R p q -> sim_code R p q.
Proof. intros H s s' Hs _. apply H, Hs. Qed.
Lemma code_alt {A B} (R : A -> B -> Prop) p q p' q' : sim_code R p p' -> sim_code R q q' -> sim_code R (p <|> q) (p' <|> q').
Proof.
  intros Hp Hq s s' Hs Hd. pose proof (Hq s s' Hs Hd) as H2. specialize (Hp s s' Hs Hd). unfold alt, rel in *.
  destruct (p s), (p' s'); auto; try tauto. destruct (q s); auto.
Qed.
Lemma code_bind {A B A' B'} (R : A -> A' -> Prop) (RB : B -> B' -> Prop) p p' f f' :
  sim_code R p p' -> (forall a a', R a a' -> simc RB (f a) (f' a')) -> sim_code RB (bind p f) (bind p' f').
Proof. intros Hp Hf s s' Hs Hd. eapply rel_bind; [apply Hp; assumption|exact Hf]. Qed.
Lemma code_map {A B A' B'} (RA : A -> A' -> Prop) (RB : B -> B' -> Prop) f f' p p' :
  sim_code RA p p' -> (forall a a', RA a a' -> RB (f a) (f' a')) -> sim_code RB (map_ f p) (map_ f' p').
Proof.
  intros Hp Hf s s' Hs Hd. specialize (Hp s s' Hs Hd). unfold map_, rel in *. destruct (p s), (p' s'); auto.
  destruct Hp as [H1 H2]. auto.
Qed.
Lemma bind_code {A B A' B'} (R : A -> A' -> Prop) (RB : B -> B' -> Prop) p p' f f' :
  simc R p p' -> (forall s s' r a, both s s' -> p s = Ok r a -> ~ dashes r) ->
  (forall a a', R a a' -> sim_code RB (f a) (f' a')) -> simc RB (bind p f) (bind p' f').
Proof.
  intros Hp Hd Hf s s' Hs. pose proof (Hp s s' Hs) as H. unfold bind, rel in *. destruct (p s) as [r a| |] eqn:E; destruct (p' s') as [r' a'| |]; try tauto.
  - destruct H as (Ha & Hr & t & t' & -> & -> & Ht). specialize (Hf a a' Ha r r' Hr (Hd _ _ _ _ Hs E)). unfold rel in Hf.
    destruct (f a r) as [r1 b| |]; destruct (f' a' r') as [r1' b'| |]; try tauto.
    destruct Hf as (Hb & Hr1 & u & u' & -> & -> & Hu). split; [exact Hb|]. split; [exact Hr1|].
    exists (t ++ u), (t' ++ u'). rewrite !app_assoc. split; [reflexivity|]. split; [reflexivity|].
    split; intros E0; apply app_eq_nil in E0 as [E1 E2]; apply Ht in E1; apply Hu in E2; subst; reflexivity.
  - destruct (f a r); exact I.
Qed.
Lemma sp_code i ir s s' r n : both s s' -> spaces_or_new_lines_and_indent i ir s = Ok r n -> ~ dashes r.
Proof.
  intros _ H. apply sp_iff in H as (t & (_ & _ & Hn & _) & _). intros (w & ->). destruct Hn as (_ & _ & Hn). apply Hn. split; [reflexivity|]. exists w. reflexivity.
Qed.
Lemma paren_code s s' r a : both s s' -> char_ (C "(") s = Ok r a -> ~ dashes r.
Proof.
  intros Hs H. apply char_word in H as (w & -> & (-> & _) & _). apply (rc_one (C "(")) in Hs as (s2 & _ & _ & [Hs|[(_ & _ & _ & H & _) _]]); [discriminate Hs| |reflexivity].
  apply H. right. reflexivity.
Qed.

(** *** braces *)
Lemma bind_brace {B B'} (RB : B -> B' -> Prop) f f' :
  simc RB (f (C "{")) (f' (C "{")) ->
  (forall x s, x <> C "-" -> f (C "{") (C "-" :: x :: s) = Err /\ f' (C "{") (C "-" :: x :: s) = Err) ->
  simc RB (bind (char_ (C "{")) f) (bind (char_ (C "{")) f').
Proof.
  intros Hf Hd s s' Hs. assert (Hn : forall s, (forall r, s <> C "{" :: r) -> char_ (C "{") s = Err).
  { intros u Hu. destruct (char_ (C "{") u) as [r a| |] eqn:E; [|reflexivity|].
    - apply char_word in E as (w & -> & (-> & _) & _). destruct (Hu r eq_refl).
    - unfold char_ in E. destruct u; [discriminate E|]. destruct (_ =? _)%N; discriminate E. }
  destruct s as [|c s].
  - pose proof (rc_head _ _ Hs) as Hh. destruct s'; [|destruct Hh]. unfold bind. rewrite Hn by discriminate. exact I.
  - pose proof (rc_head _ _ Hs) as Hh. destruct s' as [|c0 s']; [destruct Hh|]. cbn in Hh. subst c0.
    destruct (N.eqb_spec c (C "{")) as [->|Hc]; [|unfold bind; rewrite !Hn by congruence; exact I].
    remember (C "{" :: s) as x eqn:E. remember (C "{" :: s') as x' eqn:E'. cases Hs; try discriminate E.
    + destruct n1; [lia|]. discriminate E.
    + destruct Hd1 as (_ & y & c & -> & Hy). destruct Hd1' as (_ & y' & c' & -> & Hy').
      injection E as <-. injection E' as <-. unfold bind. cbn [app char_]. rewrite N.eqb_refl.
      destruct (Hd y (c ++ L "-}" ++ s1) Hy) as [E1 _]. destruct (Hd y' (c' ++ L "-}" ++ s1') Hy') as [_ E2]. cbn [app] in *. rewrite E1, E2. exact I.
    + destruct Ht1; discriminate E.
    + destruct Ht1; discriminate E.
    + injection E as -> ->. injection E' as ->. specialize (Hf s s' Hb). unfold bind, char_. rewrite N.eqb_refl. unfold rel in *.
      destruct (f (C "{") s) as [r a| |]; destruct (f' (C "{") s') as [r' a'| |]; auto. destruct Hf as (Ha & Hr & t & t' & -> & -> & Ht).
      split; [exact Ha|]. split; [exact Hr|]. exists (C "{" :: t), (C "{" :: t'). split; [reflexivity|]. split; [reflexivity|]. split; discriminate.
Qed.

(** ** All parsers *)
Lemma q_bind {A B} (p p' : parser A) (f f' : A -> parser B) : simc eq p p' -> (forall a, simc eq (f a) (f' a)) -> simc eq (bind p f) (bind p' f').
Proof. intros Hp Hf. eapply sim_bind; [exact Hp|]. intros a a' <-. apply Hf. Qed.
Lemma q_map {A B} (f : A -> B) p p' : simc eq p p' -> simc eq (map_ f p) (map_ f p').
Proof. intros Hp. eapply sim_map; [exact Hp|]. intros a a' <-. reflexivity. Qed.
Lemma q_map_res {A B} (f : A -> option B) p p' : simc eq p p' -> simc eq (map_res f p) (map_res f p').
Proof. intros Hp. eapply sim_map_res; [exact Hp|]. intros a a' <-. destruct (f a); cbn; auto. Qed.
Lemma q_value {A B} (b : B) (p p' : parser A) : simc eq p p' -> simc eq (value b p) (value b p').
Proof. apply q_map. Qed.
Lemma q_opt {A} (p p' : parser A) : simc eq p p' -> simc eq (opt p) (opt p').
Proof. intros Hp. eapply sim_weak; [intros a b; apply opt_rel_eq|]. apply sim_opt, Hp. Qed.
Lemma q_many0 {A} (p p' : parser A) : simc eq p p' -> simc eq (many0 p) (many0 p').
Proof. intros Hp. eapply sim_weak; [intros a b; apply Forall2_is_eq|]. apply sim_many0, Hp. Qed.
Lemma q_many1 {A} (p p' : parser A) : simc eq p p' -> simc eq (many1 p) (many1 p').
Proof. intros Hp. eapply sim_weak; [intros a b; apply Forall2_is_eq|]. apply sim_many1, Hp. Qed.
Lemma q_sep {A B} (R : B -> B -> Prop) (sep sep' : parser B) (p p' : parser A) : simc R sep sep' -> simc eq p p' -> simc eq (separated_list sep p) (separated_list sep' p').
Proof. intros Hs Hp. eapply sim_weak; [intros a b; apply Forall2_is_eq|]. eapply sim_separated_list; eassumption. Qed.
Lemma q_sep1 {A B} (R : B -> B -> Prop) (sep sep' : parser B) (p p' : parser A) : simc R sep sep' -> simc eq p p' -> simc eq (separated_nonempty_list sep p) (separated_nonempty_list sep' p').
Proof. intros Hs Hp. eapply sim_weak; [intros a b; apply Forall2_is_eq|]. eapply sim_separated_nonempty; eassumption. Qed.
Lemma q_ret {A} (a : A) : simc eq (ret a) (ret a).
Proof. apply sim_ret. reflexivity. Qed.

Lemma q_skip {A B} (p : parser A) (f f' : parser B) : simc any p p -> simc eq f f' -> simc eq (bind p (fun _ => f)) (bind p (fun _ => f')).
Proof. intros Hp Hf. eapply sim_bind; [exact Hp|]. intros a a' _. exact Hf. Qed.
Ltac is_layout p :=
  lazymatch p with spaces => idtac | spaces_and_newlines => idtac | space1 => idtac | multispace => idtac | multispace0 => idtac | opt ?q => is_layout q end.
Ltac layout1 := first [apply rl_take1; reflexivity|apply rl_take0; reflexivity|apply rl_opt; layout1].
Ltac q1 :=
  match goal with
  | |- TwoRuns.sim _ _ ?p _ => is_layout p; layout1
  | |- TwoRuns.sim _ _ (bind ?p _) _ => is_layout p; apply q_skip
  | _ =>
  lazymatch goal with
  | |- TwoRuns.sim _ _ (bind _ _) _ => apply q_bind; [|intros ?]
  | |- TwoRuns.sim _ _ (preceded _ _) _ => eapply sim_preceded
  | |- TwoRuns.sim _ _ (terminated _ _) _ => eapply sim_terminated
  | |- TwoRuns.sim _ _ (delimited _ _ _) _ => eapply sim_delimited
  | |- TwoRuns.sim _ _ (separated_list _ _) _ => eapply q_sep
  | |- TwoRuns.sim _ _ (separated_nonempty_list _ _) _ => eapply q_sep1
  | |- TwoRuns.sim _ _ (many0 _) _ => apply q_many0
  | |- TwoRuns.sim _ _ (many1 _) _ => apply q_many1
  | |- TwoRuns.sim _ _ (map_ _ _) _ => apply q_map
  | |- TwoRuns.sim _ _ (map_res _ _) _ => apply q_map_res
  | |- TwoRuns.sim _ _ (value _ _) _ => apply q_value
  | |- TwoRuns.sim _ _ (ret _) _ => apply q_ret
  | |- TwoRuns.sim _ _ (opt_sp _) _ => unfold opt_sp
  | |- TwoRuns.sim _ _ (comma_sep _) _ => unfold comma_sep
  | |- TwoRuns.sim _ _ (opt _) _ => apply q_opt
  | |- TwoRuns.sim _ _ (alt _ _) _ => apply sim_alt
  | |- TwoRuns.sim _ _ (tag _) _ => first [apply rc_sim_tag; reflexivity|apply rc_sim_arrow|apply rl_comma_space]
  | |- TwoRuns.sim _ _ (char_ _) _ => apply rc_sim_char; reflexivity
  | |- TwoRuns.sim _ _ (spaces_or_new_lines_and_indent _ _) _ => apply rc_sim_sp
  | |- TwoRuns.sim _ _ (opt_spaces_or_new_lines_and_indent _ _) _ => apply rc_sim_opt_sp
  | |- TwoRuns.sim _ _ sp_gt0 _ => apply rc_sim_sp
  | |- TwoRuns.sim _ _ lo_name _ => apply rc_sim_lo_name
  | |- TwoRuns.sim _ _ up_name _ => apply rc_sim_up_name
  | |- TwoRuns.sim _ _ type_variable _ => apply rc_sim_type_variable
  | |- TwoRuns.sim _ _ digit _ => apply rc_sim_take1; reflexivity
  | |- TwoRuns.sim _ _ (is_a _) _ => apply rc_sim_take1; reflexivity
  end
  end.
Ltac qs := repeat q1.

(** *** at a block comment nothing that begins with a brace can be read *)
Definition inside (s : str) : Prop := exists x r, s = C "-" :: x :: r /\ x <> C "-".
Lemma q_brace {B} (f f' : parser B) : simc eq f f' -> (forall s, inside s -> f s = Err) -> (forall s, inside s -> f' s = Err) ->
  simc eq (bind (char_ (C "{")) (fun _ => f)) (bind (char_ (C "{")) (fun _ => f')).
Proof.
  intros Hf H H'. apply bind_brace; [exact Hf|]. intros x s Hx. split; [apply H|apply H']; exists x, s; auto.
Qed.
Lemma inside_sp i ir s : inside s -> spaces_or_new_lines_and_indent i ir s = Err.
Proof.
  intros (x & r & -> & Hx). apply sp_nil. repeat split; [discriminate|discriminate|]. intros [_ (r' & E)]. injection E as E _. contradiction.
Qed.
Lemma inside_lo_name s : inside s -> lo_name s = Err.
Proof. intros (x & r & -> & Hx). eapply heads_Err; [apply heads_lo_name|apply ok_0; apply ok_lo_name|reflexivity]. Qed.
Lemma inside_char c s : inside s -> c <> C "-" -> char_ c s = Err.
Proof. intros (x & r & -> & Hx) Hc. unfold char_. destruct (N.eqb_spec (C "-") c); [congruence|]. reflexivity. Qed.
Lemma inside_opt {A} (p : parser A) s : p s = Err -> opt p s = Ok s None.
Proof. unfold opt. intros ->. reflexivity. Qed.
Lemma inside_multi s : inside s -> multispace0 s = Ok s [].
Proof. intros (x & r & -> & Hx). reflexivity. Qed.
Lemma sep_empty {A B} (sep : parser B) (p : parser A) s : p s = Err -> separated_list sep p s = Ok s [].
Proof. unfold separated_list. intros ->. reflexivity. Qed.
Lemma bind_assoc {A B D} (p : parser A) (f : A -> parser B) (g : B -> parser D) s :
  bind (bind p f) g s = bind p (fun a => bind (f a) g) s.
Proof. unfold bind. destruct (p s); reflexivity. Qed.
Lemma map_bind {A B D} (h : B -> D) (p : parser A) (f : A -> parser B) s : map_ h (bind p f) s = bind p (fun a => map_ h (f a)) s.
Proof. unfold map_, bind. destruct (p s); reflexivity. Qed.

Lemma q_brace2 {A B} (p : parser A) (f f' : parser B) : simc eq (bind p (fun _ => f)) (bind p (fun _ => f')) ->
  (forall s, inside s -> bind p (fun _ => f) s = Err) -> (forall s, inside s -> bind p (fun _ => f') s = Err) ->
  simc eq (bind (bind (char_ (C "{")) (fun _ => p)) (fun _ => f)) (bind (bind (char_ (C "{")) (fun _ => p)) (fun _ => f')).
Proof.
  intros Hf H H' s s' Hs. rewrite !bind_assoc. apply q_brace; assumption.
Qed.

Section Types.
  Variables T T' : N -> parser type_ast.
  Hypothesis HT : forall i, simc eq (T i) (T' i).

  Lemma q_annotation i : simc eq (type_annotation_f T i) (type_annotation_f T' i).
  Proof. unfold type_annotation_f. qs. apply HT. Qed.
  Lemma q_tuple_type i : simc eq (type_tuple_f T i) (type_tuple_f T' i).
  Proof. unfold type_tuple_f. qs. apply HT. Qed.
  Lemma q_pair i : simc eq (type_record_pair_f T i) (type_record_pair_f T' i).
  Proof. unfold type_record_pair_f. qs. apply q_annotation. Qed.
  Lemma q_pairs i : simc eq (type_record_pairs_f T i) (type_record_pairs_f T' i).
  Proof. unfold type_record_pairs_f. qs. apply q_pair. Qed.
  Lemma q_extension i : simc eq (type_record_constructor_f T i) (type_record_constructor_f T' i).
  Proof.
    unfold type_record_constructor_f, delimited. apply q_brace.
    - qs. apply q_pairs.
    - intros s Hs. apply bind_Err1, bind_Err1, inside_sp, Hs.
    - intros s Hs. apply bind_Err1, bind_Err1, inside_sp, Hs.
  Qed.
  Lemma pairs_inside U i s : inside s -> type_record_pairs_f U i s = Ok s [].
  Proof. intros Hs. apply sep_empty, bind_Err1, inside_lo_name, Hs. Qed.
  Lemma q_record_type i : simc eq (type_record_f T i) (type_record_f T' i).
  Proof.
    unfold type_record_f, delimited, preceded.
    assert (K : forall U s, inside s -> bind (opt_sp i) (fun _ => b <- map_ TypeRecord (type_record_pairs_f U i) ;; terminated (opt_sp i) (char_ (C "}")) ;;; ret b) s = Err).
    { intros U s Hs. eapply bind_Err2; [apply inside_opt, inside_sp, Hs|]. eapply bind_Err2; [unfold map_; rewrite pairs_inside by exact Hs; reflexivity|].
      apply bind_Err1. eapply bind_Err2; [apply inside_opt, inside_sp, Hs|]. apply bind_Err1, inside_char; [exact Hs|discriminate]. }
    apply q_brace2; [|apply K|apply K]. qs. apply q_pairs.
  Qed.
  Lemma q_parens_type i : simc eq (type_parens_f T i) (type_parens_f T' i).
  Proof. unfold type_parens_f. qs. apply q_annotation. Qed.
  Lemma q_parameter i : simc eq (type_parameter_f T i) (type_parameter_f T' i).
  Proof.
    unfold type_parameter_f, type_constant. qs.
    - apply q_extension.
    - apply q_record_type.
    - apply q_tuple_type.
    - apply q_parens_type.
  Qed.
  Lemma q_constructor i : simc eq (type_constructor_f T i) (type_constructor_f T' i).
  Proof. unfold type_constructor_f. qs. apply q_parameter. Qed.
  Lemma q_type_f i : simc eq (type_f T i) (type_f T' i).
  Proof.
    unfold type_f. qs.
    - apply q_constructor.
    - apply q_extension.
    - apply q_record_type.
    - apply q_tuple_type.
    - apply q_parens_type.
  Qed.
End Types.
Lemma q_type_n n : forall n' i, simc eq (type_n n i) (type_n n' i).
Proof.
  induction n as [|n IH]; intros [|n'] i s s' Hs; try exact I; [apply rel_abort|].
  cbn [type_n]. apply q_type_f; auto.
Qed.
Lemma q_type i : simc eq (type_ i) (type_ i).
Proof. intros s s' Hs. apply q_type_n; assumption. Qed.
Lemma q_type_annotation i : simc eq (type_annotation i) (type_annotation i).
Proof. apply q_annotation, q_type. Qed.
Lemma q_type_constructor i : simc eq (type_constructor i) (type_constructor i).
Proof. apply q_constructor, q_type. Qed.

(** *** expressions *)
Lemma q_paren_operator : simc eq (delimited (char_ (C "(")) operator (char_ (C ")"))) (delimited (char_ (C "(")) operator (char_ (C ")"))).
Proof.
  unfold delimited. eapply bind_code; [apply rc_sim_char; reflexivity|apply paren_code|]. intros _ _ _.
  eapply code_bind; [apply code_operator|]. intros a a' <-. qs.
Qed.
Lemma q_variable : simc eq variable variable.
Proof.
  unfold variable, lower_case, upper_with_dots, op. apply sim_alt; [qs|]. apply sim_alt; [qs|]. apply q_map.
  unfold delimited. eapply bind_code; [apply rc_sim_char; reflexivity|apply paren_code|]. intros _ _ _.
  eapply code_bind; [apply code_alt; [apply code_operator|]|].
  - apply code_sim. qs.
  - intros a a' <-. qs.
Qed.
Lemma q_access : simc eq access access.
Proof. unfold access. qs. apply q_variable. Qed.
Lemma q_access_function : simc eq access_function access_function.
Proof. unfold access_function. qs. Qed.
Lemma q_binding_name : simc eq binding_name binding_name.
Proof. unfold binding_name. apply sim_alt; [qs|apply q_paren_operator]. Qed.
Lemma q_signature i : simc eq (function_signature i) (function_signature i).
Proof. unfold function_signature. qs; [apply q_binding_name|apply q_type_annotation]. Qed.

Section Expressions.
  Variables E E' : N -> parser expr.
  Hypothesis HE : forall i, simc eq (E i) (E' i).

  Lemma q_tuple i : simc eq (tuple_f E i) (tuple_f E' i).
  Proof. unfold tuple_f. qs. apply HE. Qed.
  Lemma q_list i : simc eq (list_f E i) (list_f E' i).
  Proof. unfold list_f. qs. apply HE. Qed.
  Lemma q_record_field i : simc eq (record_field_f E i) (record_field_f E' i).
  Proof. unfold record_field_f, separated_pair. qs. apply HE. Qed.
  Lemma q_record i : simc eq (record_f E i) (record_f E' i).
  Proof.
    unfold record_f. apply q_map. unfold delimited, preceded.
    assert (K : forall F s, inside s -> bind (opt_sp i) (fun _ => b <- separated_list (comma_sep i) (record_field_f F i) ;; terminated (opt_sp i) (char_ (C "}")) ;;; ret b) s = Err).
    { intros F s Hs. eapply bind_Err2; [apply inside_opt, inside_sp, Hs|]. eapply bind_Err2; [apply sep_empty, bind_Err1, inside_lo_name, Hs|].
      apply bind_Err1. eapply bind_Err2; [apply inside_opt, inside_sp, Hs|]. apply bind_Err1, inside_char; [exact Hs|discriminate]. }
    apply q_brace2; [|apply K|apply K]. qs. apply q_record_field.
  Qed.
  Lemma q_simplified_record : simc eq simplified_record simplified_record.
  Proof.
    unfold simplified_record. apply q_map. unfold delimited.
    assert (K : forall s, inside s -> bind (separated_list (char_ (C ",")) simplified_field) (fun b => char_ (C "}") ;;; ret b) s = Err).
    { intros s Hs. eapply bind_Err2; [apply sep_empty|apply bind_Err1, inside_char; [exact Hs|discriminate]].
      unfold simplified_field. eapply bind_Err2; [apply inside_multi, Hs|]. apply bind_Err1, inside_lo_name, Hs. }
    apply q_brace; [|exact K|exact K]. unfold simplified_field. qs.
  Qed.
  Lemma q_update_field i : simc eq (update_field_f E i) (update_field_f E' i).
  Proof. unfold update_field_f. qs. apply HE. Qed.
  Lemma q_record_update i : simc eq (record_update_f E i) (record_update_f E' i).
  Proof.
    unfold record_update_f, delimited at 1 3, preceded.
    apply q_brace2.
    - qs. apply q_update_field.
    - intros s Hs. eapply bind_Err2; [unfold opt_spaces_or_new_lines_and_indent, map_; rewrite inside_opt by apply inside_sp, Hs; reflexivity|].
      apply bind_Err1, bind_Err1, inside_lo_name, Hs.
    - intros s Hs. eapply bind_Err2; [unfold opt_spaces_or_new_lines_and_indent, map_; rewrite inside_opt by apply inside_sp, Hs; reflexivity|].
      apply bind_Err1, bind_Err1, inside_lo_name, Hs.
  Qed.
  Lemma q_parens i : simc eq (parens_f E i) (parens_f E' i).
  Proof. unfold parens_f. qs. apply HE. Qed.
  Lemma q_term i : simc eq (term_f E i) (term_f E' i).
  Proof.
    unfold term_f.
    apply sim_alt; [apply q_access|]. apply sim_alt; [apply q_variable|]. apply sim_alt; [apply q_access_function|].
    apply sim_alt; [apply rc_sim_string|]. apply sim_alt; [apply rc_sim_float|]. apply sim_alt; [apply rc_sim_integer|].
    apply sim_alt; [apply rc_sim_character|]. apply sim_alt; [apply q_parens|].
    apply sim_alt; [apply q_list|]. apply sim_alt; [apply q_tuple|].
    apply sim_alt; [apply q_record_update|]. apply sim_alt; [apply q_record|]. apply q_simplified_record.
  Qed.
  Lemma q_lambda i : simc eq (lambda_f E i) (lambda_f E' i).
  Proof. unfold lambda_f. qs; [apply q_term|apply HE]. Qed.
  Lemma q_application i : simc eq (application_or_var_f E i) (application_or_var_f E' i).
  Proof. unfold application_or_var_f. qs. apply q_term. Qed.
  Lemma q_definition i : simc eq (function_definition_f E i) (function_definition_f E' i).
  Proof. unfold function_definition_f. qs; [apply q_binding_name|apply q_term|apply HE]. Qed.
  Lemma q_function_f i : simc eq (function_f E i) (function_f E' i).
  Proof.
    intros s s' Hs. pose proof (q_signature i s s' Hs) as Hg.
    assert (Hd : forall o, simc eq (d <- function_definition_f E i ;; ret (mkFunc o d)) (d <- function_definition_f E' i ;; ret (mkFunc o d))).
    { intros o. qs. apply q_definition. }
    destruct (function_signature i s) as [r g| |] eqn:G; destruct (function_signature i s') as [r' g'| |] eqn:G'; try (destruct Hg; fail).
    - destruct Hg as (<- & Hr & t & t' & -> & -> & Ht). destruct (rl_nl i _ _ Hr) as [Hn|[N1 N2]].
      + unfold function_f. eapply rel_bind with (RA := eq); [|intros o o' <-; apply Hd]. unfold opt, terminated, bind. rewrite G, G'.
        destruct (new_line_and_same_indent i r) as [r1 a| |]; destruct (new_line_and_same_indent i r') as [r1' a'| |]; try (destruct Hn; fail); try exact I.
        * destruct Hn as (_ & Hr1 & u & u' & -> & -> & Hu). split; [reflexivity|]. split; [exact Hr1|]. exists (t ++ u), (t' ++ u'). rewrite !app_assoc.
          split; [reflexivity|]. split; [reflexivity|]. split; intros E0; apply app_eq_nil in E0 as [E1 E2]; apply Ht in E1; apply Hu in E2; subst; reflexivity.
        * split; [reflexivity|]. split; [exact Hs|]. exists [], []. tauto.
      + rewrite (stuck_Err E _ _ _ _ G N1), (stuck_Err E' _ _ _ _ G' N2). exact I.
    - rewrite (sig_abort E' _ _ _ G'). apply rel_abort.
    - unfold function_f, bind, opt, terminated, bind. rewrite G, G'. apply (Hd None). exact Hs.
    - rewrite (sig_abort E' _ _ _ G'). apply rel_abort.
    - rewrite (sig_abort E _ _ _ G). exact I.
    - rewrite (sig_abort E _ _ _ G). exact I.
    - rewrite (sig_abort E _ _ _ G). exact I.
  Qed.
  Lemma q_target i : simc eq (let_binding_target_f E i) (let_binding_target_f E' i).
  Proof. unfold let_binding_target_f. qs; [apply q_variable|apply q_list|apply q_tuple|apply q_simplified_record]. Qed.
  Lemma q_let_binding i : simc eq (let_binding_f E i) (let_binding_f E' i).
  Proof. unfold let_binding_f. qs; [apply q_target|apply HE]. Qed.
  Lemma q_let_bindings i : simc eq (let_bindings_f E i) (let_bindings_f E' i).
  Proof. unfold let_bindings_f. qs; [apply q_let_binding|apply q_function_f]. Qed.
  Lemma q_let i : simc eq (let_expression_f E i) (let_expression_f E' i).
  Proof. unfold let_expression_f. qs; [apply q_let_bindings|apply HE]. Qed.
  Lemma q_case i : simc eq (case_f E i) (case_f E' i).
  Proof. unfold case_f. qs; apply HE. Qed.
  Lemma q_case_expression i : simc eq (case_expression_f E i) (case_expression_f E' i).
  Proof. unfold case_expression_f, cases_f. qs; [apply HE|apply q_case]. Qed.
  Lemma q_if i : simc eq (if_expression_f E i) (if_expression_f E' i).
  Proof. unfold if_expression_f. qs; apply HE. Qed.
  Lemma q_operator_exp i : simc eq (operator_exp_f E i) (operator_exp_f E' i).
  Proof.
    unfold operator_exp_f. eapply bind_code; [apply rc_sim_sp|intros s s' r a; apply sp_code|]. intros _ _ _.
    eapply code_bind with (R := eq).
    - unfold operator_or_as. eapply code_map; [apply code_alt; [apply code_sim; qs|apply code_operator]|]. intros a a' <-. reflexivity.
    - intros a a' <-. qs. apply HE.
  Qed.
  Lemma q_binary i : simc eq (binary_f E i) (binary_f E' i).
  Proof. unfold binary_f. qs; [apply q_application|apply q_operator_exp]. Qed.
  Lemma q_expression_f i : simc eq (expression_f E i) (expression_f E' i).
  Proof. unfold expression_f. qs; [apply q_binary|apply q_let|apply q_case_expression|apply q_if|apply q_lambda]. Qed.
End Expressions.
Lemma q_expression_n n : forall n' i, simc eq (expression_n n i) (expression_n n' i).
Proof.
  induction n as [|n IH]; intros [|n'] i s s' Hs; try exact I; [apply rel_abort|].
  cbn [expression_n]. apply q_expression_f; auto.
Qed.
Lemma q_expression i : simc eq (expression i) (expression i).
Proof. intros s s' Hs. apply q_expression_n; assumption. Qed.
Lemma q_function i : simc eq (function i) (function i).
Proof. apply q_function_f, q_expression. Qed.

(** *** statements and files *)
Lemma q_exports : simc eq exports exports.
Proof.
  unfold exports, all_export, subset_export, function_export, function_name, type_export, constructor_exports, constructor_subset_exports, all_export.
  eapply sim_delimited; [qs| |qs]. apply sim_alt; [qs|]. apply q_map. eapply q_sep1; [qs|]. apply sim_alt; [|qs].
  apply q_map, sim_alt; [qs|apply q_paren_operator].
Qed.
Lemma q_module_name : simc eq module_name module_name.
Proof. unfold module_name. qs. Qed.
Lemma q_port_module : simc eq port_module_declaration port_module_declaration.
Proof. unfold port_module_declaration. qs; [apply q_module_name|apply q_exports]. Qed.
Lemma q_effect_fields : simc eq (delimited (char_ (C "{")) (separated_list (tag (L ", ")) effect_field) (char_ (C "}")))
  (delimited (char_ (C "{")) (separated_list (tag (L ", ")) effect_field) (char_ (C "}"))).
Proof.
  unfold delimited.
  assert (K : forall s, inside s -> bind (separated_list (tag (L ", ")) effect_field) (fun b => char_ (C "}") ;;; ret b) s = Err).
  { intros s Hs. eapply bind_Err2; [apply sep_empty|apply bind_Err1, inside_char; [exact Hs|discriminate]].
    unfold effect_field. apply bind_Err1, inside_lo_name, Hs. }
  apply q_brace; [|exact K|exact K]. unfold effect_field. qs.
Qed.
Lemma q_effect_module : simc eq effect_module_declaration effect_module_declaration.
Proof.
  unfold effect_module_declaration. do 8 (apply q_bind; [first [apply q_module_name|qs; fail]|intros ?]).
  apply q_bind; [apply q_effect_fields|intros ?]. qs. apply q_exports.
Qed.
Lemma q_module : simc eq module_declaration module_declaration.
Proof. unfold module_declaration. qs; [apply q_module_name|apply q_exports]. Qed.
Lemma q_import : simc eq import_statement import_statement.
Proof. unfold import_statement. qs; [apply q_module_name|apply q_exports]. Qed.
Lemma q_alias : simc eq type_alias_declaration type_alias_declaration.
Proof. unfold type_alias_declaration. qs; [apply q_type|apply q_type_annotation]. Qed.
Lemma q_type_declaration i : simc eq (type_declaration i) (type_declaration i).
Proof. unfold type_declaration. qs; [apply q_type|apply q_type_constructor]. Qed.
Lemma q_port_type : simc eq port_type_declaration port_type_declaration.
Proof. unfold port_type_declaration. qs. apply q_type_annotation. Qed.
Lemma q_port : simc eq port_declaration port_declaration.
Proof. unfold port_declaration. qs. apply q_expression. Qed.

Lemma lead_spaces b : all_spaces b = true -> forallb lead b = true.
Proof.
  unfold all_spaces. rewrite !forallb_forall. intros H c Hc. apply H in Hc. unfold lead. rewrite Hc. reflexivity.
Qed.
Lemma lead_digits d : forallb is_dec d = true -> forallb lead d = true.
Proof.
  rewrite !forallb_forall. intros H c Hc. apply H in Hc. unfold lead. rewrite Hc. destruct (c =? space)%N; reflexivity.
Qed.
Lemma infix_word_split a w : infix_word a w -> exists v, w = L "infix" ++ v /\ forallb lead v = true.
Proof. intros H. destruct H; [exists (L "l")|exists (L "r")|exists []]; auto. Qed.
Lemma q_infix : simc eq infix_declaration infix_declaration.
Proof.
  apply fw_sim. intros s s' r st Hs H. apply infix_declaration_iff in H as (a & w & b & d & b' & n & -> & -> & Hw & Hb & Hd & Hb' & Hv & Hn).
  destruct (infix_word_split _ _ Hw) as (v & -> & Hl).
  assert (HL : forallb lead (v ++ b ++ d ++ b') = true).
  { rewrite !forallb_app, Hl, (lead_spaces b), (lead_digits d), (lead_spaces b'); [reflexivity|apply Hb'|apply Hd|apply Hb]. }
  assert (Hq : quiet (v ++ b ++ d ++ b' ++ n ++ r)).
  { rewrite <- app_assoc in Hs. apply (rc_one (C "i")) in Hs as (s2 & _ & _ & [Hs|[(_ & _ & _ & _ & _ & Hq) _]]); [discriminate Hs| |reflexivity]. apply Hq. reflexivity. }
  assert (Hnd : ~ dashes (n ++ r)).
  { intros (z & E). rewrite E in Hq. enough (Hx : forallb lead (v ++ b ++ d ++ b') = false) by congruence. apply (Hq _ z). rewrite <- !app_assoc. reflexivity. }
  apply rc_word in Hs as (s2 & -> & Hs2); [|destruct Hw; reflexivity].
  assert (Hne : nosp (n ++ r)).
  { destruct Hn as [[Hn _]|[Hn _]].
    - destruct Hn as [->|[(c & t & -> & Hc & Ht) _]]; [reflexivity|]. cbn. destruct (N.eqb_spec c space) as [->|]; [discriminate Hc|reflexivity].
    - destruct Hn as (Hn0 & Hn & _). destruct n as [|c n]; [congruence|]. cbn in *. apply andb_true_iff in Hn as [Hn _]. destruct (N.eqb_spec c space) as [->|]; [discriminate Hn|reflexivity]. }
  assert (Hde : nosp (d ++ b' ++ n ++ r)).
  { destruct Hd as [Hd0 Hd]. destruct d as [|c d]; [congruence|]. cbn in *. apply andb_true_iff in Hd as [Hd _]. destruct (N.eqb_spec c space) as [->|]; [discriminate Hd|reflexivity]. }
  destruct (rl_skip (fun c => (c =? space)%N) _ _ _ eq_refl (proj2 Hb) Hde Hs2) as (b2 & s3 & -> & B1 & B2 & Hs3 & B3).
  apply rc_word in Hs3 as (s4 & -> & Hs4); [|apply (no_marks is_dec); [reflexivity|apply Hd]].
  destruct (rl_skip (fun c => (c =? space)%N) _ _ _ eq_refl (proj2 Hb') Hne Hs4) as (b3 & s5 & -> & B4 & B5 & Hs5 & B6).
  assert (Hn2 : exists r', s5 = n ++ r' /\ both r r').
  { destruct Hn as [[Hn _]|[Hn _]].
    - apply rc_word in Hs5; [exact Hs5|]. destruct Hn as [->|[(c & t & -> & Hc & Ht) _]]; [reflexivity|].
      apply (no_marks is_name_char); [reflexivity|]. cbn. rewrite Ht. unfold is_name_char. rewrite Hc. reflexivity.
    - apply rc_ops in Hs5; [exact Hs5|apply Hn|exact Hnd]. }
  destruct Hn2 as (r' & -> & Hr). exists r', (InfixDeclaration a (dec_value d) n), ((L "infix" ++ v) ++ b ++ d ++ b' ++ n), ((L "infix" ++ v) ++ b2 ++ d ++ b3 ++ n).
  split; [|split; [reflexivity|split; [exact Hr|rewrite <- !app_assoc; split; [reflexivity|]; split; [reflexivity|]; split; discriminate]]].
  apply infix_declaration_iff. exists a, (L "infix" ++ v), b2, d, b3, n. rewrite <- !app_assoc. destruct Hb as [Hb0 Hb], Hb' as [Hb0' Hb'].
  split; [reflexivity|]. split; [reflexivity|]. split; [exact Hw|]. split; [split; [intros E; apply Hb0, B3, E|exact B1]|]. split; [exact Hd|].
  split; [split; [intros E; apply Hb0', B6, E|exact B4]|]. split; [exact Hv|].
  destruct Hn as [[Hn [->|He]]|[Hn He]]; [left; auto|left; split; [exact Hn|right]|right; split; [exact Hn|]]; (eapply heads_ends; [apply rc_head, Hr|exact He]).
Qed.

Lemma rc_sim_block : simc same_code multi_line_comment multi_line_comment.
Proof.
  apply fw_sim. intros s s' r a Hs H. apply map_Ok in H as (c & H & ->). pose proof H as Hc. apply block_comment_iff in H as [E Hn].
  cases Hs; try discriminate E.
  - destruct n1; [lia|]. discriminate E.
  - assert (K : forall x w, block_text x -> preceded (tag (L "{-")) (take_until_and_consume (L "-}")) (L "{-" ++ x ++ L "-}" ++ w) = Ok w x).
    { intros x w [Hx _]. apply block_comment_iff. split; [reflexivity|exact Hx]. }
    rewrite (K _ _ Hd1) in Hc. injection Hc as <- <-. exists s1', (Comment d'), (L "{-" ++ d ++ L "-}"), (L "{-" ++ d' ++ L "-}").
    split; [unfold multi_line_comment, map_; rewrite (K _ _ Hd1'); reflexivity|]. split; [constructor|]. split; [exact Hb|].
    rewrite <- !app_assoc. split; [reflexivity|]. split; [reflexivity|]. split; discriminate.
  - destruct Ht1; discriminate E.
  - destruct Ht1; discriminate E.
  - injection E as -> ->. destruct Ho1 as (_ & _ & _ & _ & H1 & _). specialize (H1 eq_refl). discriminate H1.
Qed.
Lemma rc_sim_statement : simc same_code statement statement.
Proof.
  assert (K : forall p, simc eq p p -> simc same_code p p).
  { intros p Hp. eapply sim_weak; [|exact Hp]. intros a b <-. constructor. }
  unfold statement. apply sim_alt; [apply K, q_port_module|]. apply sim_alt; [apply K, q_effect_module|]. apply sim_alt; [apply K, q_module|].
  apply sim_alt; [apply K, q_import|]. apply sim_alt; [apply K, q_alias|]. apply sim_alt; [apply K, q_type_declaration|].
  apply sim_alt; [apply K, q_port_type|]. apply sim_alt; [apply K, q_port|]. apply sim_alt; [apply K, q_map, q_function|].
  apply sim_alt; [apply K, q_infix|]. unfold comment. apply sim_alt; [|apply rc_sim_block].
  unfold single_line_comment_stmt. eapply sim_map; [apply rc_sim_comment|]. intros a a' _. constructor.
Qed.
Lemma rc_sim_eof : simc any eof eof.
Proof.
  intros s s' Hs. pose proof (rc_head _ _ Hs) as Hh. unfold eof. destruct s, s'; try destruct Hh; [|exact I].
  split; [exact I|]. split; [exact Hs|]. exists [], []. tauto.
Qed.
Lemma rc_sim_file : simc (Forall2 same_code) file file.
Proof.
  unfold file, statements. eapply sim_terminated; [|apply rc_sim_eof]. eapply sim_delimited; [apply rl_take0; reflexivity| |apply rl_take0; reflexivity].
  eapply sim_separated_nonempty; [apply rl_take0; reflexivity|apply rc_sim_statement].
Qed.

(** ** From one side to both *)
Lemma ordinary_other c s s' : both s s' -> ordinary c s -> ordinary c s'.
Proof.
  intros Hs (H1 & H2 & H3 & H4 & H5 & H6). split; [exact H1|]. split; [exact H2|]. split; [|split; [|split]].
  - intros (w & E). apply H3. injection E as -> ->. apply rc_head in Hs. destruct s as [|x s]; [destruct Hs|]. cbn in Hs. subst x. exists s. reflexivity.
  - intros Hc. eapply rc_dashes; [exact Hs|]. apply H4, Hc.
  - intros Hc. eapply heads_ends; [apply rc_head, Hs|]. apply H5, Hc.
  - intros r' E. injection E as -> ->. apply rc_sym, (rc_word (L "nfix")) in Hs as (r & -> & Hr); [|reflexivity].
    specialize (H6 r eq_refl). intros a b ->. destruct (forallb lead a) eqn:Ha; [|reflexivity]. exfalso.
    apply (rl_skip lead a) in Hr as (a2 & r2 & -> & Ha2 & _ & Hr & _); [|reflexivity|exact Ha|reflexivity]. apply rc_line_inv in Hr as (_ & d & _ & r' & _ & -> & _).
    rewrite (H6 a2 (d ++ r') eq_refl) in Ha2. discriminate Ha2.
Qed.
Lemma relayout_both s s' : relayout s s' -> both s s'.
Proof.
  assert (Z : forall f u u', both u u' -> ends f u -> ends f u') by (intros f u u' Hu He; eapply heads_ends; [apply rc_head, Hu|exact He]).
  induction 1 as [|n m s s' Hn Hm Hs H IH|k s s' Hs H IH|v v' k s s' Hv Hv' Hs H IH|c c' s s' Hc Hc' Hs H IH|c c' s s' Hc Hc' H IH|t s s' Ht H IH|t s s' Ht H IH|n m s s' Hn Hm Hs H IH|c s s' Hc Hp Hq H IH].
  - apply b_nil.
  - apply b_spaces; eauto.
  - apply b_newline; eauto.
  - apply b_newlines; eauto.
  - apply b_line; auto. apply line_ends. apply line_ends in Hs. eauto.
  - apply b_block; auto.
  - apply b_string; auto. destruct Ht as [c Hc|c Hc He]; [apply token_multi, Hc|]. apply token_single; [exact Hc|]. eauto.
  - apply b_literal; auto.
  - apply b_comma; eauto.
  - apply b_char; auto. eapply ordinary_other; eassumption.
Qed.
Lemma both_relayout s s' : both s s' -> relayout s s'.
Proof. induction 1; [apply rl_nil|apply rl_spaces|apply rl_line|apply rl_lines|apply rl_comment|apply rl_block|apply rl_string|apply rl_literal|apply rl_comma|apply rl_char]; assumption. Qed.
Lemma relayout_sym s s' : relayout s s' -> relayout s' s.
Proof. intros H. apply both_relayout, rc_sym, relayout_both, H. Qed.
