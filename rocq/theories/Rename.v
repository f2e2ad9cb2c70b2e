(** * Names do not matter: the parser on a text and on the text with other names *)
From Verif Require Import Base Nom Ast Good Spec Grammar Helpers Types Expr Stmt Lexers Layout Follow SoundE LexProps Heads Names TwoRuns.

(** ** Two texts that differ in their words *)

(** a literal at the head of [s] is one at the head of [s'] *)
Definition fixed (s s' : str) : Prop :=
  forall w r, s = w ++ squote :: r -> forallb is_literal_char w = true -> exists r', s' = w ++ squote :: r'.

Inductive renamed (P : str -> str -> Prop) (k : bool) : str -> str -> Prop :=
| rn_nil : renamed P k [] []
| rn_char c s s' : is_letter c = false -> (k = true -> c = squote -> fixed s s' /\ fixed s' s) ->
    renamed P k s s' -> renamed P k (c :: s) (c :: s')
| rn_lower p p' s s' : type_var_name p -> type_var_name p' -> P p p' ->
    ends is_tyvar_char s -> ends is_tyvar_char s' -> renamed P k s s' -> renamed P k (p ++ s) (p' ++ s')
| rn_upper p p' s s' : upper_name p -> upper_name p' -> P p p' ->
    ends is_name_char s -> ends is_name_char s' -> renamed P k s s' -> renamed P k (p ++ s) (p' ++ s').

(** the keywords stay *)
Definition keeps (P : str -> str -> Prop) : Prop :=
  forall p p', type_var_name p -> type_var_name p' -> P p p' -> In p keywords \/ In p' keywords -> p = p'.
Lemma keeps_back P : keeps P -> keeps (back P).
Proof. intros H p p' H1 H2 Hp Hk. symmetry. apply H; auto. tauto. Qed.

Lemma rn_sym P k s s' : renamed P k s s' -> renamed (back P) k s' s.
Proof.
  induction 1; [constructor|apply rn_char; auto|apply rn_lower; auto|apply rn_upper; auto].
  intros Hk Hc. destruct (H0 Hk Hc). auto.
Qed.
Lemma rn_loose P k s s' : renamed P k s s' -> renamed P false s s'.
Proof. induction 1; [constructor|apply rn_char; auto; discriminate|apply rn_lower; auto|apply rn_upper; auto]. Qed.

Definition similar (c c' : char) : Prop :=
  (c = c' /\ is_letter c = false) \/ (is_lower c = true /\ is_lower c' = true) \/ (is_upper c = true /\ is_upper c' = true).
Definition uniform (f : char -> bool) : Prop := forall c c', similar c c' -> f c = f c'.

Definition lowers : str := L "abcdefghijklmnopqrstuvwxyz".
Definition uppers : str := L "ABCDEFGHIJKLMNOPQRSTUVWXYZ".
Lemma N_range lo n c : (lo <= c)%N -> (c < lo + N.of_nat n)%N -> In c (map (fun i => lo + N.of_nat i)%N (seq 0 n)).
Proof.
  intros H1 H2. apply in_map_iff. exists (N.to_nat (c - lo)). split; [lia|]. apply in_seq. lia.
Qed.
Lemma lower_in c : is_lower c = true -> In c lowers.
Proof.
  unfold is_lower, between. intros H. apply andb_true_iff in H as [H1 H2]. apply N.leb_le in H1, H2.
  change lowers with (map (fun i => C "a" + N.of_nat i)%N (seq 0 26)). apply N_range; [exact H1|].
  change (C "a" + N.of_nat 26)%N with (N.succ (C "z")). lia.
Qed.
Lemma upper_in c : is_upper c = true -> In c uppers.
Proof.
  unfold is_upper, between. intros H. apply andb_true_iff in H as [H1 H2]. apply N.leb_le in H1, H2.
  change uppers with (map (fun i => C "A" + N.of_nat i)%N (seq 0 26)). apply N_range; [exact H1|].
  change (C "A" + N.of_nat 26)%N with (N.succ (C "Z")). lia.
Qed.
Lemma uniform_check f :
  forallb (fun c => Bool.eqb (f c) (f (C "a"))) lowers && forallb (fun c => Bool.eqb (f c) (f (C "A"))) uppers = true -> uniform f.
Proof.
  intros H. apply andb_true_iff in H as [H1 H2]. rewrite forallb_forall in H1, H2.
  intros c c' [[-> _]|[[Hc Hc']|[Hc Hc']]]; [reflexivity| |].
  - apply lower_in in Hc, Hc'. apply H1 in Hc, Hc'. apply Bool.eqb_prop in Hc, Hc'. congruence.
  - apply upper_in in Hc, Hc'. apply H2 in Hc, Hc'. apply Bool.eqb_prop in Hc, Hc'. congruence.
Qed.
Lemma letter_name c : is_letter c = true -> is_name_char c = true.
Proof. unfold is_letter, is_name_char. destruct (is_lower c), (is_upper c); cbn; auto; discriminate. Qed.
Lemma lower_not_upper c : is_lower c = true -> is_upper c = false.
Proof.
  unfold is_lower, is_upper, between. intros H. apply andb_true_iff in H as [H1 H2]. apply N.leb_le in H1, H2.
  change (C "a") with 97%N in *. change (C "Z") with 90%N. apply andb_false_iff. right. apply N.leb_gt. lia.
Qed.
Lemma tyvar_name c : is_tyvar_char c = true -> is_name_char c = true.
Proof.
  unfold is_tyvar_char, is_name_char. destruct (is_lower c); [reflexivity|]. cbn [orb].
  destruct (is_upper c); [reflexivity|]. cbn [orb]. intros H. apply orb_true_iff in H as [H|H].
  - unfold is_dec, between in *. apply andb_true_iff in H as [H1 H2]. apply N.leb_le in H1.
    rewrite H2. change (C "1") with 49%N in H1. change (C "0") with 48%N. assert (E : (48 <=? c)%N = true) by (apply N.leb_le; lia).
    rewrite E. reflexivity.
  - rewrite H. apply orb_true_r.
Qed.
Lemma forallb_imp (f g : char -> bool) w : (forall c, f c = true -> g c = true) -> forallb f w = true -> forallb g w = true.
Proof. intros H Hw. apply forallb_forall. intros c Hc. apply H. eapply forallb_forall in Hw; eassumption. Qed.
Lemma tyvar_all p : type_var_name p -> forallb is_tyvar_char p = true.
Proof. intros (c & t & -> & Hc & Ht). cbn [forallb]. rewrite Ht. unfold is_tyvar_char. rewrite Hc. reflexivity. Qed.
Lemma tyvar_names p : type_var_name p -> forallb is_name_char p = true.
Proof. intros H. apply tyvar_all in H. revert H. apply forallb_imp, tyvar_name. Qed.
Lemma upper_names p : upper_name p -> forallb is_name_char p = true.
Proof.
  intros (c & t & -> & Hc & Ht). cbn [forallb]. rewrite Ht. unfold is_name_char. rewrite Hc. destruct (is_lower c); reflexivity.
Qed.
Lemma ends_tyvar s : ends is_name_char s -> ends is_tyvar_char s.
Proof.
  destruct s as [|c s]; [auto|]. cbn. intros H. destruct (is_tyvar_char c) eqn:E; [|reflexivity].
  apply tyvar_name in E. congruence.
Qed.
Lemma keyword_tyvar p : In p keywords -> type_var_name p.
Proof.
  intros H. repeat (destruct H as [<-|H]; [eexists _, _; split; [reflexivity|split; reflexivity]|]). destruct H.
Qed.

(** a word and what follows it *)
Lemma longest_word f p r q r' : p ++ r = q ++ r' -> forallb f p = true -> forallb f q = true -> ends f r -> ends f r' -> p = q /\ r = r'.
Proof.
  intros E H1 H2 H3 H4. eapply longest_unique; [split; [reflexivity|split; [exact H1|exact H3]]|].
  split; [exact E|split; [exact H2|exact H4]].
Qed.
Lemma names_prefix p s a b : p ++ s = a ++ b -> forallb is_name_char p = true -> ends is_name_char b ->
  exists a2, a = p ++ a2 /\ s = a2 ++ b.
Proof.
  revert a. induction p as [|c p IH]; intros a E Hp Hb; [exists a; auto|].
  cbn in Hp. apply andb_true_iff in Hp as [Hc Hp]. destruct a as [|d a]; cbn [app] in E.
  - subst b. cbn in Hb. congruence.
  - injection E as <- E. destruct (IH _ E Hp Hb) as (a2 & -> & ->). exists a2. auto.
Qed.

Section P.
  Variable P : str -> str -> Prop.
  Variable k : bool.
  Notation ren := (renamed P k).

  Lemma rn_head s s' : ren s s' -> match s, s' with [], [] => True | c :: _, c' :: _ => similar c c' | _, _ => False end.
  Proof.
    destruct 1 as [|c s s' Hc _ _|p p' s s' (c & t & -> & Hc & _) (c' & t' & -> & Hc' & _) _ _ _ _|p p' s s' (c & t & -> & Hc & _) (c' & t' & -> & Hc' & _) _ _ _ _];
      cbn; unfold similar; auto.
  Qed.
  Lemma rn_ends u s s' : uniform u -> ren s s' -> ends u s -> ends u s'.
  Proof.
    intros Hu H. apply rn_head in H. destruct s, s'; try tauto. cbn. rewrite (Hu _ _ H). auto.
  Qed.
  Lemma rn_nil_l s : ren [] s -> s = [].
  Proof. intros H. apply rn_head in H. destruct s; tauto. Qed.
  Lemma rn_empty s s' : ren s s' -> (s = [] <-> s' = []).
  Proof. intros H. apply rn_head in H. destruct s, s'; try tauto; split; congruence. Qed.

  (** the first step *)
  Lemma rn_cons c s w : ren (c :: s) w -> is_letter c = false ->
    exists s', w = c :: s' /\ ren s s' /\ (k = true -> c = squote -> fixed s s' /\ fixed s' s).
  Proof.
    intros H Hc. remember (c :: s) as x eqn:E.
    destruct H as [|d x x' Hd Hf H|p p' x x' (d & t & -> & Hd & _) _ _ _ _ _|p p' x x' (d & t & -> & Hd & _) _ _ _ _ _]; try discriminate E.
    - injection E as -> ->. eauto.
    - injection E as -> _. unfold is_letter in Hc. rewrite Hd in Hc. discriminate Hc.
    - injection E as -> _. unfold is_letter in Hc. rewrite Hd, orb_true_r in Hc. discriminate Hc.
  Qed.
  Lemma rn_small p s w : ren (p ++ s) w -> type_var_name p -> ends is_tyvar_char s ->
    exists p' s', w = p' ++ s' /\ type_var_name p' /\ P p p' /\ ends is_tyvar_char s' /\ ren s s'.
  Proof.
    intros H Hp Hs. remember (p ++ s) as x eqn:E.
    destruct H as [|d x x' Hd Hf H|q q' x x' Hq Hq' HP He He' H|q q' x x' Hq _ _ _ _ _].
    - destruct Hp as (c & t & -> & _). discriminate E.
    - destruct Hp as (c & t & -> & Hc & _). injection E as -> _. unfold is_letter in Hd. rewrite Hc in Hd. discriminate Hd.
    - destruct (longest_word is_tyvar_char _ _ _ _ E) as [-> ->]; auto using tyvar_all. eauto 8.
    - exfalso. destruct Hp as (c & t & -> & Hc & _), Hq as (d & u & -> & Hd & _). injection E as -> _.
      apply lower_not_upper in Hc. congruence.
  Qed.
  Lemma rn_capital p s w : ren (p ++ s) w -> upper_name p -> ends is_name_char s ->
    exists p' s', w = p' ++ s' /\ upper_name p' /\ P p p' /\ ends is_name_char s' /\ ren s s'.
  Proof.
    intros H Hp Hs. remember (p ++ s) as x eqn:E.
    destruct H as [|d x x' Hd Hf H|q q' x x' Hq _ _ _ _ _|q q' x x' Hq Hq' HP He He' H].
    - destruct Hp as (c & t & -> & _). discriminate E.
    - destruct Hp as (c & t & -> & Hc & _). injection E as -> _. unfold is_letter in Hd. rewrite Hc, orb_true_r in Hd. discriminate Hd.
    - exfalso. destruct Hp as (c & t & -> & Hc & _), Hq as (d & u & -> & Hd & _). injection E as -> _.
      apply lower_not_upper in Hd. congruence.
    - destruct (longest_word is_name_char _ _ _ _ E) as [-> ->]; auto using upper_names. eauto 8.
  Qed.
  Definition solid (c : char) : bool := negb (is_letter c).
  Lemma rn_solid a b w : forallb solid a = true -> ren (a ++ b) w -> exists b', w = a ++ b' /\ ren b b'.
  Proof.
    revert w. induction a as [|c a IH]; intros w Ha H; [exists w; auto|].
    cbn in Ha. apply andb_true_iff in Ha as [Hc Ha]. apply negb_true_iff in Hc.
    destruct (rn_cons _ _ _ H Hc) as (s' & -> & H' & _).
    destruct (IH _ Ha H') as (b' & -> & Hb). exists b'. auto.
  Qed.
  Lemma rn_keyword w r x : keeps P -> In w keywords -> ren (w ++ r) x -> ends is_name_char r ->
    exists r', x = w ++ r' /\ ren r r' /\ P w w /\ ends is_name_char r'.
  Proof.
    intros HP Hw H Hr. destruct (rn_small _ _ _ H) as (p' & s' & -> & Hp' & HPw & _ & H'); [apply keyword_tyvar, Hw|apply ends_tyvar, Hr|].
    pose proof (HP _ _ (keyword_tyvar _ Hw) Hp' HPw (or_introl Hw)) as <-. exists s'. repeat split; auto.
    eapply rn_ends; [|exact H'|exact Hr]. apply uniform_check. reflexivity.
  Qed.
  Lemma rn_class f a a' : (forall c, is_name_char c = true -> f c = true) -> ren a a' -> forallb f a = true -> forallb f a' = true.
  Proof.
    intros Hf. induction 1 as [|c s s' _ _ _ IH|p p' s s' Hp Hp' _ _ _ _ IH|p p' s s' Hp Hp' _ _ _ _ IH]; auto.
    - cbn. intros Ha. apply andb_true_iff in Ha as [Hd Ha]. rewrite Hd. auto.
    - rewrite !forallb_app. intros Ha. apply andb_true_iff in Ha as [_ Ha]. rewrite IH by exact Ha.
      apply tyvar_names in Hp'. eapply forallb_imp in Hp'; [|exact Hf]. rewrite Hp'. reflexivity.
    - rewrite !forallb_app. intros Ha. apply andb_true_iff in Ha as [_ Ha]. rewrite IH by exact Ha.
      apply upper_names in Hp'. eapply forallb_imp in Hp'; [|exact Hf]. rewrite Hp'. reflexivity.
  Qed.
End P.

Lemma uniform_name : uniform is_name_char. Proof. apply uniform_check. reflexivity. Qed.
Lemma uniform_tyvar : uniform is_tyvar_char. Proof. apply uniform_check. reflexivity. Qed.

(** ** Cutting *)
Lemma ends_prefix f (a b : str) : ends f (a ++ b) -> ends f a.
Proof. destruct a; [intros _; exact I|auto]. Qed.
Lemma rn_cut_loose P a b w : renamed P false (a ++ b) w -> ends is_name_char b ->
  exists a' b', w = a' ++ b' /\ renamed P false a a' /\ renamed P false b b'.
Proof.
  remember (a ++ b) as s eqn:E. intros H. revert a E.
  induction H as [|c s s' Hc Hf H IH|p p' s s' Hp Hp' HP He He' H IH|p p' s s' Hp Hp' HP He He' H IH]; intros a E Hb.
  - symmetry in E. apply app_eq_nil in E as [-> ->]. exists [], []. repeat split; constructor.
  - destruct a as [|d a]; cbn [app] in E.
    + subst b. exists [], (c :: s'). split; [reflexivity|]. split; [constructor|]. apply rn_char; auto.
    + injection E as <- E. destruct (IH a E Hb) as (a' & b' & -> & Ha & Hb').
      exists (c :: a'), b'. repeat split; auto. apply rn_char; auto. discriminate.
  - destruct (names_prefix _ _ _ _ E (tyvar_names _ Hp) Hb) as (a2 & -> & ->).
    destruct (IH a2 eq_refl Hb) as (a' & b' & -> & Ha & Hb').
    exists (p' ++ a'), b'. rewrite app_assoc. repeat split; auto. apply rn_lower; eauto using ends_prefix.
  - destruct (names_prefix _ _ _ _ E (upper_names _ Hp) Hb) as (a2 & -> & ->).
    destruct (IH a2 eq_refl Hb) as (a' & b' & -> & Ha & Hb').
    exists (p' ++ a'), b'. rewrite app_assoc. repeat split; auto. apply rn_upper; eauto using ends_prefix.
Qed.
Lemma literal_no_squote w w' r r' : forallb is_literal_char w = true -> forallb is_literal_char w' = true ->
  w ++ squote :: r = w' ++ squote :: r' -> w = w' /\ r = r'.
Proof.
  intros H1 H2 E. destruct (longest_word is_literal_char _ _ _ _ E) as [-> E']; auto; try reflexivity.
  injection E' as ->. auto.
Qed.
Lemma name_literal c : is_name_char c = true -> is_literal_char c = true.
Proof. intros H. unfold is_literal_char. rewrite H. reflexivity. Qed.
Lemma fixed_prefix P a b a' b' : renamed P false a a' -> fixed (a ++ b) (a' ++ b') -> fixed a a'.
Proof.
  intros H F w r E Hw. subst a. destruct (F w (r ++ b)) as (r' & Er); [rewrite <- app_assoc; reflexivity|exact Hw|].
  destruct (rn_cut_loose _ _ _ _ H) as (w1 & y & -> & H1 & H2); [reflexivity|].
  destruct (rn_cons _ _ _ _ _ H2) as (r1 & -> & _); [reflexivity|]. rewrite <- app_assoc in Er. cbn [app] in Er.
  assert (Hw1 : forallb is_literal_char w1 = true) by (eapply rn_class; [exact name_literal|exact H1|exact Hw]).
  destruct (literal_no_squote _ _ _ _ Hw1 Hw Er) as [-> _]. eauto.
Qed.
Lemma rn_cut P k a b w : renamed P k (a ++ b) w -> ends is_name_char b ->
  exists a' b', w = a' ++ b' /\ renamed P k a a' /\ renamed P k b b'.
Proof.
  remember (a ++ b) as s eqn:E. intros H. revert a E.
  induction H as [|c s s' Hc Hf H IH|p p' s s' Hp Hp' HP He He' H IH|p p' s s' Hp Hp' HP He He' H IH]; intros a E Hb.
  - symmetry in E. apply app_eq_nil in E as [-> ->]. exists [], []. repeat split; constructor.
  - destruct a as [|d a]; cbn [app] in E.
    + subst b. exists [], (c :: s'). split; [reflexivity|]. split; [constructor|]. apply rn_char; auto.
    + injection E as <- E. destruct (IH a E Hb) as (a' & b' & -> & Ha & Hb').
      exists (c :: a'), b'. repeat split; auto. apply rn_char; auto. subst s. intros Hk Hq. destruct (Hf Hk Hq) as [F1 F2].
      apply rn_loose in Ha. split.
      * eapply fixed_prefix; eassumption.
      * eapply fixed_prefix; [apply rn_sym, Ha|eassumption].
  - destruct (names_prefix _ _ _ _ E (tyvar_names _ Hp) Hb) as (a2 & -> & ->).
    destruct (IH a2 eq_refl Hb) as (a' & b' & -> & Ha & Hb').
    exists (p' ++ a'), b'. rewrite app_assoc. repeat split; auto. apply rn_lower; eauto using ends_prefix.
  - destruct (names_prefix _ _ _ _ E (upper_names _ Hp) Hb) as (a2 & -> & ->).
    destruct (IH a2 eq_refl Hb) as (a' & b' & -> & Ha & Hb').
    exists (p' ++ a'), b'. rewrite app_assoc. repeat split; auto. apply rn_upper; eauto using ends_prefix.
Qed.

(** ** The function [rename] and the relation *)

Lemma span_length f s a b : span f s = (a, b) -> length b <= length s.
Proof. intros H. apply span_app in H. subst s. rewrite app_length. lia. Qed.
Lemma rename_fuel f n : forall s m, length s <= n -> length s <= m -> rename_n f n s = rename_n f m s.
Proof.
  induction n as [|n IH]; intros [|c s] [|m] Hn Hm; cbn in Hn, Hm; try lia; try reflexivity. cbn [rename_n].
  destruct (is_lower c) eqn:El.
  - cbn [span]. unfold is_tyvar_char at 1 3. rewrite El. cbn [orb].
    destruct (span is_tyvar_char s) as [a b] eqn:E. apply span_length in E. f_equal. apply IH; lia.
  - destruct (is_upper c) eqn:Eu.
    + cbn [span]. unfold is_name_char at 1 3. rewrite El, Eu. cbn [orb].
      destruct (span is_name_char s) as [a b] eqn:E. apply span_length in E. f_equal. apply IH; lia.
    + f_equal. apply IH; lia.
Qed.
Lemma rename_char f c s : is_letter c = false -> rename f (c :: s) = c :: rename f s.
Proof.
  unfold is_letter. intros H. apply orb_false_iff in H as [H1 H2]. unfold rename. cbn [length rename_n]. rewrite H1, H2. reflexivity.
Qed.
Lemma rename_lower f p s : type_var_name p -> ends is_tyvar_char s -> rename f (p ++ s) = f p ++ rename f s.
Proof.
  intros Hp Hs. pose proof (tyvar_all p Hp) as Ha. pose proof (span_all _ _ _ Ha Hs) as E.
  destruct Hp as (c & t & -> & Hc & Ht). unfold rename. cbn [length app rename_n] in *. rewrite Hc, E. f_equal.
  apply rename_fuel; [rewrite app_length; lia|lia].
Qed.
Lemma rename_upper f p s : upper_name p -> ends is_name_char s -> rename f (p ++ s) = f p ++ rename f s.
Proof.
  intros Hp Hs. pose proof (upper_names p Hp) as Ha. pose proof (span_all _ _ _ Ha Hs) as E.
  destruct Hp as (c & t & -> & Hc & Ht). unfold rename. cbn [length app rename_n] in *.
  destruct (is_lower c) eqn:El; [apply lower_not_upper in El; congruence|]. rewrite Hc, E. f_equal.
  apply rename_fuel; [rewrite app_length; lia|lia].
Qed.

Definition graph (f : str -> str) : str -> str -> Prop := fun p p' => p' = f p.
Lemma rn_rename f k s s' : renamed (graph f) k s s' -> s' = rename f s.
Proof.
  induction 1 as [|c s s' Hc _ _ IH|p p' s s' Hp Hp' HP He He' _ IH|p p' s s' Hp Hp' HP He He' _ IH].
  - reflexivity.
  - rewrite rename_char by exact Hc. congruence.
  - rewrite rename_lower by assumption. congruence.
  - rewrite rename_upper by assumption. congruence.
Qed.
Lemma graph_keeps f : renaming f -> keeps (graph f).
Proof. intros H p p' Hp _ -> Hk. symmetry. apply H; assumption. Qed.

Lemma text_cases s : s = [] \/ (exists c r, s = c :: r /\ is_letter c = false) \/
  (exists p r, s = p ++ r /\ type_var_name p /\ ends is_tyvar_char r) \/ (exists p r, s = p ++ r /\ upper_name p /\ ends is_name_char r).
Proof.
  destruct s as [|c s]; [auto|]. right. destruct (is_letter c) eqn:E; [|eauto]. right.
  unfold is_letter in E. destruct (is_lower c) eqn:El; [left|right].
  - destruct (span is_tyvar_char s) as [a b] eqn:Es. apply span_longest in Es as (-> & Ha & Hb).
    exists (c :: a), b. split; [reflexivity|]. split; [exists c, a; auto|exact Hb].
  - cbn in E. destruct (span is_name_char s) as [a b] eqn:Es. apply span_longest in Es as (-> & Ha & Hb).
    exists (c :: a), b. split; [reflexivity|]. split; [exists c, a; auto|exact Hb].
Qed.
Lemma rename_loose_n f n s : renaming f -> length s < n -> renamed (graph f) false s (rename f s).
Proof.
  intros Hf. revert s. induction n as [|n IH]; intros s Hn; [lia|].
  destruct (text_cases s) as [->|[(c & r & -> & Hc)|[(p & r & -> & Hp & Hr)|(p & r & -> & Hp & Hr)]]].
  - constructor.
  - rewrite rename_char by exact Hc. apply rn_char; auto; [discriminate|]. apply IH. cbn in Hn. lia.
  - rewrite rename_lower by assumption. assert (IHr : renamed (graph f) false r (rename f r)).
    { apply IH. rewrite app_length in Hn. destruct Hp as (c & t & -> & _). cbn in Hn. lia. }
    apply rn_lower; auto; [apply Hf, Hp|reflexivity|]. eapply rn_ends; eauto using uniform_tyvar.
  - rewrite rename_upper by assumption. assert (IHr : renamed (graph f) false r (rename f r)).
    { apply IH. rewrite app_length in Hn. destruct Hp as (c & t & -> & _). cbn in Hn. lia. }
    apply rn_upper; auto; [apply Hf, Hp|reflexivity|]. eapply rn_ends; eauto using uniform_name.
Qed.
Lemma rename_loose f s : renaming f -> renamed (graph f) false s (rename f s).
Proof. intros Hf. eapply rename_loose_n; [exact Hf|apply le_n]. Qed.
Lemma spares_suffix f a s : spares_literals f (a ++ s) -> spares_literals f s.
Proof. intros H b w r -> Hw. apply (H (a ++ b) w r); [rewrite app_assoc; reflexivity|exact Hw]. Qed.
Lemma rename_tight_n f n s : renaming f -> length s < n -> spares_literals f s -> renamed (graph f) true s (rename f s).
Proof.
  intros Hf. revert s. induction n as [|n IH]; intros s Hn Hs; [lia|].
  destruct (text_cases s) as [->|[(c & r & -> & Hc)|[(p & r & -> & Hp & Hr)|(p & r & -> & Hp & Hr)]]].
  - constructor.
  - rewrite rename_char by exact Hc. apply rn_char; auto.
    + intros _ ->. pose proof (rename_loose f r Hf) as H. split.
      * intros w r1 -> Hw. pose proof (Hs [] w r1 eq_refl Hw) as Ew.
        destruct (rn_cut_loose _ _ _ _ H) as (w' & y & -> & H1 & H2); [reflexivity|].
        apply rn_rename in H1. rewrite Ew in H1. subst w'. destruct (rn_cons _ _ _ _ _ H2) as (r2 & -> & _); [reflexivity|]. eauto.
      * intros w r1 E Hw. rewrite E in H. apply rn_sym in H.
        destruct (rn_cut_loose _ _ _ _ H) as (w' & y & -> & H1 & H2); [reflexivity|].
        destruct (rn_cons _ _ _ _ _ H2) as (r2 & -> & _); [reflexivity|].
        assert (Hw' : forallb is_literal_char w' = true) by (eapply rn_class; [exact name_literal|exact H1|exact Hw]).
        pose proof (Hs [] w' r2 eq_refl Hw') as Ew. apply rn_sym in H1. apply rn_rename in H1. exists r2. congruence.
    + apply IH; [cbn in Hn; lia|]. apply (spares_suffix f [c]), Hs.
  - rewrite rename_lower by assumption. assert (IHr : renamed (graph f) true r (rename f r)).
    { apply IH; [|eapply spares_suffix, Hs]. rewrite app_length in Hn. destruct Hp as (c & t & -> & _). cbn in Hn. lia. }
    apply rn_lower; auto; [apply Hf, Hp|reflexivity|]. eapply rn_ends; eauto using uniform_tyvar.
  - rewrite rename_upper by assumption. assert (IHr : renamed (graph f) true r (rename f r)).
    { apply IH; [|eapply spares_suffix, Hs]. rewrite app_length in Hn. destruct Hp as (c & t & -> & _). cbn in Hn. lia. }
    apply rn_upper; auto; [apply Hf, Hp|reflexivity|]. eapply rn_ends; eauto using uniform_name.
Qed.
Lemma rename_tight f s : renaming f -> spares_literals f s -> renamed (graph f) true s (rename f s).
Proof. intros Hf. eapply rename_tight_n; [exact Hf|apply le_n]. Qed.
