(** * Only the order of columns matters: two runs of the parser side by side *)
From Verif Require Import Base Nom Ast Good Spec Grammar Helpers Types Expr Stmt Lexers Layout Follow SoundE LexProps Heads Indent.

Section Gaps.
Variable gaps : bool.
Notation respaced := (Indent.respaced gaps).
Notation reindented := (Indent.reindented gaps).
Notation same_text := (Indent.same_text gaps).
Notation like := (Indent.like gaps).
Notation like_entry := (Indent.like_entry gaps).
Notation like_func := (Indent.like_func gaps).
Notation like_def := (Indent.like_def gaps).
Notation like_statement := (Indent.like_statement gaps).

Definition back (P : N -> N -> Prop) : N -> N -> Prop := fun a b => P b a.
Lemma columns_back P : columns P -> columns (back P).
Proof.
  intros [H1 H2 H3]. constructor; unfold back.
  - intros a a' b b' Ha Hb. symmetry. apply H1; assumption.
  - intros a a' H. destruct (H2 _ _ H). auto.
  - exact H3.
Qed.
Lemma columns_fun P a a' b b' : columns P -> P a a' -> P b b' -> (a = b <-> a' = b').
Proof.
  intros H Ha Hb. pose proof (columns_order P H _ _ _ _ Ha Hb). pose proof (columns_order P H _ _ _ _ Hb Ha). lia.
Qed.

Lemma spaces_of_S n : spaces_of (N.succ n) = space :: spaces_of n.
Proof. unfold spaces_of. rewrite N2Nat.inj_succ. reflexivity. Qed.
Lemma spaces_of_pos n : (0 < n)%N -> exists m, spaces_of n = space :: spaces_of m.
Proof. intros H. exists (N.pred n). rewrite <- spaces_of_S, N.succ_pred; [reflexivity|lia]. Qed.
Lemma spaces_of_len n : N.of_nat (length (spaces_of n)) = n.
Proof. unfold spaces_of. rewrite repeat_length. apply N2Nat.id. Qed.
Lemma forallb_spaces_of f n : f space = true -> forallb f (spaces_of n) = true.
Proof. intros Hf. apply forallb_forall. intros c H. apply repeat_spec in H. subst. exact Hf. Qed.
Lemma all_spaces_of n : all_spaces (spaces_of n) = true.
Proof. apply forallb_spaces_of. reflexivity. Qed.
Lemma all_spaces_is t : all_spaces t = true -> t = spaces_of (N.of_nat (length t)).
Proof.
  unfold all_spaces, spaces_of. rewrite Nat2N.id. induction t as [|c t IH]; [reflexivity|]. cbn.
  intros H. apply andb_true_iff in H as [Hc H]. apply N.eqb_eq in Hc. subst. f_equal. auto.
Qed.
Lemma spaces_split s : exists n r, s = spaces_of n ++ r /\ ends is_gap r.
Proof.
  induction s as [|c s (n & r & -> & Hr)]; [exists 0%N, []; split; [reflexivity|exact I]|].
  destruct (N.eqb_spec c space) as [->|Hc].
  - exists (N.succ n), r. rewrite spaces_of_S. auto.
  - exists 0%N, (c :: spaces_of n ++ r). split; [reflexivity|]. cbn. unfold is_gap. apply N.eqb_neq, Hc.
Qed.
Lemma spaces_unique n m r r' : spaces_of n ++ r = spaces_of m ++ r' -> ends is_gap r -> ends is_gap r' -> n = m /\ r = r'.
Proof.
  revert m. induction n as [|n IH] using N.peano_ind; intros m E Hr Hr'.
  - destruct (N.eq_dec m 0) as [->|Hm]; [auto|]. destruct (spaces_of_pos m) as [k Ek]; [lia|]. rewrite Ek in E.
    cbn in E. subst r. discriminate Hr.
  - rewrite spaces_of_S in E. destruct (N.eq_dec m 0) as [->|Hm].
    + cbn in E. subst r'. discriminate Hr'.
    + rewrite <- (N.succ_pred m Hm), spaces_of_S in E. injection E as E.
      destruct (IH _ E Hr Hr') as [-> ->]. split; [|reflexivity]. rewrite N.succ_pred; auto.
Qed.

(** ** Basic facts *)

Section P.
  Variable P : N -> N -> Prop.

  Lemma rs_head g s s' : respaced P g s s' -> match s, s' with [], [] => True | c :: _, c' :: _ => c = c' | _, _ => False end.
  Proof.
    destruct 1 as [| |n n' s s' Hq Hn Hn' _ _ _|]; auto.
    destruct (spaces_of_pos n Hn) as [m ->], (spaces_of_pos n' Hn') as [m' ->]. reflexivity.
  Qed.
  Lemma rs_ends u g s s' : respaced P g s s' -> ends u s -> ends u s'.
  Proof. intros H. apply rs_head in H. destruct s, s'; try tauto. subst. auto. Qed.
  Lemma rs_nil_l g s : respaced P g [] s -> s = [].
  Proof. intros H. apply rs_head in H. destruct s; tauto. Qed.
  Lemma rs_empty g s s' : respaced P g s s' -> (s = [] <-> s' = []).
  Proof. intros H. apply rs_head in H. destruct s, s'; try tauto; split; congruence. Qed.

  (** the flag is irrelevant unless a space follows *)
  Lemma rs_flag g g' s s' : respaced P g s s' -> ends is_gap s -> respaced P g' s s'.
  Proof.
    destruct 1 as [| |n n' s s' Hq Hn _ _ _ _|]; intros He.
    - constructor.
    - apply rs_char; auto. intros ->. discriminate He.
    - destruct (spaces_of_pos n Hn) as [m E]. rewrite E in He. discriminate He.
    - apply rs_line; auto.
  Qed.
  (** the first step *)
  Lemma rs_cons g c s w : respaced P g (c :: s) w -> c <> newline -> c <> space ->
    exists s', w = c :: s' /\ respaced P (free c) s s'.
  Proof.
    intros H Hn Hs. remember (c :: s) as x eqn:E. destruct H as [|g0 d x x' _ _ H|n n' x x' Hq Hp _ _ _ _|g0 n n' x x' _ _ _ _]; try discriminate E.
    - injection E as -> ->. eauto.
    - destruct (spaces_of_pos n Hp) as [m Em]. rewrite Em in E. injection E as E _. congruence.
    - injection E as E _. congruence.
  Qed.
  Lemma rs_newline g n s w : respaced P g (newline :: spaces_of n ++ s) w -> ends is_gap s ->
    exists n' s', w = newline :: spaces_of n' ++ s' /\ respaced P true s s' /\ (no_trivia s -> P n n') /\ ends is_gap s'.
  Proof.
    intros H Hs. remember (newline :: spaces_of n ++ s) as x eqn:E. destruct H as [|g0 d x x' Hd _ _|m n' x x' Hq Hp _ _ _ _|g0 m n' x x' Hm He He' H]; try discriminate E.
    - injection E as -> _. congruence.
    - destruct (spaces_of_pos m Hp) as [k Em]. rewrite Em in E. discriminate E.
    - injection E as E. destruct (spaces_unique _ _ _ _ E He Hs) as [-> ->]. exists n', x'. auto.
  Qed.
  Lemma rs_copied n r w : respaced P false (spaces_of n ++ r) w -> ends is_gap r ->
    exists r', w = spaces_of n ++ r' /\ respaced P true r r'.
  Proof.
    revert w. induction n as [|n IH] using N.peano_ind; intros w H Hr.
    - exists w. split; [reflexivity|]. eapply rs_flag; eassumption.
    - rewrite spaces_of_S in *. cbn [app] in *. remember (space :: spaces_of n ++ r) as x eqn:E.
      remember false as b eqn:Eb. destruct H as [|g d x x' _ _ H|m n' x x' Hq Hp _ _ _ _|]; try discriminate.
      injection E as -> ->. subst g. change (free space) with false in H. destruct (IH _ H Hr) as (r' & -> & H').
      exists r'. auto.
  Qed.
  Lemma rs_weaken g s s' : respaced P g s s' -> reindented P s s'.
  Proof.
    destruct g; [auto|]. intros H. destruct (spaces_split s) as (n & r & -> & Hr).
    destruct (rs_copied n r s' H Hr) as (r' & -> & H').
    destruct (N.eq_dec n 0) as [->|Hn]; [exact H'|]. apply rs_gap; try lia; auto. eapply rs_ends; eassumption.
  Qed.
  Lemma rs_spaces g n s w : respaced P g (spaces_of n ++ s) w -> ends is_gap s ->
    exists n' s', w = spaces_of n' ++ s' /\ reindented P s s' /\ (n = 0 <-> n' = 0)%N /\ ends is_gap s'.
  Proof.
    intros H Hs. apply rs_weaken in H. destruct (N.eq_dec n 0) as [->|Hn].
    - exists 0%N, w. repeat split; auto. eapply rs_ends; eassumption.
    - remember (spaces_of n ++ s) as x eqn:E. destruct (spaces_of_pos n) as [k Ek]; [lia|]. unfold reindented in H. remember true as b eqn:Eb.
      destruct H as [|g0 d x x' _ Hd _|m n' x x' Hq Hp Hp' He He' H|g0 m n' x x' _ _ _ _].
      + rewrite Ek in E. discriminate E.
      + rewrite Ek in E. injection E as -> _. subst g0. discriminate Hd. reflexivity.
      + destruct (spaces_unique _ _ _ _ E He Hs) as [-> ->]. exists n', x'. repeat split; auto; lia.
      + rewrite Ek in E. discriminate E.
  Qed.
  Lemma rs_refl_line g s : ~ In newline s -> respaced P g s s.
  Proof.
    assert (G : ~ In newline s -> respaced P false s s /\ respaced P true s s).
    { induction s as [|c s IH]; intros H; [split; constructor|].
      assert (F : respaced P false (c :: s) (c :: s)).
      { destruct IH as [I1 I2]; [intros Hs; apply H; right; exact Hs|].
        apply rs_char; auto. { intros ->. apply H. left. reflexivity. } destruct (free c); assumption. }
      split; [exact F|]. apply rs_weaken with (g := false), F. }
    intros H. destruct g; apply G, H.
  Qed.
End P.

Definition anyP : N -> N -> Prop := fun _ _ => True.
Lemma rs_any P g s s' : respaced P g s s' -> respaced anyP g s s'.
Proof. induction 1; [constructor|apply rs_char; auto|apply rs_gap; auto|apply rs_line; auto]. intros _. exact I. Qed.

Lemma rs_dash P g s s' : respaced P g s s' -> (exists r, s = C "-" :: C "-" :: r) -> exists r, s' = C "-" :: C "-" :: r.
Proof.
  intros H (r & ->). destruct (rs_cons _ _ _ _ _ H) as (w & -> & H'); [discriminate|discriminate|].
  destruct (rs_cons _ _ _ _ _ H') as (w' & -> & _); [discriminate|discriminate|]. eauto.
Qed.
Lemma no_trivia_nil : no_trivia []. Proof. exact I. Qed.
Lemma rs_sym_matters P g s s' : respaced P g s s' -> respaced (back P) g s' s /\ (no_trivia s' -> no_trivia s).
Proof.
  intros H. assert (S : respaced (back P) g s' s).
  { induction H as [g|g c s s' Hc Hg H IH|n n' s s' Hq Hn Hn' He He' H IH|g n n' s s' Hm He He' H IH].
    - constructor.
    - apply rs_char; auto.
    - apply rs_gap; auto. intuition.
    - apply rs_line; auto. unfold back. intros Ht. apply Hm.
      pose proof (rs_head _ _ _ _ H) as Hh. destruct s as [|c s], s' as [|c' s']; try tauto. subst c'.
      destruct Ht as (H1 & H2 & H3). split; [exact H1|]. split; [exact H2|].
      intros (-> & r & ->). apply H3. split; [reflexivity|].
      destruct (rs_dash _ _ _ _ H) as (r' & E); [eauto|]. injection E as ->. eauto. }
  split; [exact S|]. intros Ht.
  pose proof (rs_head _ _ _ _ H) as Hh. destruct s as [|c s], s' as [|c' s']; try tauto. subst c'.
  destruct Ht as (H1 & H2 & H3). split; [exact H1|]. split; [exact H2|].
  intros (-> & r & ->). apply H3. split; [reflexivity|].
  destruct (rs_dash _ _ _ _ H) as (r' & E); [eauto|]. injection E as ->. eauto.
Qed.
Lemma rs_sym P g s s' : respaced P g s s' -> respaced (back P) g s' s.
Proof. intros H. apply rs_sym_matters, H. Qed.
Lemma rs_no_trivia P g s s' : respaced P g s s' -> no_trivia s -> no_trivia s'.
Proof. intros H. apply rs_sym in H. apply rs_sym_matters in H. apply H. Qed.

(** a class of characters with spaces *)
Lemma rs_class P f g a a' : f space = true -> respaced P g a a' -> forallb f a = true -> forallb f a' = true.
Proof.
  intros Hf. induction 1 as [g|g c s s' Hc Hg H IH|n n' s s' Hq Hn Hn' He He' H IH|g n n' s s' Hm He He' H IH]; auto.
  - cbn. intros Ha. apply andb_true_iff in Ha as [Hd Ha]. rewrite Hd. auto.
  - rewrite !forallb_app, !forallb_spaces_of by exact Hf. exact IH.
  - cbn. rewrite !forallb_app, !forallb_spaces_of by exact Hf. destruct (f newline); [exact IH|discriminate].
Qed.

Section P.
  Variable P : N -> N -> Prop.
  (** ** Cutting a text *)

  Lemma spaces_prefix n s a b : spaces_of n ++ s = a ++ b -> ends is_gap b ->
    exists a2, a = spaces_of n ++ a2 /\ s = a2 ++ b.
  Proof.
    revert a. induction n as [|n IH] using N.peano_ind; intros a E Hb; [exists a; auto|].
    rewrite spaces_of_S in *. destruct a as [|c a]; cbn [app] in E.
    - subst b. discriminate Hb.
    - injection E as <- E. destruct (IH _ E Hb) as (a2 & -> & ->). exists a2. auto.
  Qed.
  (** before something that is not a space *)
  Lemma rs_cut g a b w : respaced P g (a ++ b) w -> ends is_gap b ->
    exists a' b', w = a' ++ b' /\ respaced anyP g a a' /\ reindented P b b'.
  Proof.
    remember (a ++ b) as s eqn:E. intros H. revert a E.
    induction H as [g|g c s s' Hc Hg H IH|n n' s s' Hq Hn Hn' He He' H IH|g n n' s s' Hm He He' H IH]; intros a E Hb.
    - symmetry in E. apply app_eq_nil in E as [-> ->]. exists [], []. repeat split; constructor.
    - destruct a as [|d a]; cbn [app] in E.
      + subst b. exists [], (c :: s'). split; [reflexivity|]. split; [constructor|].
        apply rs_flag with (g := g); [|exact Hb]. apply rs_char; auto.
      + injection E as <- E. destruct (IH a E Hb) as (a' & b' & -> & Ha & Hb').
        exists (c :: a'), b'. repeat split; auto. apply rs_char; auto.
    - destruct (spaces_prefix _ _ _ _ E Hb) as (a2 & -> & ->).
      destruct (IH a2 eq_refl Hb) as (a' & b' & -> & Ha & Hb').
      exists (spaces_of n' ++ a'), b'. rewrite app_assoc. repeat split; auto.
      assert (H2 : ends is_gap a2) by (destruct a2; [exact I|exact He]).
      apply rs_gap; auto. eapply rs_ends; eassumption.
    - destruct a as [|d a]; cbn [app] in E.
      + subst b. exists [], (newline :: spaces_of n' ++ s'). repeat split; [constructor|]. apply rs_line; auto.
      + injection E as <- E. destruct (spaces_prefix _ _ _ _ E Hb) as (a2 & -> & ->).
        destruct (IH a2 eq_refl Hb) as (a' & b' & -> & Ha & Hb').
        exists (newline :: spaces_of n' ++ a'), b'. cbn [app]. rewrite app_assoc. repeat split; auto.
        assert (H2 : ends is_gap a2) by (destruct a2; [exact I|exact He]).
        apply rs_line; auto; [intros _; exact I|eapply rs_ends; eassumption].
  Qed.
  (** after a word without spaces and line feeds *)
  Definition solid (c : char) : bool := negb (is_space_or_newline c).
  Lemma solid_char c : solid c = true -> c <> newline /\ c <> space.
  Proof. unfold solid, is_space_or_newline. intros H. split; intros ->; discriminate H. Qed.
  Lemma rs_solid a b g w : forallb solid a = true -> respaced P g (a ++ b) w ->
    exists b' g', w = a ++ b' /\ respaced P g' b b'.
  Proof.
    revert g w. induction a as [|c a IH]; intros g w Ha H; [exists w, g; auto|].
    cbn in Ha. apply andb_true_iff in Ha as [Hc Ha]. apply solid_char in Hc as [H1 H2].
    cbn [app] in H. destruct (rs_cons _ _ _ _ _ H H1 H2) as (s' & -> & H').
    destruct (IH _ _ Ha H') as (b' & g' & -> & Hb). exists b', g'. auto.
  Qed.
  Lemma rs_span f s s' a b : f space = true -> reindented P s s' -> span f s = (a, b) ->
    exists a' b', span f s' = (a', b') /\ same_text a a' /\ reindented P b b'.
  Proof.
    intros Hf H E. apply span_longest in E as (-> & Ha & Hb).
    assert (Hg : ends is_gap b).
    { destruct b as [|c b]; [exact I|]. cbn in *. unfold is_gap. destruct (N.eqb_spec c space); [congruence|reflexivity]. }
    destruct (rs_cut _ _ _ _ H Hg) as (a' & b' & -> & Ha' & Hb'). exists a', b'. split; [|auto].
    apply span_all; [|eapply rs_ends; eassumption].
    eapply rs_class; eassumption.
  Qed.
End P.

(** ** Two runs

    [rel P RA s s' x x']: on respaced inputs [s] and [s'] the two outcomes agree. *)
Definition rel {A B} (P : N -> N -> Prop) (RA : A -> B -> Prop) (s s' : str) (x : res A) (y : res B) : Prop :=
  match x, y with
  | Ok r a, Ok r' b => RA a b /\ reindented P r r' /\ exists t t', s = t ++ r /\ s' = t' ++ r' /\ (t = [] <-> t' = [])
  | Err, Err => True
  | Abort _, _ => True
  | _, Abort _ => True
  | _, _ => False
  end.
Definition sim {A B} P (RA : A -> B -> Prop) (p : parser A) (q : parser B) : Prop :=
  forall s s', reindented P s s' -> rel P RA s s' (p s) (q s').
Definition fw {A B} P (RA : A -> B -> Prop) (p : parser A) (q : parser B) : Prop :=
  forall s s' r a, reindented P s s' -> p s = Ok r a ->
  exists r' b t t', q s' = Ok r' b /\ RA a b /\ reindented P r r' /\ s = t ++ r /\ s' = t' ++ r' /\ (t = [] <-> t' = []).

Definition opt_rel {A B} (R : A -> B -> Prop) (o : option A) (o' : option B) : Prop :=
  match o, o' with Some a, Some b => R a b | None, None => True | _, _ => False end.
Definition any {A B} (_ : A) (_ : B) : Prop := True.

Section Combinators.
  Variable P : N -> N -> Prop.

  Lemma sim_fw {A B} (RA : A -> B -> Prop) (RB : B -> A -> Prop) p q : fw P RA p q -> fw (back P) RB q p -> sim P RA p q.
  Proof.
    intros H1 H2 s s' H. unfold rel. destruct (p s) as [r a| |] eqn:Ep; auto.
    - destruct (H1 _ _ _ _ H Ep) as (r' & b & t & t' & -> & Hb & Hr & Hs & Hs' & Ht). eauto 10.
    - destruct (q s') as [r' b| |] eqn:Eq; auto.
      destruct (H2 _ _ _ _ (rs_sym _ _ _ _ H) Eq) as (r & a & t & t' & E & _). congruence.
  Qed.
  Lemma sim_weak {A B} (RA RB : A -> B -> Prop) p q : (forall a b, RA a b -> RB a b) -> sim P RA p q -> sim P RB p q.
  Proof.
    intros HR H s s' Hs. specialize (H s s' Hs). unfold rel in *. destruct (p s), (q s'); auto. destruct H as (H1 & H2). auto.
  Qed.
  Lemma sim_ext {A B} (RA : A -> B -> Prop) p q p' q' : (forall s, p s = p' s) -> (forall s, q s = q' s) -> sim P RA p' q' -> sim P RA p q.
  Proof. intros H1 H2 H s s' Hs. rewrite H1, H2. apply H, Hs. Qed.

  Lemma rel_bind {A B A' B'} (RA : A -> A' -> Prop) (RB : B -> B' -> Prop) p p' f f' s s' :
    rel P RA s s' (p s) (p' s') -> (forall a a', RA a a' -> sim P RB (f a) (f' a')) ->
    rel P RB s s' (bind p f s) (bind p' f' s').
  Proof.
    intros Hp Hf. unfold bind, rel in *.
    destruct (p s) as [r a| |]; destruct (p' s') as [r' a'| |]; try tauto.
    - destruct Hp as (Ha & Hr & t & t' & -> & -> & Ht). specialize (Hf a a' Ha r r' Hr). unfold rel in Hf.
      destruct (f a r) as [r1 b| |]; destruct (f' a' r') as [r1' b'| |]; try tauto.
      destruct Hf as (Hb & Hr1 & u & u' & -> & -> & Hu). split; [exact Hb|]. split; [exact Hr1|].
      exists (t ++ u), (t' ++ u'). rewrite !app_assoc. split; [reflexivity|]. split; [reflexivity|].
      split; intros E; apply app_eq_nil in E as [E1 E2]; apply Ht in E1; apply Hu in E2; subst; reflexivity.
    - destruct (f a r); exact I.
  Qed.
  Lemma sim_bind {A B A' B'} (RA : A -> A' -> Prop) (RB : B -> B' -> Prop) p p' f f' :
    sim P RA p p' -> (forall a a', RA a a' -> sim P RB (f a) (f' a')) -> sim P RB (bind p f) (bind p' f').
  Proof. intros Hp Hf s s' Hs. eapply rel_bind; [apply Hp, Hs|exact Hf]. Qed.
  Lemma sim_ret {A B} (RA : A -> B -> Prop) a b : RA a b -> sim P RA (ret a) (ret b).
  Proof. intros H s s' Hs. cbn. split; [exact H|]. split; [exact Hs|]. exists [], []. tauto. Qed.
  Lemma sim_map {A B A' B'} (RA : A -> A' -> Prop) (RB : B -> B' -> Prop) f f' p p' :
    sim P RA p p' -> (forall a a', RA a a' -> RB (f a) (f' a')) -> sim P RB (map_ f p) (map_ f' p').
  Proof.
    intros Hp Hf s s' Hs. specialize (Hp s s' Hs). unfold map_, rel in *. destruct (p s), (p' s'); auto.
    destruct Hp as [H1 H2]. auto.
  Qed.
  Lemma sim_value {A A' B B'} (RA : A -> A' -> Prop) (RB : B -> B' -> Prop) b b' p p' : sim P RA p p' -> RB b b' -> sim P RB (value b p) (value b' p').
  Proof. intros Hp Hb. unfold value. eapply sim_map; [exact Hp|]. auto. Qed.
  Lemma sim_map_res {A B A' B'} (RA : A -> A' -> Prop) (RB : B -> B' -> Prop) f f' p p' :
    sim P RA p p' -> (forall a a', RA a a' -> opt_rel RB (f a) (f' a')) -> sim P RB (map_res f p) (map_res f' p').
  Proof.
    intros Hp Hf s s' Hs. specialize (Hp s s' Hs). unfold map_res, rel in *.
    destruct (p s) as [r a| |]; destruct (p' s') as [r' a'| |]; auto; try tauto.
    - destruct Hp as [H1 H2]. specialize (Hf _ _ H1). unfold opt_rel in Hf. destruct (f a), (f' a'); auto.
    - destruct (f a); exact I.
  Qed.
  Lemma sim_alt {A B} (RA : A -> B -> Prop) p p' q q' : sim P RA p p' -> sim P RA q q' -> sim P RA (p <|> q) (p' <|> q').
  Proof.
    intros Hp Hq s s' Hs. pose proof (Hq s s' Hs) as H2. specialize (Hp s s' Hs). unfold alt, rel in *.
    destruct (p s), (p' s'); auto; try tauto. destruct (q s); auto.
  Qed.
  Lemma sim_opt {A B} (RA : A -> B -> Prop) p p' : sim P RA p p' -> sim P (opt_rel RA) (opt p) (opt p').
  Proof.
    intros Hp s s' Hs. specialize (Hp s s' Hs). unfold opt, rel in *. destruct (p s), (p' s'); auto; try tauto.
    cbn. split; [exact I|]. split; [exact Hs|]. exists [], []. tauto.
  Qed.
  Lemma sim_preceded {A B A' B'} (RA : A -> A' -> Prop) (RB : B -> B' -> Prop) p p' q q' :
    sim P RA p p' -> sim P RB q q' -> sim P RB (preceded p q) (preceded p' q').
  Proof. intros Hp Hq. eapply sim_bind; [exact Hp|]. intros _ _ _. exact Hq. Qed.
  Lemma sim_terminated {A B A' B'} (RA : A -> A' -> Prop) (RB : B -> B' -> Prop) p p' q q' :
    sim P RA p p' -> sim P RB q q' -> sim P RA (terminated p q) (terminated p' q').
  Proof.
    intros Hp Hq. eapply sim_bind; [exact Hp|]. intros a a' Ha. eapply sim_bind; [exact Hq|].
    intros _ _ _. apply sim_ret, Ha.
  Qed.
  Lemma sim_delimited {A B D A' B' D'} (RA : A -> A' -> Prop) (RB : B -> B' -> Prop) (RD : D -> D' -> Prop) p p' q q' t t' :
    sim P RA p p' -> sim P RB q q' -> sim P RD t t' -> sim P RB (delimited p q t) (delimited p' q' t').
  Proof.
    intros Hp Hq Ht. eapply sim_bind; [exact Hp|]. intros _ _ _. eapply sim_bind; [exact Hq|].
    intros b b' Hb. eapply sim_bind; [exact Ht|]. intros _ _ _. apply sim_ret, Hb.
  Qed.

  (** *** repetition *)
  Lemma same_len (t r : str) : (length r =? length (t ++ r)) = match t with [] => true | _ => false end.
  Proof.
    destruct t; [apply Nat.eqb_refl|]. apply Nat.eqb_neq. rewrite app_length. cbn. lia.
  Qed.
  Ltac lens Ht :=
    rewrite !same_len;
    match type of Ht with (?t = [] <-> ?t' = []) =>
      destruct t; destruct t';
      [|exfalso; apply proj1 in Ht; specialize (Ht eq_refl); discriminate Ht
       |exfalso; apply proj2 in Ht; specialize (Ht eq_refl); discriminate Ht|]; cbv iota end.
  Lemma rel_stop {A B} (RA : A -> B -> Prop) s s' : reindented P s s' -> rel P (Forall2 RA) s s' (Ok s []) (Ok s' []).
  Proof. intros Hs. cbn. split; [constructor|]. split; [exact Hs|]. exists [], []. tauto. Qed.
  Lemma rel_more {A B} (RA : A -> B -> Prop) a a' t t' r r' x y :
    RA a a' -> (t = [] <-> t' = []) -> rel P (Forall2 RA) r r' x y ->
    rel P (Forall2 RA) (t ++ r) (t' ++ r') (match x with Ok r l => Ok r (a :: l) | Err => Err | Abort w => Abort w end) (match y with Ok r l => Ok r (a' :: l) | Err => Err | Abort w => Abort w end).
  Proof.
    unfold rel. intros Ha Ht H. destruct x, y; auto. destruct H as (Hl & Hr & u & u' & -> & -> & Hu).
    split; [constructor; assumption|]. split; [exact Hr|]. exists (t ++ u), (t' ++ u'). rewrite !app_assoc.
    split; [reflexivity|]. split; [reflexivity|].
    split; intros E; apply app_eq_nil in E as [E1 E2]; apply Ht in E1; apply Hu in E2; subst; reflexivity.
  Qed.
  Lemma rel_abort {A B} (RA : A -> B -> Prop) s s' x w : rel P RA s s' x (Abort w).
  Proof. destruct x; exact I. Qed.

  Lemma sim_many0 {A B} (RA : A -> B -> Prop) p p' : sim P RA p p' -> sim P (Forall2 RA) (many0 p) (many0 p').
  Proof.
    intros Hp s s' Hs. unfold many0. generalize (S (length s)), (S (length s')). intros n n'. revert n' s s' Hs.
    induction n as [|n IH]; intros [|n'] s s' Hs; try exact I; [apply rel_abort|]. cbn [many0_loop].
    pose proof (Hp s s' Hs) as H. destruct (p s) as [r a| |]; destruct (p' s') as [r' a'| |]; try (destruct H; fail); try exact I; try apply rel_abort.
    - destruct H as (Ha & Hr & t & t' & -> & -> & Ht). lens Ht.
      + apply rel_stop, Hs.
      + apply rel_more; [exact Ha|exact Ht|]. apply IH, Hr.
    - apply rel_stop, Hs.
  Qed.
  Lemma sim_many1_loop {A B} (RA : A -> B -> Prop) p p' n : sim P RA p p' -> forall n' s s', reindented P s s' ->
    rel P (Forall2 RA) s s' (many1_loop n p s) (many1_loop n' p' s').
  Proof.
    intros Hp. induction n as [|n IH]; intros [|n'] s s' Hs; try exact I; [apply rel_abort|]. cbn [many1_loop].
    pose proof (Hp s s' Hs) as H. destruct (p s) as [r a| |]; destruct (p' s') as [r' a'| |]; try (destruct H; fail); try exact I; try apply rel_abort.
    - destruct H as (Ha & Hr & t & t' & -> & -> & Ht). lens Ht.
      + apply rel_stop, Hs.
      + apply rel_more; [exact Ha|exact Ht|]. apply IH, Hr.
    - apply rel_stop, Hs.
  Qed.
  Lemma sim_many1 {A B} (RA : A -> B -> Prop) p p' : sim P RA p p' -> sim P (Forall2 RA) (many1 p) (many1 p').
  Proof.
    intros Hp s s' Hs. unfold many1. pose proof (Hp s s' Hs) as H.
    destruct (p s) as [r a| |]; destruct (p' s') as [r' a'| |]; try (destruct H; fail); try exact I; try apply rel_abort.
    destruct H as (Ha & Hr & t & t' & -> & -> & Ht). apply rel_more; [exact Ha|exact Ht|]. apply sim_many1_loop; assumption.
  Qed.
  Lemma sim_sep_loop {A B D D'} (RA : A -> B -> Prop) (RD : D -> D' -> Prop) sep sep' p p' n :
    sim P RD sep sep' -> sim P RA p p' -> forall n' s s', reindented P s s' ->
    rel P (Forall2 RA) s s' (sep_loop n sep p s) (sep_loop n' sep' p' s').
  Proof.
    intros Hsep Hp. induction n as [|n IH]; intros [|n'] s s' Hs; try exact I; [apply rel_abort|]. cbn [sep_loop].
    pose proof (Hsep s s' Hs) as H. destruct (sep s) as [r a| |]; destruct (sep' s') as [r' a'| |]; try (destruct H; fail); try exact I; try apply rel_abort.
    - destruct H as (_ & Hr & t & t' & -> & -> & Ht). lens Ht.
      + apply rel_stop, Hs.
      + pose proof (Hp r r' Hr) as H. destruct (p r) as [r1 b| |]; destruct (p' r') as [r1' b'| |]; try (destruct H; fail); try exact I; try apply rel_abort.
        * destruct H as (Hb & Hr1 & u & u' & -> & -> & Hu). lens Hu.
          -- apply rel_stop, Hs.
          -- rewrite !app_assoc. apply rel_more; [exact Hb| |apply IH, Hr1]. split; discriminate.
        * apply rel_stop, Hs.
    - apply rel_stop, Hs.
  Qed.
  Lemma sim_separated_list {A B D D'} (RA : A -> B -> Prop) (RD : D -> D' -> Prop) sep sep' p p' :
    sim P RD sep sep' -> sim P RA p p' -> sim P (Forall2 RA) (separated_list sep p) (separated_list sep' p').
  Proof.
    intros Hsep Hp s s' Hs. unfold separated_list. pose proof (Hp s s' Hs) as H.
    destruct (p s) as [r a| |]; destruct (p' s') as [r' a'| |]; try (destruct H; fail); try exact I; try apply rel_abort.
    - destruct H as (Ha & Hr & t & t' & -> & -> & Ht). lens Ht; [exact I|].
      apply rel_more; [exact Ha|exact Ht|]. eapply sim_sep_loop; eassumption.
    - apply rel_stop, Hs.
  Qed.
  Lemma sim_separated_nonempty {A B D D'} (RA : A -> B -> Prop) (RD : D -> D' -> Prop) sep sep' p p' :
    sim P RD sep sep' -> sim P RA p p' -> sim P (Forall2 RA) (separated_nonempty_list sep p) (separated_nonempty_list sep' p').
  Proof.
    intros Hsep Hp s s' Hs. unfold separated_nonempty_list. pose proof (Hp s s' Hs) as H.
    destruct (p s) as [r a| |]; destruct (p' s') as [r' a'| |]; try (destruct H; fail); try exact I; try apply rel_abort.
    destruct H as (Ha & Hr & t & t' & -> & -> & Ht). lens Ht; [exact I|].
    apply rel_more; [exact Ha|exact Ht|]. eapply sim_sep_loop; eassumption.
  Qed.

  (** ** Tokens *)
  Lemma rel_step {A B} (RA : A -> B -> Prop) t t' r r' a b : RA a b -> reindented P r r' -> (t = [] <-> t' = []) ->
    rel P RA (t ++ r) (t' ++ r') (Ok r a) (Ok r' b).
  Proof. intros H1 H2 H3. cbn. split; [exact H1|]. split; [exact H2|]. exists t, t'. auto. Qed.

  Lemma sim_char c : solid c = true -> sim P eq (char_ c) (char_ c).
  Proof.
    intros Hc s s' Hs. pose proof (rs_head _ _ _ _ Hs) as Hh. destruct s as [|d s], s' as [|d' s']; try destruct Hh; [exact I|].
    unfold char_. destruct (N.eqb_spec d c) as [->|]; [|exact I].
    apply solid_char in Hc as [H1 H2]. destruct (rs_cons _ _ _ _ _ Hs H1 H2) as (w & E & H). injection E as ->.
    apply (rel_step eq [c] [c]); [reflexivity| |split; discriminate]. eapply rs_weaken, H.
  Qed.
  Lemma rs_strip u : forallb solid u = true -> forall g s s', respaced P g s s' ->
    match strip u s, strip u s' with Some r, Some r' => exists g', respaced P g' r r' /\ s = u ++ r /\ s' = u ++ r' | None, None => True | _, _ => False end.
  Proof.
    induction u as [|c u IH]; intros Hu g s s' Hs; cbn [strip]; [exists g; auto|].
    cbn in Hu. apply andb_true_iff in Hu as [Hc Hu]. apply solid_char in Hc as [H1 H2].
    pose proof (rs_head _ _ _ _ Hs) as Hh. destruct s as [|d s], s' as [|d' s']; try destruct Hh; [exact I|].
    destruct (N.eqb_spec c d) as [->|]; [|exact I].
    destruct (rs_cons _ _ _ _ _ Hs H1 H2) as (w & E & H). injection E as ->. specialize (IH Hu _ _ _ H).
    destruct (strip u s), (strip u w); auto. destruct IH as (g' & H' & -> & ->). exists g'. auto.
  Qed.
  Lemma sim_tag u : forallb solid u = true -> sim P eq (tag u) (tag u).
  Proof.
    intros Hu s s' Hs. pose proof (rs_strip u Hu _ _ _ Hs) as H. unfold tag, need_more, at_eof.
    destruct (strip u s), (strip u s'); auto. destruct H as (g & H & -> & ->).
    apply rel_step; [reflexivity| |reflexivity]. eapply rs_weaken, H.
  Qed.
  Lemma sim_comma_space : sim P eq (tag (L ", ")) (tag (L ", ")).
  Proof.
    intros s s' Hs. unfold tag, need_more, at_eof. cbn [strip].
    pose proof (rs_head _ _ _ _ Hs) as Hh. destruct s as [|d s], s' as [|d' s']; try destruct Hh; [exact I|].
    destruct (N.eqb_spec (C ",") d) as [<-|]; [|exact I].
    destruct (rs_cons _ _ _ _ _ Hs) as (w & E & H); [discriminate|discriminate|]. injection E as ->.
    change (free (C ",")) with false in H.
    pose proof (rs_head _ _ _ _ H) as Hh. destruct s as [|d s], w as [|d' w]; try destruct Hh; [exact I|].
    destruct (N.eqb_spec (C " ") d) as [<-|]; [|exact I].
    remember false as b eqn:Eb. remember (C " " :: s) as x eqn:Ex. remember (C " " :: w) as y eqn:Ey.
    destruct H as [|g d x x' _ _ H|m n' x x' Hq Hp _ _ _ _|]; try discriminate.
    injection Ex as -> ->. injection Ey as ->. apply (rel_step eq (L ", ") (L ", ")); [reflexivity| |reflexivity].
    eapply rs_weaken, H.
  Qed.
  Lemma same_nil s s' : same_text s s' -> (s = [] <-> s' = []).
  Proof. apply rs_empty. Qed.
  Lemma sim_take_while0 f : f space = true -> sim P same_text (take_while0 f) (take_while0 f).
  Proof.
    intros Hf s s' Hs. unfold take_while0. destruct (span f s) as [a b] eqn:E.
    destruct (rs_span P f s s' a b Hf Hs E) as (a' & b' & E' & Ha & Hb). rewrite E'.
    apply span_longest in E as (-> & _), E' as (-> & _). apply rel_step; auto. apply same_nil, Ha.
  Qed.
  Lemma sim_take_while1 f : f space = true -> sim P same_text (take_while1 f) (take_while1 f).
  Proof.
    intros Hf s s' Hs. unfold take_while1. destruct (span f s) as [a b] eqn:E.
    destruct (rs_span P f s s' a b Hf Hs E) as (a' & b' & E' & Ha & Hb). rewrite E'.
    apply span_longest in E as (-> & _), E' as (-> & _). pose proof (same_nil _ _ Ha) as Hn.
    destruct a, a'; try exact I; try (exfalso; destruct Hn as [Hn1 Hn2]; (specialize (Hn1 eq_refl) || specialize (Hn2 eq_refl)); discriminate).
    apply rel_step; auto.
  Qed.

  (** a token that is a word without spaces and line feeds *)
  Lemma fw_word {A} (p : parser A) (W : str -> A -> Prop) (Z : str -> str -> Prop) :
    (forall s r a, p s = Ok r a <-> exists w, s = w ++ r /\ W w a /\ Z w r) ->
    (forall w a, W w a -> forallb solid w = true) ->
    (forall w g r r', respaced P g r r' -> Z w r -> Z w r') ->
    fw P eq p p.
  Proof.
    intros Hp Hsolid HZ s s' r a Hs H. apply Hp in H as (w & -> & Hw & Hz).
    destruct (rs_solid P w r _ _ (Hsolid _ _ Hw) Hs) as (r' & g' & -> & Hr).
    exists r', a, w, w. split; [apply Hp; eauto 6|]. split; [reflexivity|]. split; [eapply rs_weaken, Hr|]. tauto.
  Qed.
End Combinators.

Lemma sim_word {A} (p : parser A) (W : str -> A -> Prop) (Z : str -> str -> Prop) :
  (forall s r a, p s = Ok r a <-> exists w, s = w ++ r /\ W w a /\ Z w r) ->
  (forall w a, W w a -> forallb solid w = true) ->
  (forall P w g r r', respaced P g r r' -> Z w r -> Z w r') ->
  forall P, sim P eq p p.
Proof. intros H1 H2 H3 P. eapply sim_fw; eapply fw_word; eauto. Qed.

(** names *)
Lemma forallb_impl' (f g : char -> bool) w : (forall c, f c = true -> g c = true) -> forallb f w = true -> forallb g w = true.
Proof. intros H Hw. apply forallb_forall. intros c Hc. apply H. eapply forallb_forall in Hw; eassumption. Qed.
Lemma solid_class f w : (f space = false) -> f newline = false -> forallb f w = true -> forallb solid w = true.
Proof.
  intros H1 H2. apply forallb_impl'. intros c Hc. unfold solid, is_space_or_newline.
  destruct (N.eqb_spec c space); [congruence|]. destruct (N.eqb_spec c newline); [congruence|]. reflexivity.
Qed.

(** ** Layout *)

Lemma has_newline_spaces n : has_newline (spaces_of n) = false.
Proof. apply all_spaces_no_newline, all_spaces_of. Qed.
Lemma trivia_spaces n t : trivia (spaces_of n ++ t) <-> trivia t.
Proof.
  induction n as [|n IH] using N.peano_ind; [reflexivity|]. rewrite spaces_of_S. cbn [app]. rewrite <- IH. split.
  - inversion 1; auto.
  - apply trivia_space.
Qed.
Lemma last_line_tail a b : all_spaces (last_line (a ++ b)) = true -> all_spaces (last_line b) = true.
Proof.
  destruct (has_newline b) eqn:E.
  - rewrite last_line_app_newline by exact E. auto.
  - rewrite last_line_app_plain, all_spaces_app, (last_line_no_newline b) by exact E.
    intros H. apply andb_true_iff in H. apply H.
Qed.
Lemma all_spaces_gap t : all_spaces t = true -> ends is_gap t -> t = [].
Proof.
  destruct t as [|c t]; [auto|]. cbn. unfold is_gap. intros H. apply andb_true_iff in H as [H _]. congruence.
Qed.
Lemma no_trivia_gap r : no_trivia r -> ends is_gap r.
Proof. destruct r as [|c r]; [auto|]. intros (H & _). cbn. unfold is_gap. apply N.eqb_neq, H. Qed.
Lemma ends_app u (t r : str) : ends u t -> ends u r -> ends u (t ++ r).
Proof. destruct t; auto. Qed.

Definition lines_agree (P : N -> N -> Prop) (t t' : str) : Prop :=
  (t = [] <-> t' = []) /\ has_newline t' = has_newline t /\
  all_spaces (last_line t') = all_spaces (last_line t) /\
  (has_newline t = true -> all_spaces (last_line t) = true ->
   P (N.of_nat (length (last_line t))) (N.of_nat (length (last_line t')))).

Lemma agree_spaces P m m' t t' : ends is_gap t -> (m = 0 <-> m' = 0)%N -> lines_agree P t t' ->
  lines_agree P (spaces_of m ++ t) (spaces_of m' ++ t').
Proof.
  intros Hg Hm (H1 & H2 & H3 & H4). unfold lines_agree. rewrite !has_newline_app, !has_newline_spaces. cbn [orb].
  split.
  { split; intros E; apply app_eq_nil in E as [E1 E2].
    - apply H1 in E2. subst t'. destruct (N.eq_dec m 0) as [->|Hne].
      + destruct Hm as [Hm _]. rewrite (Hm eq_refl). reflexivity.
      + destruct (spaces_of_pos m) as [k Ek]; [lia|]. rewrite Ek in E1. discriminate E1.
    - apply H1 in E2. subst t. destruct (N.eq_dec m' 0) as [->|Hne].
      + destruct Hm as [_ Hm]. rewrite (Hm eq_refl). reflexivity.
      + destruct (spaces_of_pos m') as [k Ek]; [lia|]. rewrite Ek in E1. discriminate E1. }
  split; [exact H2|]. destruct (has_newline t) eqn:E.
  - rewrite !last_line_app_newline by congruence. auto.
  - rewrite !last_line_app_plain, !all_spaces_app by congruence.
    rewrite (last_line_no_newline (spaces_of m)), (last_line_no_newline (spaces_of m')) by apply has_newline_spaces.
    rewrite !all_spaces_of. cbn [andb]. rewrite !last_line_no_newline in H3 by congruence. split; [exact H3|]. discriminate.
Qed.
Lemma agree_line (P : N -> N -> Prop) m m' t t' : ends is_gap t -> (t = [] -> P m m') -> lines_agree P t t' ->
  lines_agree P (newline :: spaces_of m ++ t) (newline :: spaces_of m' ++ t').
Proof.
  intros Hg Hm (H1 & H2 & H3 & H4). unfold lines_agree. split; [split; discriminate|].
  change (newline :: spaces_of m ++ t) with ((newline :: spaces_of m) ++ t).
  change (newline :: spaces_of m' ++ t') with ((newline :: spaces_of m') ++ t').
  rewrite !has_newline_app. change (has_newline (newline :: ?x)) with true. cbn [orb]. split; [reflexivity|].
  destruct (has_newline t) eqn:E.
  - rewrite !last_line_app_newline by congruence. auto.
  - rewrite !last_line_app_plain, !all_spaces_app by congruence.
    rewrite !last_line_newline_spaces, !all_spaces_of by apply all_spaces_of. cbn [andb].
    rewrite !last_line_no_newline in H3 by congruence. split; [exact H3|]. intros _ Ht.
    pose proof (all_spaces_gap t Ht Hg) as ->. destruct H1 as [H1 _]. rewrite (H1 eq_refl). rewrite !app_nil_r, !spaces_of_len. auto.
Qed.
Lemma agree_comment P c c' t t' : forallb not_newline c = true -> forallb not_newline c' = true -> line_end t -> lines_agree P t t' ->
  lines_agree P (L "--" ++ c ++ t) (L "--" ++ c' ++ t').
Proof.
  intros Hc Hc' Hl (H1 & H2 & H3 & H4). unfold lines_agree. split; [split; discriminate|].
  rewrite !app_assoc, !has_newline_app. apply not_newline_no_newline in Hc, Hc'. rewrite Hc, Hc'.
  change (has_newline (L "--")) with false. cbn [orb]. split; [exact H2|]. destruct (has_newline t) eqn:E.
  - rewrite !last_line_app_newline by congruence. auto.
  - rewrite !last_line_app_plain, !all_spaces_app by congruence. split; [reflexivity|]. discriminate.
Qed.

Lemma rs_trivia P n : forall t r g w, length t < n -> trivia t -> no_trivia r -> (all_spaces (last_line t) = true \/ r = []) ->
  respaced P g (t ++ r) w -> exists t' r', w = t' ++ r' /\ trivia t' /\ reindented P r r' /\ lines_agree P t t'.
Proof.
  induction n as [|n IH]; intros t r g w Hlen Ht Hr Hc H; [lia|].
  destruct Ht as [|t Ht|t Ht|c t Hn Hl Ht].
  - exists [], w. split; [reflexivity|]. split; [constructor|]. split; [eapply rs_weaken, H|].
    unfold lines_agree. repeat split; auto. discriminate.
  - destruct (spaces_split (space :: t)) as (m & t2 & E & Hg). rewrite E in *.
    assert (Ht2 : trivia t2). { apply (trivia_spaces m). rewrite <- E. constructor. exact Ht. }
    rewrite <- app_assoc in H. pose proof (no_trivia_gap r Hr) as Hrg.
    destruct (rs_spaces _ _ _ _ _ H) as (m' & s' & -> & Hs & Hm & Hg'); [apply ends_app; assumption|].
    destruct (IH t2 r true s') as (t' & r' & -> & Ht' & Hr' & Ha); auto.
    { destruct (N.eq_dec m 0) as [->|Hne]; [cbn in E; rewrite <- E in Hg; discriminate Hg|].
      destruct (spaces_of_pos m) as [k Ek]; [lia|]. rewrite app_length in Hlen. rewrite Ek in Hlen. cbn in Hlen. lia. }
    { destruct Hc as [Hc|Hc]; [left|right; exact Hc]. eapply last_line_tail, Hc. }
    exists (spaces_of m' ++ t'), r'. split; [rewrite app_assoc; reflexivity|]. split; [apply trivia_spaces, Ht'|].
    split; [exact Hr'|]. apply agree_spaces; assumption.
  - destruct (spaces_split t) as (m & t2 & -> & Hg). pose proof (no_trivia_gap r Hr) as Hrg.
    cbn [app] in H. rewrite <- app_assoc in H.
    destruct (rs_newline _ _ _ _ _ H) as (m' & s' & -> & Hs & Hm & Hg'); [apply ends_app; assumption|].
    destruct (IH t2 r true s') as (t' & r' & -> & Ht' & Hr' & Ha); auto.
    { cbn in Hlen. rewrite app_length in Hlen. lia. }
    { apply trivia_spaces in Ht. exact Ht. }
    { destruct Hc as [Hc|Hc]; [left|right; exact Hc]. change (newline :: spaces_of m ++ t2) with ((newline :: spaces_of m) ++ t2) in Hc.
      eapply last_line_tail, Hc. }
    exists (newline :: spaces_of m' ++ t'), r'. split; [cbn [app]; rewrite app_assoc; reflexivity|].
    split; [apply trivia_newline, trivia_spaces, Ht'|]. split; [exact Hr'|]. apply agree_line; auto.
    intros ->. auto.
  - rewrite <- !app_assoc in H. destruct (rs_solid P (L "--") _ _ _ eq_refl H) as (w1 & g1 & -> & H1).
    assert (Hg : ends is_gap (t ++ r)).
    { destruct t as [|d t]; [|cbn in Hl; subst d; reflexivity]. destruct Hc as [Hc| ->]; [|exact I].
      rewrite app_nil_r in Hc. rewrite last_line_no_newline in Hc; [discriminate Hc|].
      rewrite has_newline_app. apply not_newline_no_newline in Hn. rewrite Hn. reflexivity. }
    destruct (rs_cut _ _ _ _ _ H1 Hg) as (c' & w2 & -> & Hc' & H2).
    destruct (IH t r true w2) as (t' & r' & -> & Ht' & Hr' & Ha); auto.
    { rewrite !app_length in Hlen. cbn in Hlen. lia. }
    { destruct Hc as [Hc|Hc]; [left|right; exact Hc]. rewrite app_assoc in Hc. eapply last_line_tail, Hc. }
    assert (Hn' : forallb not_newline c' = true) by (eapply rs_class; [reflexivity|exact Hc'|exact Hn]).
    exists (L "--" ++ c' ++ t'), r'. split; [rewrite <- !app_assoc; reflexivity|]. split.
    + constructor; auto. destruct t as [|d t].
      * destruct Ha as ((Ha & _) & _). rewrite (Ha eq_refl). exact I.
      * cbn in Hl. subst d. destruct t' as [|d t']; [exact I|]. apply rs_head in H2. cbn in H2. symmetry. exact H2.
    + split; [exact Hr'|]. apply agree_comment; assumption.
Qed.

Lemma fw_sp P i i' ir : columns P -> P i i' -> fw P P (spaces_or_new_lines_and_indent i ir) (spaces_or_new_lines_and_indent i' ir).
Proof.
  intros HP Hi s s' r a Hs H. apply sp_iff in H as (t & (-> & Ht & Hr & Hc) & Hne & Hacc & ->).
  destruct (rs_trivia P (S (length t)) t r true s') as (t' & r' & -> & Ht' & Hr' & (A1 & A2 & A3 & A4)); auto.
  assert (Hw : P (width i t) (width i' t')).
  { unfold width. rewrite A2, A3. destruct (all_spaces (last_line t)) eqn:E; [|apply columns_zero, HP].
    destruct (has_newline t) eqn:En; [|exact Hi]. specialize (A4 eq_refl eq_refl).
    destruct (columns_small P HP _ _ A4) as [S1 S2]. rewrite !N.mod_small by assumption. exact A4. }
  exists r', (width i' t'), t, t'. split.
  { apply sp_iff. exists t'. split.
    - split; [reflexivity|]. split; [exact Ht'|]. split; [eapply rs_no_trivia; eassumption|]. rewrite A3.
      destruct Hc as [Hc| ->]; [auto|]. right. eapply rs_nil_l, Hr'.
    - split; [intros E; apply Hne, A1, E|]. split; [|reflexivity].
      unfold accepts in *. rewrite A2.
      pose proof (columns_order P HP _ _ _ _ Hi Hw). pose proof (columns_fun P _ _ _ _ HP Hi Hw).
      pose proof (columns_order P HP _ _ _ _ Hw Hi).
      destruct ir; intros E; specialize (Hacc E); cbn in *; lia. }
  auto.
Qed.
Lemma sim_sp P i i' ir : columns P -> P i i' -> sim P P (spaces_or_new_lines_and_indent i ir) (spaces_or_new_lines_and_indent i' ir).
Proof.
  intros HP Hi. eapply sim_fw; [apply fw_sp; assumption|]. apply fw_sp; [apply columns_back, HP|exact Hi].
Qed.

(** ** Words *)

Lemma solid_name w : forallb is_name_char w = true -> forallb solid w = true.
Proof. apply solid_class; reflexivity. Qed.
Lemma solid_lower n : lower_name n -> forallb solid n = true.
Proof.
  intros [->|[(c & t & -> & Hc & Ht) _]]; [reflexivity|]. apply solid_name. cbn [forallb]. rewrite Ht.
  unfold is_name_char. rewrite Hc. reflexivity.
Qed.
Lemma solid_upper n : upper_name n -> forallb solid n = true.
Proof.
  intros (c & t & -> & Hc & Ht). apply solid_name. cbn [forallb]. rewrite Ht.
  unfold is_name_char. rewrite Hc. destruct (is_lower c); reflexivity.
Qed.
Lemma solid_tyvar n : type_var_name n -> forallb solid n = true.
Proof.
  intros (c & t & -> & Hc & Ht). apply (solid_class is_tyvar_char); [reflexivity|reflexivity|]. cbn [forallb]. rewrite Ht.
  unfold is_tyvar_char. rewrite Hc. reflexivity.
Qed.

Lemma sim_lo_name P : sim P eq lo_name lo_name.
Proof.
  apply (sim_word lo_name (fun w n => w = n /\ lower_name n) (fun w r => w = L "_" \/ ends is_name_char r)).
  - intros s r a. rewrite lo_name_iff. split.
    + intros (-> & H1 & H2). exists a. auto.
    + intros (w & -> & (-> & H1) & H2). auto.
  - intros w a [-> H]. apply solid_lower, H.
  - intros Q w g r r' H [Hw|Hw]; [auto|]. right. eapply rs_ends; eassumption.
Qed.
Lemma sim_up_name P : sim P eq up_name up_name.
Proof.
  apply (sim_word up_name (fun w n => w = n /\ upper_name n) (fun w r => ends is_name_char r)).
  - intros s r a. rewrite up_name_iff. split.
    + intros (-> & H1 & H2). exists a. auto.
    + intros (w & -> & (-> & H1) & H2). auto.
  - intros w a [-> H]. apply solid_upper, H.
  - intros Q w g r r' H Hw. eapply rs_ends; eassumption.
Qed.
Lemma sim_type_variable P : sim P eq type_variable type_variable.
Proof.
  apply (sim_word type_variable (fun w n => n = TypeVariable w /\ type_var_name w) (fun w r => ends is_tyvar_char r)).
  - intros s r a. rewrite type_variable_iff. split.
    + intros (n & -> & -> & H1 & H2). exists n. auto.
    + intros (w & -> & (-> & H1) & H2). exists w. auto.
  - intros w a [-> H]. apply solid_tyvar, H.
  - intros Q w g r r' H Hw. eapply rs_ends; eassumption.
Qed.
Lemma sim_operator P : sim P eq operator operator.
Proof.
  apply (sim_word operator (fun w n => w = n /\ operator_name n) (fun w r => ends is_op_char r)).
  - intros s r a. rewrite operator_iff. split.
    + intros (-> & H1 & H2). exists a. auto.
    + intros (w & -> & (-> & H1) & H2). auto.
  - intros w a [-> (_ & H & _)]. apply (solid_class is_op_char); auto.
  - intros Q w g r r' H Hw. eapply rs_ends; eassumption.
Qed.
Lemma sim_digit P : sim P eq digit digit.
Proof.
  apply (sim_word digit (fun w n => w = n /\ digits1 n) (fun w r => ends is_dec r)).
  - intros s r a. rewrite digit_iff. split.
    + intros (-> & H1 & H2). exists a. auto.
    + intros (w & -> & (-> & H1) & H2). auto.
  - intros w a [-> (_ & H)]. apply (solid_class is_dec); auto.
  - intros Q w g r r' H Hw. eapply rs_ends; eassumption.
Qed.
Lemma is_a_comma_iff s r a : is_a (L ",") s = Ok r a <-> exists w, s = w ++ r /\ (w = a /\ w <> [] /\ forallb (fun c => mem_char c (L ",")) w = true) /\ ends (fun c => mem_char c (L ",")) r.
Proof.
  unfold is_a, take_while1. destruct (span (fun c => mem_char c (L ",")) s) as [x y] eqn:E. split.
  - apply span_longest in E as (-> & H1 & H2). destruct x as [|c x]; [discriminate|]. intros [= <- <-].
    exists (c :: x). repeat split; auto. discriminate.
  - intros (w & -> & (-> & Hne & Hw) & Hr). rewrite (span_all _ _ _ Hw Hr) in E. injection E as <- <-. destruct a; congruence.
Qed.
Lemma sim_commas P : sim P eq (is_a (L ",")) (is_a (L ",")).
Proof.
  eapply sim_word; [apply is_a_comma_iff| |].
  - cbn beta. intros w a (-> & _ & H). eapply solid_class; [| |exact H]; reflexivity.
  - cbn beta. intros Q w g r r' H Hw. eapply rs_ends; eassumption.
Qed.

(** ** Strings, characters, comments *)

Lemma content_spaces n s : string_content (spaces_of n ++ s) <-> string_content s.
Proof.
  induction n as [|n IH] using N.peano_ind; [reflexivity|]. rewrite spaces_of_S. cbn [app]. rewrite <- IH. split.
  - inversion 1; auto.
  - apply sc_char; discriminate.
Qed.
Lemma rs_content P n : forall g s s', length s < n -> respaced P g s s' -> string_content s -> string_content s'.
Proof.
  induction n as [|n IH]; intros g s s' Hlen H Hs; [lia|]. destruct Hs as [|c s Hc Hs|c s Hb Hq Hs|c s Hb Hq Hn Hs].
  - apply rs_nil_l in H. subst. constructor.
  - assert (Hcs : c <> newline /\ c <> space) by (destruct Hc as [-> | ->]; split; discriminate). destruct Hcs as [H1 H2].
    destruct (rs_cons _ _ _ _ _ H) as (w & -> & H'); [discriminate|discriminate|].
    destruct (rs_cons _ _ _ _ _ H' H1 H2) as (w' & -> & H''). apply sc_escape; [exact Hc|].
    eapply IH; [|exact H''|exact Hs]. cbn in Hlen. lia.
  - destruct (rs_cons _ _ _ _ _ H) as (w & -> & H'); [discriminate|discriminate|].
    pose proof (rs_head _ _ _ _ H') as Hh. destruct w as [|c' w]; [destruct Hh|]. subst c'. apply sc_backslash; auto.
    eapply IH; [|exact H'|exact Hs]. cbn in Hlen |- *. lia.
  - destruct (N.eq_dec c space) as [->|Hc].
    + destruct (spaces_split (space :: s)) as (m & s2 & E & Hg). rewrite E in *.
      destruct (rs_spaces _ _ _ _ _ H Hg) as (m' & w & -> & H' & Hm & _). apply content_spaces.
      eapply IH; [|exact H'|].
      * destruct (N.eq_dec m 0) as [->|Hne]; [cbn in E; rewrite <- E in Hg; discriminate Hg|].
        destruct (spaces_of_pos m) as [k Ek]; [lia|]. rewrite app_length in Hlen. rewrite Ek in Hlen. cbn in Hlen. lia.
      * apply (content_spaces m). rewrite <- E. apply sc_char; auto.
    + destruct (rs_cons _ _ _ _ _ H Hn Hc) as (w & -> & H'). apply sc_char; auto.
      eapply IH; [|exact H'|exact Hs]. cbn in Hlen. lia.
Qed.
Lemma fw_single P : fw P same_text single_string single_string.
Proof.
  intros s s' r a Hs H. apply single_string_iff in H as [-> Hc].
  destruct (rs_cons _ _ _ _ _ Hs) as (w & -> & H1); [discriminate|discriminate|].
  destruct (rs_cut _ _ _ _ _ H1) as (c' & w2 & -> & H2 & H3); [reflexivity|].
  destruct (rs_cons _ _ _ _ _ H3) as (w3 & -> & H4); [discriminate|discriminate|].
  exists w3, c', (quote :: a ++ [quote]), (quote :: c' ++ [quote]). split.
  { apply single_string_iff. split; [reflexivity|]. eapply rs_content; [apply le_n|exact H2|exact Hc]. }
  split; [eapply rs_weaken, H2|]. split; [eapply rs_weaken, H4|]. cbn [app]. rewrite <- !app_assoc. cbn [app].
  split; [reflexivity|]. split; [reflexivity|]. split; discriminate.
Qed.
Lemma fw_multi P : fw P same_text multi_string multi_string.
Proof.
  intros s s' r a Hs H. apply multi_string_iff in H as [-> Hc].
  destruct (rs_solid _ quotes3 _ _ _ eq_refl Hs) as (w & g & -> & H1).
  destruct (rs_cut _ _ _ _ _ H1) as (c' & w2 & -> & H2 & H3); [reflexivity|].
  destruct (rs_solid _ quotes3 _ _ _ eq_refl H3) as (w3 & g3 & -> & H4).
  exists w3, c', (quotes3 ++ a ++ quotes3), (quotes3 ++ c' ++ quotes3). split.
  { apply multi_string_iff. split; [reflexivity|]. apply not_quote_iff. apply not_quote_iff in Hc.
    eapply rs_class; [reflexivity|exact H2|exact Hc]. }
  split; [eapply rs_weaken, H2|]. split; [eapply rs_weaken, H4|]. rewrite <- !app_assoc.
  split; [reflexivity|]. split; [reflexivity|]. split; discriminate.
Qed.
Lemma sim_string P : sim P like string_ string_.
Proof.
  apply sim_map with (RA := same_text); [|intros; constructor; assumption]. apply sim_alt.
  - eapply sim_fw; apply fw_multi.
  - eapply sim_fw; apply fw_single.
Qed.

Lemma hex_solid c v : hex_value c v -> solid c = true.
Proof.
  intros H. unfold solid, is_space_or_newline. destruct (N.eqb_spec c space) as [->|]; [exfalso|].
  - destruct H as [[H _]|[[H _]|[H _]]]; discriminate H.
  - destruct (N.eqb_spec c newline) as [->|]; [exfalso|reflexivity]. destruct H as [[H _]|[[H _]|[H _]]]; discriminate H.
Qed.
Lemma fw_character P : columns P -> fw P like character character.
Proof.
  intros HP s s' r a Hs H. apply character_iff in H as (w & c & -> & -> & Hw).
  destruct (rs_cons _ _ _ _ _ Hs) as (w1 & -> & H1); [discriminate|discriminate|]. change (free squote) with false in H1.
  assert (G : exists r', w1 = w ++ squote :: r' /\ reindented P r r').
  { assert (S : forallb solid w = true -> exists r', w1 = w ++ squote :: r' /\ reindented P r r').
    { intros Hso. destruct (rs_solid _ _ _ _ _ Hso H1) as (w2 & g2 & -> & H2).
      destruct (rs_cons _ _ _ _ _ H2) as (w3 & -> & H3); [discriminate|discriminate|].
      exists w3. split; [reflexivity|]. eapply rs_weaken, H3. }
    destruct Hw as [c|c d v w Hc Hd|d w Hd].
    - destruct (N.eq_dec c space) as [->|Hsp]; [|destruct (N.eq_dec c newline) as [->|Hnl]].
      + destruct (rs_copied P 1 _ _ H1) as (w2 & -> & H2); [reflexivity|].
        destruct (rs_cons _ _ _ _ _ H2) as (w3 & -> & H3); [discriminate|discriminate|].
        exists w3. split; [reflexivity|]. eapply rs_weaken, H3.
      + destruct (rs_newline P _ 0 _ _ H1) as (n' & w2 & -> & H2 & Hn & _); [reflexivity|].
        assert (E : n' = 0%N).
        { symmetry. apply (columns_fun P 0 0 0 n' HP); [apply columns_zero, HP| |reflexivity]. apply Hn.
          split; [discriminate|]. split; [discriminate|]. intros [E _]. discriminate E. }
        subst n'. destruct (rs_cons _ _ _ _ _ H2) as (w3 & -> & H3); [discriminate|discriminate|].
        exists w3. split; [reflexivity|]. eapply rs_weaken, H3.
      + apply S. cbn. unfold solid, is_space_or_newline. apply N.eqb_neq in Hsp, Hnl. rewrite Hsp, Hnl. reflexivity.
    - apply S. cbn. rewrite (hex_solid _ _ Hc), (hex_solid _ _ Hd). reflexivity.
    - apply S. cbn. rewrite (hex_solid _ _ Hd). reflexivity. }
  destruct G as (r' & -> & Hr). exists r', (Character c), (squote :: w ++ [squote]), (squote :: w ++ [squote]).
  split; [apply character_iff; exists w, c; auto|]. split; [constructor|]. split; [exact Hr|].
  cbn [app]. rewrite <- !app_assoc. cbn [app]. split; [reflexivity|]. split; [reflexivity|]. reflexivity.
Qed.
Lemma sim_character P : columns P -> sim P like character character.
Proof. intros HP. eapply sim_fw; apply fw_character; [exact HP|apply columns_back, HP]. Qed.

Lemma fw_block P : fw P same_text (preceded (tag (L "{-")) (take_until_and_consume (L "-}"))) (preceded (tag (L "{-")) (take_until_and_consume (L "-}"))).
Proof.
  intros s s' r a Hs H. apply block_comment_iff in H as [-> Hc].
  destruct (rs_solid _ (L "{-") _ _ _ eq_refl Hs) as (w & g & -> & H1).
  destruct (rs_cut _ _ _ _ _ H1) as (c' & w2 & -> & H2 & H3); [reflexivity|].
  destruct (rs_solid _ (L "-}") _ _ _ eq_refl H3) as (w3 & g3 & -> & H4).
  exists w3, c', (L "{-" ++ a ++ L "-}"), (L "{-" ++ c' ++ L "-}"). split.
  { apply block_comment_iff. split; [reflexivity|]. intros (x & y & E). apply Hc. subst c'. apply rs_sym in H2.
    destruct (rs_cut _ _ _ _ _ H2) as (x' & y' & -> & _ & H5); [reflexivity|].
    destruct (rs_solid _ (L "-}") _ _ _ eq_refl H5) as (y2 & g5 & -> & _). exists x', y2. reflexivity. }
  split; [eapply rs_weaken, H2|]. split; [eapply rs_weaken, H4|]. rewrite <- !app_assoc.
  split; [reflexivity|]. split; [reflexivity|]. split; discriminate.
Qed.
Lemma fw_line P : fw P same_text single_line_comment single_line_comment.
Proof.
  intros s s' r a Hs H. apply single_line_comment_iff in H as (-> & Hc & Hr).
  destruct (rs_solid _ (L "--") _ _ _ eq_refl Hs) as (w & g & -> & H1).
  destruct (rs_cut _ _ _ _ _ H1) as (c' & w2 & -> & H2 & H3); [destruct r; [exact I|cbn in Hr; subst; reflexivity]|].
  exists w2, c', (L "--" ++ a), (L "--" ++ c'). split.
  { apply single_line_comment_iff. split; [reflexivity|]. split; [eapply rs_class; [reflexivity|exact H2|exact Hc]|].
    apply not_newline_ends. apply not_newline_ends in Hr. eapply rs_ends; eassumption. }
  split; [eapply rs_weaken, H2|]. split; [exact H3|]. rewrite <- !app_assoc.
  split; [reflexivity|]. split; [reflexivity|]. split; discriminate.
Qed.
Lemma sim_comment P : sim P like_statement comment comment.
Proof.
  apply sim_alt.
  - apply sim_map with (RA := same_text); [|intros; assumption]. eapply sim_fw; apply fw_line.
  - apply sim_map with (RA := same_text); [|intros; assumption]. eapply sim_fw; apply fw_block.
Qed.

(** ** Types *)

Lemma Forall2_is_eq {A} (l l' : list A) : Forall2 eq l l' -> l = l'.
Proof. induction 1; congruence. Qed.
Lemma sim_list_eq {A} P (p q : parser (list A)) : sim P (Forall2 eq) p q -> sim P eq p q.
Proof. apply sim_weak. intros a b. apply Forall2_is_eq. Qed.
Lemma opt_rel_eq {A} (o o' : option A) : opt_rel eq o o' -> o = o'.
Proof. destruct o, o'; cbn; intros H; try destruct H; congruence. Qed.

Ltac sim1 :=
  lazymatch goal with
  | |- sim _ _ (bind _ _) _ => eapply sim_bind; [|intros ? ? ?]
  | |- sim _ _ (preceded _ _) _ => eapply sim_preceded
  | |- sim _ _ (terminated _ _) _ => eapply sim_terminated
  | |- sim _ _ (delimited _ _ _) _ => eapply sim_delimited
  | |- sim _ _ (separated_list _ _) _ => eapply sim_separated_list
  | |- sim _ _ (separated_nonempty_list _ _) _ => eapply sim_separated_nonempty
  | |- sim _ _ (many0 _) _ => eapply sim_many0
  | |- sim _ _ (many1 _) _ => eapply sim_many1
  | |- sim _ _ (opt _) _ => eapply sim_opt
  | |- sim _ _ (alt _ _) _ => apply sim_alt
  | |- sim _ _ (tag _) _ => apply sim_tag; reflexivity
  | |- sim _ _ (char_ _) _ => apply sim_char; reflexivity
  | |- sim _ _ (spaces_or_new_lines_and_indent _ _) _ => apply sim_sp; [assumption|assumption]
  | |- sim _ _ lo_name _ => apply sim_lo_name
  | |- sim _ _ up_name _ => apply sim_up_name
  | |- sim _ _ type_variable _ => apply sim_type_variable
  | |- sim _ _ operator _ => apply sim_operator
  | |- sim _ _ spaces _ => apply sim_take_while1; reflexivity
  | |- sim _ _ spaces_and_newlines _ => apply sim_take_while1; reflexivity
  | |- sim _ _ space1 _ => apply sim_take_while1; reflexivity
  | |- sim _ _ multispace _ => apply sim_take_while1; reflexivity
  | |- sim _ _ multispace0 _ => apply sim_take_while0; reflexivity
  end.
Ltac sims := repeat sim1.

Lemma sim_opt_sp P i i' : columns P -> P i i' -> sim P (opt_rel P) (opt_sp i) (opt_sp i').
Proof. intros HP Hi. unfold opt_sp. sims. Qed.
Lemma sim_comma_sep P i i' : columns P -> P i i' -> sim P eq (comma_sep i) (comma_sep i').
Proof. intros HP Hi. unfold comma_sep. eapply sim_delimited; [apply sim_opt_sp; assumption|sims|apply sim_opt_sp; assumption]. Qed.
Lemma sim_dotted P : sim P eq (separated_nonempty_list (char_ (C ".")) up_name) (separated_nonempty_list (char_ (C ".")) up_name).
Proof. apply sim_list_eq. sims. Qed.

Ltac sim1 ::=
  lazymatch goal with
  | |- sim _ _ (separated_nonempty_list (char_ (C ".")) up_name) _ => apply sim_dotted
  | |- sim _ _ (opt_sp _) _ => apply sim_opt_sp; assumption
  | |- sim _ _ (comma_sep _) _ => apply sim_comma_sep; assumption
  | |- sim _ _ (bind _ _) _ => eapply sim_bind; [|intros ? ? ?]
  | |- sim _ _ (preceded _ _) _ => eapply sim_preceded
  | |- sim _ _ (terminated _ _) _ => eapply sim_terminated
  | |- sim _ _ (delimited _ _ _) _ => eapply sim_delimited
  | |- sim _ _ (separated_list _ _) _ => eapply sim_separated_list
  | |- sim _ _ (separated_nonempty_list _ _) _ => eapply sim_separated_nonempty
  | |- sim _ _ (many0 _) _ => eapply sim_many0
  | |- sim _ _ (many1 _) _ => eapply sim_many1
  | |- sim _ _ (opt _) _ => eapply sim_opt
  | |- sim _ _ (alt _ _) _ => apply sim_alt
  | |- sim _ _ (tag _) _ => apply sim_tag; reflexivity
  | |- sim _ _ (char_ _) _ => apply sim_char; reflexivity
  | |- sim _ _ (spaces_or_new_lines_and_indent _ _) _ => apply sim_sp; [assumption|assumption]
  | |- sim _ _ lo_name _ => apply sim_lo_name
  | |- sim _ _ up_name _ => apply sim_up_name
  | |- sim _ _ type_variable _ => apply sim_type_variable
  | |- sim _ _ operator _ => apply sim_operator
  | |- sim _ _ spaces _ => apply sim_take_while1; reflexivity
  | |- sim _ _ spaces_and_newlines _ => apply sim_take_while1; reflexivity
  | |- sim _ _ space1 _ => apply sim_take_while1; reflexivity
  | |- sim _ _ multispace _ => apply sim_take_while1; reflexivity
  | |- sim _ _ multispace0 _ => apply sim_take_while0; reflexivity
  end.

Section Types.
  Variables T T' : N -> parser type_ast.
  Hypothesis HT : forall P i i', columns P -> P i i' -> sim P eq (T i) (T' i').
  Variable P : N -> N -> Prop.
  Hypothesis HP : columns P.

  Lemma sim_annotation_f i i' : P i i' -> sim P eq (type_annotation_f T i) (type_annotation_f T' i').
  Proof.
    intros Hi. unfold type_annotation_f. apply sim_map_res with (RA := eq).
    - apply sim_list_eq. sims. apply HT; assumption.
    - intros a a' ->. destruct (arrow_of_list a'); cbn; auto.
  Qed.
  Lemma sim_tuple_type_f i i' : P i i' -> sim P eq (type_tuple_f T i) (type_tuple_f T' i').
  Proof.
    intros Hi. unfold type_tuple_f. apply sim_map with (RA := Forall2 eq).
    - sims. apply HT; assumption.
    - intros a a' H. apply Forall2_is_eq in H. congruence.
  Qed.
  Lemma sim_pair_f i i' : P i i' -> sim P eq (type_record_pair_f T i) (type_record_pair_f T' i').
  Proof.
    intros Hi. unfold type_record_pair_f. sims; [apply sim_annotation_f, Hi|]. subst. apply sim_ret. reflexivity.
  Qed.
  Lemma sim_pairs_f i i' : P i i' -> sim P eq (type_record_pairs_f T i) (type_record_pairs_f T' i').
  Proof. intros Hi. unfold type_record_pairs_f. apply sim_list_eq. sims. apply sim_pair_f, Hi. Qed.
  Lemma sim_extension_f i i' : P i i' -> sim P eq (type_record_constructor_f T i) (type_record_constructor_f T' i').
  Proof.
    intros Hi. unfold type_record_constructor_f. sims; [apply sim_pairs_f, Hi|sims]. subst. apply sim_ret. reflexivity.
  Qed.
  Lemma sim_record_type_f i i' : P i i' -> sim P eq (type_record_f T i) (type_record_f T' i').
  Proof.
    intros Hi. unfold type_record_f. sims. eapply sim_map; [apply sim_pairs_f, Hi|]. congruence.
  Qed.
  Lemma sim_parens_type_f i i' : P i i' -> sim P eq (type_parens_f T i) (type_parens_f T' i').
  Proof. intros Hi. unfold type_parens_f. sims. apply sim_annotation_f, Hi. Qed.
  Lemma sim_parameter_f i i' : P i i' -> sim P eq (type_parameter_f T i) (type_parameter_f T' i').
  Proof.
    intros Hi. unfold type_parameter_f. sims.
    - unfold type_constant. eapply sim_map; [sims|]. intros; congruence.
    - apply sim_extension_f, Hi.
    - apply sim_record_type_f, Hi.
    - apply sim_tuple_type_f, Hi.
    - apply sim_parens_type_f, Hi.
  Qed.
  Lemma sim_constructor_f i i' : P i i' -> sim P eq (type_constructor_f T i) (type_constructor_f T' i').
  Proof.
    intros Hi. unfold type_constructor_f. sims.
    - apply sim_parameter_f. assumption.
    - apply sim_ret. eassumption.
    - apply Forall2_is_eq in H0. subst. apply sim_ret. reflexivity.
  Qed.
  Lemma sim_type_f i i' : P i i' -> sim P eq (type_f T i) (type_f T' i').
  Proof.
    intros Hi. unfold type_f. sims.
    - apply sim_constructor_f, Hi.
    - apply sim_extension_f, Hi.
    - apply sim_record_type_f, Hi.
    - apply sim_tuple_type_f, Hi.
    - apply sim_parens_type_f, Hi.
  Qed.
End Types.

Lemma sim_type_n n : forall n' P i i', columns P -> P i i' -> sim P eq (type_n n i) (type_n n' i').
Proof.
  induction n as [|n IH]; intros [|n'] P i i' HP Hi s s' Hs; try exact I; [apply rel_abort|].
  cbn [type_n]. apply sim_type_f; auto.
Qed.
Lemma sim_type P i i' : columns P -> P i i' -> sim P eq (type_ i) (type_ i').
Proof. intros HP Hi s s' Hs. apply sim_type_n; assumption. Qed.
Lemma sim_annotation P i i' : columns P -> P i i' -> sim P eq (type_annotation i) (type_annotation i').
Proof. intros HP Hi. apply sim_annotation_f; [exact sim_type|exact HP|exact Hi]. Qed.
Lemma sim_constructor P i i' : columns P -> P i i' -> sim P eq (type_constructor i) (type_constructor i').
Proof. intros HP Hi. apply sim_constructor_f; [exact sim_type|exact HP|exact Hi]. Qed.

(** ** Expressions *)

Lemma sim_variable P : sim P like variable variable.
Proof.
  unfold variable, lower_case, upper_with_dots, op. sims.
  - eapply sim_map; [sims|]. intros a a' ->. constructor.
  - eapply sim_map; [sims|]. intros a a' ->. constructor.
  - eapply sim_map; [sims; apply sim_commas|]. intros a a' ->. constructor.
Qed.
Lemma sim_access P : sim P like access access.
Proof.
  unfold access. eapply sim_bind; [apply sim_variable|]. intros v v' Hv. sims.
  - apply sim_ret. eassumption.
  - apply Forall2_is_eq in H. subst. apply sim_ret. constructor. exact Hv.
Qed.
Lemma sim_access_function P : sim P like access_function access_function.
Proof. unfold access_function. sims. subst. apply sim_ret. constructor. Qed.
Lemma sim_sign P : sim P eq sign sign.
Proof.
  unfold sign. eapply sim_map; [sims|]. intros a a' H. apply opt_rel_eq in H. rewrite H; reflexivity.
Qed.
Lemma sim_float P : sim P like float float.
Proof.
  unfold float. eapply sim_bind; [apply sim_sign|]. intros a a' ->. eapply sim_bind; [apply sim_digit|]. intros b b' ->. sims.
  - apply sim_digit.
  - subst. apply sim_ret. constructor.
Qed.
Lemma sim_integer P : sim P like integer integer.
Proof.
  unfold integer. eapply sim_bind; [apply sim_sign|]. intros a a' ->. eapply sim_bind; [apply sim_digit|]. intros b b' ->.
  apply sim_ret. constructor.
Qed.
Lemma sim_operator_or_as P : sim P eq operator_or_as operator_or_as.
Proof. unfold operator_or_as. eapply sim_map; [sims|]. congruence. Qed.
Lemma sim_binding_name P : sim P eq binding_name binding_name.
Proof. unfold binding_name. sims. Qed.
Lemma sim_signature P i i' : columns P -> P i i' -> sim P eq (function_signature i) (function_signature i').
Proof.
  intros HP Hi. unfold function_signature. eapply sim_bind; [apply sim_binding_name|]. intros n n' ->. sims.
  - apply sim_annotation; eassumption.
  - subst. apply sim_ret. reflexivity.
Qed.
Lemma application_like l l' : Forall2 like l l' -> opt_rel like (application_of_list l) (application_of_list l').
Proof.
  intros H. destruct H as [|x x' l l' Hx H]; [exact I|]. destruct H as [|y y' l l' Hy H]; [exact Hx|]. cbn.
  assert (G : forall a a', like a a' -> like (fold_left Application l a) (fold_left Application l' a')).
  { clear - H. induction H as [|z z' l l' Hz H IH]; intros a a' Ha; [exact Ha|]. cbn. apply IH. constructor; assumption. }
  apply G. constructor; assumption.
Qed.
Lemma nl_eq i n r : ends is_gap r -> new_line_and_same_indent i (newline :: spaces_of n ++ r) =
  if (n mod 2 ^ 32 =? i)%N then Ok r (n mod 2 ^ 32)%N else Err.
Proof.
  intros Hr. unfold new_line_and_same_indent, map_res, preceded, bind, char_. change (newline =? 10)%N with true. cbv iota.
  unfold map_, spaces0, map_, opt, is_a, take_while1.
  assert (E : span (fun c => mem_char c [32%N]) (spaces_of n ++ r) = (spaces_of n, r)).
  { apply span_all; [apply forallb_spaces_of; reflexivity|]. destruct r as [|c r]; [exact I|]. cbn in *.
    unfold is_gap in Hr. change space with 32%N in Hr. rewrite Hr. reflexivity. }
  rewrite E. unfold len_u32. pose proof (spaces_of_len n) as Hl. destruct (spaces_of n) as [|c x] eqn:Es.
  - cbn in Hl. subst n. cbn [app length] in *. change (N.of_nat 0) with 0%N.
    change (0 mod 2 ^ 32)%N with 0%N. change (0 mod 4294967296)%N with 0%N. destruct (0 =? i)%N; reflexivity.
  - rewrite Hl. change 4294967296%N with (2 ^ 32)%N. destruct (n mod 2 ^ 32 =? i)%N; reflexivity.
Qed.

Lemma no_trivia_dec s : no_trivia s \/ ~ no_trivia s.
Proof.
  destruct s as [|c s]; [left; exact I|]. cbn.
  destruct (N.eq_dec c space); [right; tauto|]. destruct (N.eq_dec c newline); [right; tauto|].
  destruct (N.eq_dec c (C "-")); [|left; tauto].
  destruct s as [|d s]; [left; repeat split; auto; intros [_ [r H]]; discriminate H|].
  destruct (N.eq_dec d (C "-")) as [->|Hd].
  - right. intros (_ & _ & H). apply H. eauto.
  - left. repeat split; auto. intros [_ [r H]]. injection H as H _. congruence.
Qed.

Section NoDefinition.
  Variable E : N -> parser expr.
  (** where there is a signature there is no definition *)
  Lemma term_f_colon i s : term_f E i (C ":" :: s) = Err.
  Proof.
    transitivity (term i (C ":" :: s)); [reflexivity|]. apply term_Err.
    - unfold variable, lower_case, upper_with_dots, op, alt, map_. rewrite lo_name_eq. cbn.
      unfold separated_nonempty_list. rewrite up_name_eq. reflexivity.
    - repeat split; try reflexivity; try discriminate. intros [H|H]; discriminate H.
  Qed.
  Lemma signature_no_definition i s r sg : function_signature i s = Ok r sg -> function_definition_f E i s = Err.
  Proof.
    unfold function_signature, function_definition_f. intros H. unfold bind in *.
    destruct (binding_name s) as [s1 n| |]; [|reflexivity|discriminate H].
    destruct (spaces s1) as [s2 b| |] eqn:Eb; try discriminate H.
    unfold char_ in H at 1. destruct s2 as [|c s2]; [discriminate H|]. destruct (N.eqb_spec c (C ":")) as [->|]; [|discriminate H].
    unfold many0. cbn [many0_loop]. unfold preceded at 1, bind at 1. rewrite Eb, term_f_colon, Eb. reflexivity.
  Qed.
  Lemma definition_f_trivia i s : ends is_gap s -> ~ no_trivia s -> function_definition_f E i s = Err.
  Proof.
    intros Hg H. assert (Hb : binding_name s = Err).
    { destruct s as [|c s]; [exfalso; apply H; exact I|]. unfold binding_name, alt. rewrite lo_name_eq.
      destruct (N.eq_dec c newline) as [->|Hn]; [reflexivity|].
      destruct (N.eq_dec c (C "-")) as [->|Hd]; [reflexivity|].
      exfalso. apply H. split; [intros ->; discriminate Hg|]. split; [exact Hn|]. intros [Hc _]. exact (Hd Hc). }
    unfold function_definition_f, bind at 1. rewrite Hb. reflexivity.
  Qed.
End NoDefinition.

Section Expressions.
  Variables E E' : N -> parser expr.
  Hypothesis HE : forall P i i', columns P -> P i i' -> sim P like (E i) (E' i').
  Variable P : N -> N -> Prop.
  Hypothesis HP : columns P.
  Definition like_field (f f' : str * expr) : Prop := fst f = fst f' /\ like (snd f) (snd f').
  Definition like_pair (f f' : expr * expr) : Prop := like (fst f) (fst f') /\ like (snd f) (snd f').

  Lemma sim_tuple_f i i' : P i i' -> sim P like (tuple_f E i) (tuple_f E' i').
  Proof.
    intros Hi. unfold tuple_f. eapply sim_map; [sims; apply HE; assumption|]. intros l l' Hl. constructor. exact Hl.
  Qed.
  Lemma sim_list_f i i' : P i i' -> sim P like (list_f E i) (list_f E' i').
  Proof.
    intros Hi. unfold list_f. eapply sim_map; [sims; apply HE; assumption|]. intros [l|] [l'|] Hl; try destruct Hl; constructor; auto.
  Qed.
  Lemma sim_record_field_f i i' : P i i' -> sim P like_field (record_field_f E i) (record_field_f E' i').
  Proof.
    intros Hi. unfold record_field_f, separated_pair. sims; [apply HE; assumption|]. apply sim_ret. split; assumption.
  Qed.
  Lemma sim_record_f i i' : P i i' -> sim P like (record_f E i) (record_f E' i').
  Proof.
    intros Hi. unfold record_f. eapply sim_map; [sims; apply sim_record_field_f, Hi|]. intros l l' Hl. constructor. exact Hl.
  Qed.
  Lemma sim_simplified_field : sim P like_field simplified_field simplified_field.
  Proof. unfold simplified_field. sims. apply sim_ret. subst. split; [reflexivity|constructor]. Qed.
  Lemma sim_simplified_record : sim P like simplified_record simplified_record.
  Proof.
    unfold simplified_record. eapply sim_map; [sims; apply sim_simplified_field|]. intros l l' Hl. constructor. exact Hl.
  Qed.
  Lemma sim_update_field_f i i' : P i i' -> sim P like_field (update_field_f E i) (update_field_f E' i').
  Proof. intros Hi. unfold update_field_f. sims; [apply HE; assumption|]. apply sim_ret. split; assumption. Qed.
  Lemma sim_opt_spaces i i' : P i i' -> sim P P (opt_spaces_or_new_lines_and_indent i IR_GTE) (opt_spaces_or_new_lines_and_indent i' IR_GTE).
  Proof.
    intros Hi. unfold opt_spaces_or_new_lines_and_indent. eapply sim_map; [sims|]. intros [a|] [a'|] H; try destruct H; auto.
  Qed.
  Lemma sim_record_update_f i i' : P i i' -> sim P like (record_update_f E i) (record_update_f E' i').
  Proof.
    intros Hi. unfold record_update_f. sims; try (apply sim_opt_spaces, Hi); [apply sim_update_field_f, Hi|].
    subst. apply sim_ret. constructor. assumption.
  Qed.
  Lemma sim_parens_f i i' : P i i' -> sim P like (parens_f E i) (parens_f E' i').
  Proof. intros Hi. unfold parens_f. sims. apply HE; assumption. Qed.
  Lemma sim_term_f i i' : P i i' -> sim P like (term_f E i) (term_f E' i').
  Proof.
    intros Hi. unfold term_f.
    apply sim_alt; [apply sim_access|]. apply sim_alt; [apply sim_variable|]. apply sim_alt; [apply sim_access_function|].
    apply sim_alt; [apply sim_string|]. apply sim_alt; [apply sim_float|]. apply sim_alt; [apply sim_integer|].
    apply sim_alt; [apply sim_character, HP|]. apply sim_alt; [apply sim_parens_f, Hi|].
    apply sim_alt; [apply sim_list_f, Hi|]. apply sim_alt; [apply sim_tuple_f, Hi|].
    apply sim_alt; [apply sim_record_update_f, Hi|]. apply sim_alt; [apply sim_record_f, Hi|]. apply sim_simplified_record.
  Qed.
  Lemma sim_lambda_f i i' : P i i' -> sim P like (lambda_f E i) (lambda_f E' i').
  Proof.
    intros Hi. unfold lambda_f. sims; [apply sim_term_f, Hi|apply HE; eassumption|]. apply sim_ret. constructor; assumption.
  Qed.
  Lemma sim_application_f i i' : P i i' -> sim P like (application_or_var_f E i) (application_or_var_f E' i').
  Proof.
    intros Hi. unfold application_or_var_f. eapply sim_map_res; [sims; apply sim_term_f, Hi|]. apply application_like.
  Qed.
  Lemma sim_definition_f i i' : P i i' -> sim P like_def (function_definition_f E i) (function_definition_f E' i').
  Proof.
    intros Hi. unfold function_definition_f. eapply sim_bind; [apply sim_binding_name|]. intros n n' ->.
    sims; [apply sim_term_f, Hi|apply HE; eassumption|]. apply sim_ret. constructor; assumption.
  Qed.
  Lemma sim_function_f i i' : P i i' -> sim P like_func (function_f E i) (function_f E' i').
  Proof.
    intros Hi s s' Hs.
    pose proof (sim_signature P i i' HP Hi s s' Hs) as Hsig.
    pose proof (sim_definition_f i i' Hi s s' Hs) as Hdef.
    assert (Hnone : (terminated (function_signature i) (new_line_and_same_indent i)) s = Err ->
                    (terminated (function_signature i') (new_line_and_same_indent i')) s' = Err ->
                    rel P like_func s s' (function_f E i s) (function_f E' i' s')).
    { intros E1 E2. unfold function_f, bind at 1 3, opt. rewrite E1, E2.
      eapply rel_bind; [exact Hdef|]. intros d d' Hd. apply sim_ret. constructor. exact Hd. }
    assert (Hab : forall F j w, (exists x, function_signature j w = Abort x) -> exists x, function_f F j w = Abort x).
    { intros F j w [x Hx]. exists x. unfold function_f, bind at 1, opt, terminated, bind at 1. rewrite Hx. reflexivity. }
    destruct (function_signature i s) as [r sg| |] eqn:Es.
    3: { destruct (Hab E i s) as [x ->]; [eauto|]. exact I. }
    - destruct (function_signature i' s') as [r' sg'| |] eqn:Es'.
      2: destruct Hsig.
      2: { destruct (Hab E' i' s') as [x ->]; [eauto|]. apply rel_abort. }
      destruct Hsig as (<- & Hr & t & t' & Et & Et' & Htt).
      destruct r as [|c r].
      { apply rs_nil_l in Hr. subst r'. apply Hnone; unfold terminated, bind; rewrite ?Es, ?Es'; reflexivity. }
      destruct (N.eq_dec c newline) as [->|Hc].
      2: { pose proof (rs_head _ _ _ _ Hr) as Hh. destruct r' as [|c' r']; [destruct Hh|]. subst c'.
           assert (Hn : forall j w, new_line_and_same_indent j (c :: w) = Err).
           { intros j w. unfold new_line_and_same_indent, map_res, preceded, bind, char_. apply N.eqb_neq in Hc. change newline with 10%N in Hc. rewrite Hc. reflexivity. }
           apply Hnone; unfold terminated, bind; rewrite ?Es, ?Es', Hn; reflexivity. }
      destruct (spaces_split r) as (m & r1 & -> & Hr1).
      destruct (rs_newline _ _ _ _ _ Hr Hr1) as (m' & r1' & -> & Hr1' & Hm & He').
      destruct (no_trivia_dec r1) as [Ht|Ht].
      + specialize (Hm Ht). destruct (columns_small P HP _ _ Hm) as [S1 S2].
        assert (Hsame : (m =? i)%N = (m' =? i')%N).
        { apply Bool.eq_true_iff_eq. rewrite !N.eqb_eq. apply (columns_fun P); assumption. }
        unfold function_f. eapply rel_bind with (RA := eq).
        * unfold opt, terminated, bind, ret. rewrite Es, Es', !nl_eq by assumption. rewrite !N.mod_small by assumption. rewrite Hsame.
          destruct (m' =? i')%N.
          -- split; [reflexivity|]. split; [exact Hr1'|]. exists (t ++ newline :: spaces_of m), (t' ++ newline :: spaces_of m').
             rewrite <- !app_assoc. split; [exact Et|]. split; [exact Et'|].
             split; intros Q; apply app_eq_nil in Q as [_ Q]; discriminate Q.
          -- split; [reflexivity|]. split; [exact Hs|]. exists [], []. tauto.
        * intros o o' <-. eapply sim_bind; [apply sim_definition_f, Hi|]. intros d d' Hd. apply sim_ret. constructor. exact Hd.
      + assert (Hf : forall F j w q x y, function_signature j w = Ok (newline :: spaces_of x ++ y) q -> ends is_gap y -> ~ no_trivia y -> function_f F j w = Err).
        { intros F j w q x y H1 H2 H3. unfold function_f, bind at 1, opt, terminated, bind at 1, bind at 1. rewrite H1, nl_eq by exact H2.
          destruct (x mod 2 ^ 32 =? j)%N; unfold ret, bind.
          - rewrite definition_f_trivia; [reflexivity|assumption|assumption].
          - rewrite (signature_no_definition F j w _ _ H1). reflexivity. }
        rewrite (Hf E _ _ _ _ _ Es Hr1 Ht).
        rewrite (Hf E' _ _ _ _ _ Es' He'); [exact I|]. intros H. apply Ht.
        eapply rs_no_trivia; [apply rs_sym, Hr1'|exact H].
    - destruct (function_signature i' s') as [r' sg'| |] eqn:Es'.
      1: destruct Hsig.
      2: { destruct (Hab E' i' s') as [x ->]; [eauto|]. apply rel_abort. }
      apply Hnone; unfold terminated, bind; rewrite ?Es, ?Es'; reflexivity.
  Qed.
  Lemma sim_let_binding_target_f i i' : P i i' -> sim P like (let_binding_target_f E i) (let_binding_target_f E' i').
  Proof.
    intros Hi. unfold let_binding_target_f. apply sim_alt; [apply sim_variable|]. apply sim_alt; [apply sim_list_f, Hi|].
    apply sim_alt; [apply sim_tuple_f, Hi|]. apply sim_simplified_record.
  Qed.
  Lemma sim_let_binding_f i i' : P i i' -> sim P like_entry (let_binding_f E i) (let_binding_f E' i').
  Proof.
    intros Hi. unfold let_binding_f. eapply sim_bind; [apply sim_let_binding_target_f, Hi|]. intros b b' Hb.
    sims; [apply HE; eassumption|]. apply sim_ret. constructor; assumption.
  Qed.
  Lemma sim_let_bindings_f i i' : P i i' -> sim P (Forall2 like_entry) (let_bindings_f E i) (let_bindings_f E' i').
  Proof.
    intros Hi. unfold let_bindings_f. sims; [apply sim_let_binding_f, Hi|].
    eapply sim_map; [apply sim_function_f, Hi|]. intros f f' Hf. constructor. exact Hf.
  Qed.
  Lemma sim_let_expression_f i i' : P i i' -> sim P like (let_expression_f E i) (let_expression_f E' i').
  Proof.
    intros Hi. unfold let_expression_f. sims; [apply sim_let_bindings_f; assumption|apply HE; assumption|].
    apply sim_ret. constructor; assumption.
  Qed.
  Lemma sim_case_f i i' : P i i' -> sim P like_pair (case_f E i) (case_f E' i').
  Proof.
    intros Hi. unfold case_f. eapply sim_bind; [apply HE; eassumption|]. intros b b' Hb.
    sims; [apply HE; eassumption|]. apply sim_ret. split; assumption.
  Qed.
  Lemma sim_cases_f i i' : P i i' -> sim P (Forall2 like_pair) (cases_f E i) (cases_f E' i').
  Proof. intros Hi. unfold cases_f. sims. apply sim_case_f, Hi. Qed.
  Lemma sim_case_expression_f i i' : P i i' -> sim P like (case_expression_f E i) (case_expression_f E' i').
  Proof.
    intros Hi. unfold case_expression_f. sims; try (apply HE; eassumption); sims; try (apply sim_cases_f; eassumption).
    apply sim_ret. constructor; assumption.
  Qed.
  Lemma sim_if_expression_f i i' : P i i' -> sim P like (if_expression_f E i) (if_expression_f E' i').
  Proof.
    intros Hi. unfold if_expression_f. sims; try (apply HE; eassumption); sims; try (apply HE; eassumption); sims; try (apply HE; eassumption).
    apply sim_ret. constructor; assumption.
  Qed.
  Lemma sim_operator_exp_f i i' : P i i' -> sim P (fun x x' => fst x = fst x' /\ like (snd x) (snd x')) (operator_exp_f E i) (operator_exp_f E' i').
  Proof.
    intros Hi. unfold operator_exp_f. sims; try (apply HE; eassumption); [apply sim_operator_or_as|]. apply sim_ret.
    split; assumption.
  Qed.
  Lemma sim_binary_f i i' : P i i' -> sim P like (binary_f E i) (binary_f E' i').
  Proof.
    intros Hi. unfold binary_f. eapply sim_bind; [apply sim_application_f, Hi|]. intros a a' Ha.
    sims; [apply sim_operator_exp_f, Hi|]. destruct a0 as [[o e]|], a'0 as [[o' e']|]; try destruct H; apply sim_ret; [|exact Ha].
    cbn in *. subst. constructor; assumption.
  Qed.
  Lemma sim_expression_f i i' : P i i' -> sim P like (expression_f E i) (expression_f E' i').
  Proof.
    intros Hi. unfold expression_f. apply sim_alt; [apply sim_binary_f, Hi|]. apply sim_alt; [apply sim_let_expression_f, Hi|].
    apply sim_alt; [apply sim_case_expression_f, Hi|]. apply sim_alt; [apply sim_if_expression_f, Hi|]. apply sim_lambda_f, Hi.
  Qed.
End Expressions.

Lemma sim_expression_n n : forall n' P i i', columns P -> P i i' -> sim P like (expression_n n i) (expression_n n' i').
Proof.
  induction n as [|n IH]; intros [|n'] P i i' HP Hi s s' Hs; try exact I; [apply rel_abort|].
  cbn [expression_n]. apply sim_expression_f; auto.
Qed.
Lemma sim_expression P i i' : columns P -> P i i' -> sim P like (expression i) (expression i').
Proof. intros HP Hi s s' Hs. apply sim_expression_n; assumption. Qed.
Lemma sim_function P i i' : columns P -> P i i' -> sim P like_func (function i) (function i').
Proof. intros HP Hi. apply sim_function_f; [exact sim_expression|exact HP|exact Hi]. Qed.

(** ** Statements and files *)

Section Statements.
  Variable P : N -> N -> Prop.
  Hypothesis HP : columns P.
  Hypothesis H1 : P 1%N 1%N.
  Let H0 : P 0%N 0%N := columns_zero P HP.

  Lemma sim_all_export : sim P eq all_export all_export.
  Proof. unfold all_export. eapply sim_map; [sims|]. reflexivity. Qed.
  Lemma sim_function_export : sim P eq function_export function_export.
  Proof. unfold function_export, function_name. eapply sim_map with (RA := eq); [sims|congruence]. eapply sim_map; [sims|auto]. Qed.
  Lemma sim_constructor_subset : sim P eq constructor_subset_exports constructor_subset_exports.
  Proof.
    unfold constructor_subset_exports. eapply sim_map.
    - eapply sim_separated_nonempty; [apply sim_comma_space|]. eapply sim_map with (RB := eq); [sims|]. congruence.
    - intros a a' H. apply Forall2_is_eq in H. congruence.
  Qed.
  Lemma sim_constructor_exports : sim P eq constructor_exports constructor_exports.
  Proof.
    unfold constructor_exports. eapply sim_weak; [intros a b; apply opt_rel_eq|]. sims; [apply sim_all_export|apply sim_constructor_subset].
  Qed.
  Lemma sim_type_export : sim P eq type_export type_export.
  Proof. unfold type_export. sims; [apply sim_constructor_exports|]. subst. apply sim_ret. reflexivity. Qed.
  Lemma sim_subset_export : sim P eq subset_export subset_export.
  Proof.
    unfold subset_export. eapply sim_map; [sims; [apply sim_function_export|apply sim_type_export]|].
    intros a a' H. apply Forall2_is_eq in H. congruence.
  Qed.
  Lemma sim_exports : sim P eq exports exports.
  Proof. unfold exports. sims; [apply sim_all_export|apply sim_subset_export]. Qed.
  Lemma sim_module_name : sim P eq module_name module_name.
  Proof. apply sim_dotted. Qed.
  Lemma sim_sp_gt0 : sim P P sp_gt0 sp_gt0.
  Proof. apply sim_sp; assumption. Qed.
  Ltac st := sims; try apply sim_sp_gt0; try apply sim_module_name; try apply sim_exports; subst; try (apply sim_ret; reflexivity).
  Lemma sim_port_module : sim P like_statement port_module_declaration port_module_declaration.
  Proof. unfold port_module_declaration. st. Qed.
  Lemma sim_effect_field : sim P eq effect_field effect_field.
  Proof. unfold effect_field. st. Qed.
  Lemma sim_effect_module : sim P like_statement effect_module_declaration effect_module_declaration.
  Proof.
    unfold effect_module_declaration. st; [apply sim_comma_space|apply sim_effect_field|].
    match goal with H : Forall2 eq _ _ |- _ => apply Forall2_is_eq in H end. subst. apply sim_ret. reflexivity.
  Qed.
  Lemma sim_module : sim P like_statement module_declaration module_declaration.
  Proof. unfold module_declaration. st. Qed.
  Lemma sim_import : sim P like_statement import_statement import_statement.
  Proof. unfold import_statement. st. repeat match goal with H : opt_rel eq _ _ |- _ => apply opt_rel_eq in H end. subst. apply sim_ret. reflexivity. Qed.
  Lemma sim_alias : sim P like_statement type_alias_declaration type_alias_declaration.
  Proof.
    unfold type_alias_declaration. st; try (apply sim_type; assumption); try (apply sim_annotation; assumption). subst. apply sim_ret. reflexivity.
  Qed.
  Lemma sim_type_declaration : sim P like_statement (type_declaration 0) (type_declaration 0).
  Proof.
    unfold type_declaration. st; try (apply sim_type; assumption); try (apply sim_constructor; assumption).
    match goal with H : Forall2 eq _ _ |- _ => apply Forall2_is_eq in H end. subst. apply sim_ret. reflexivity.
  Qed.
  Lemma sim_port_type : sim P like_statement port_type_declaration port_type_declaration.
  Proof. unfold port_type_declaration. st; try (apply sim_annotation; assumption). subst. apply sim_ret. reflexivity. Qed.
  Lemma sim_port : sim P like_statement port_declaration port_declaration.
  Proof.
    unfold port_declaration. st; try (apply sim_expression; assumption).
    match goal with H : Forall2 eq _ _ |- _ => apply Forall2_is_eq in H end. subst. apply sim_ret. cbn. auto.
  Qed.
  Lemma sim_infix : sim P like_statement infix_declaration infix_declaration.
  Proof.
    unfold infix_declaration. st.
    - eapply sim_value; [sims|reflexivity].
    - eapply sim_value; [sims|reflexivity].
    - eapply sim_value; [sims|reflexivity].
    - eapply sim_map_res with (RB := eq); [apply sim_digit|]. intros u u2 ->. destruct (parse_i64 u2); cbn; auto.
    - subst. apply sim_ret. reflexivity.
  Qed.
  Lemma sim_statement : sim P like_statement statement statement.
  Proof.
    unfold statement. apply sim_alt; [apply sim_port_module|]. apply sim_alt; [apply sim_effect_module|]. apply sim_alt; [apply sim_module|].
    apply sim_alt; [apply sim_import|]. apply sim_alt; [apply sim_alias|]. apply sim_alt; [apply sim_type_declaration|].
    apply sim_alt; [apply sim_port_type|]. apply sim_alt; [apply sim_port|].
    apply sim_alt; [eapply sim_map; [apply sim_function; assumption|intros f f' Hf; exact Hf]|].
    apply sim_alt; [apply sim_infix|]. apply sim_comment.
  Qed.
  Lemma sim_statements : sim P (Forall2 like_statement) statements statements.
  Proof. unfold statements. sims. apply sim_statement. Qed.
  Lemma sim_eof : sim P any eof eof.
  Proof.
    intros s s' Hs. pose proof (rs_empty _ _ _ _ Hs) as He. unfold eof. destruct s, s'; try (exfalso; destruct He as [He1 He2]; first [discriminate (He1 eq_refl)|discriminate (He2 eq_refl)]); [|exact I].
    split; [exact I|]. split; [exact Hs|]. exists [], []. tauto.
  Qed.
  Lemma sim_file : sim P (Forall2 like_statement) file file.
  Proof. unfold file. sims; [apply sim_statements|apply sim_eof]. Qed.
End Statements.
End Gaps.
