(** * Running the parser on two texts side by side

    [sim X RA p q]: on texts in relation [X], [p] and [q] have the same outcome. *)
From Verif Require Import Base Nom.

Definition back (X : str -> str -> Prop) : str -> str -> Prop := fun a b => X b a.

(** ** Two runs

    [rel X RA s s' x x']: on inputs [s] and [s'] the two outcomes agree: both
    succeed with results in relation [RA] and rests in relation [X], or both fail. *)
Definition rel {A B} (X : str -> str -> Prop) (RA : A -> B -> Prop) (s s' : str) (x : res A) (y : res B) : Prop :=
  match x, y with
  | Ok r a, Ok r' b => RA a b /\ X r r' /\ exists t t', s = t ++ r /\ s' = t' ++ r' /\ (t = [] <-> t' = [])
  | Err, Err => True
  | Abort _, _ => True
  | _, Abort _ => True
  | _, _ => False
  end.
Definition sim {A B} (X : str -> str -> Prop) (RA : A -> B -> Prop) (p : parser A) (q : parser B) : Prop :=
  forall s s', X s s' -> rel X RA s s' (p s) (q s').
Definition fw {A B} (X : str -> str -> Prop) (RA : A -> B -> Prop) (p : parser A) (q : parser B) : Prop :=
  forall s s' r a, X s s' -> p s = Ok r a ->
  exists r' b t t', q s' = Ok r' b /\ RA a b /\ X r r' /\ s = t ++ r /\ s' = t' ++ r' /\ (t = [] <-> t' = []).

Definition opt_rel {A B} (R : A -> B -> Prop) (o : option A) (o' : option B) : Prop :=
  match o, o' with Some a, Some b => R a b | None, None => True | _, _ => False end.
Definition any {A B} (_ : A) (_ : B) : Prop := True.

Section Combinators.
  Variable X : str -> str -> Prop.

  Lemma sim_fw {A B} (RA : A -> B -> Prop) (RB : B -> A -> Prop) p q : fw X RA p q -> fw (back X) RB q p -> sim X RA p q.
  Proof.
    intros H1 H2 s s' H. unfold rel. destruct (p s) as [r a| |] eqn:Ep; auto.
    - destruct (H1 _ _ _ _ H Ep) as (r' & b & t & t' & -> & Hb & Hr & Hs & Hs' & Ht). eauto 10.
    - destruct (q s') as [r' b| |] eqn:Eq; auto.
      destruct (H2 _ _ _ _ H Eq) as (r & a & t & t' & E & _). congruence.
  Qed.
  Lemma sim_weak {A B} (RA RB : A -> B -> Prop) p q : (forall a b, RA a b -> RB a b) -> sim X RA p q -> sim X RB p q.
  Proof.
    intros HR H s s' Hs. specialize (H s s' Hs). unfold rel in *. destruct (p s), (q s'); auto. destruct H as (H1 & H2). auto.
  Qed.
  Lemma sim_ext {A B} (RA : A -> B -> Prop) p q p' q' : (forall s, p s = p' s) -> (forall s, q s = q' s) -> sim X RA p' q' -> sim X RA p q.
  Proof. intros H1 H2 H s s' Hs. rewrite H1, H2. apply H, Hs. Qed.

  Lemma rel_bind {A B A' B'} (RA : A -> A' -> Prop) (RB : B -> B' -> Prop) p p' f f' s s' :
    rel X RA s s' (p s) (p' s') -> (forall a a', RA a a' -> sim X RB (f a) (f' a')) ->
    rel X RB s s' (bind p f s) (bind p' f' s').
  Proof.
    intros Hp Hf. unfold bind, rel in *.
    destruct (p s) as [r a| |]; destruct (p' s') as [r' a'| |]; try tauto.
    - destruct Hp as (Ha & Hr & t & t' & -> & -> & Ht). specialize (Hf a a' Ha r r' Hr). unfold rel in Hf.
      destruct (f a r) as [r1 b| |]; destruct (f' a' r') as [r1' b'| |]; try tauto.
      destruct Hf as (Hb & Hr1 & u & u' & -> & -> & Hu). split; [exact Hb|]. split; [exact Hr1|].
      exists (t ++ u), (t' ++ u'). rewrite !app_assoc. split; [reflexivity|]. split; [reflexivity|].
      split; intros E; apply app_eq_nil in E as [E1 E2]; apply Ht in E1; apply Hu in E2; subst; reflexivity.
    - destruct (f a r); exact I.
  Qed.
  Lemma sim_bind {A B A' B'} (RA : A -> A' -> Prop) (RB : B -> B' -> Prop) p p' f f' :
    sim X RA p p' -> (forall a a', RA a a' -> sim X RB (f a) (f' a')) -> sim X RB (bind p f) (bind p' f').
  Proof. intros Hp Hf s s' Hs. eapply rel_bind; [apply Hp, Hs|exact Hf]. Qed.
  Lemma sim_ret {A B} (RA : A -> B -> Prop) a b : RA a b -> sim X RA (ret a) (ret b).
  Proof. intros H s s' Hs. cbn. split; [exact H|]. split; [exact Hs|]. exists [], []. tauto. Qed.
  Lemma sim_map {A B A' B'} (RA : A -> A' -> Prop) (RB : B -> B' -> Prop) f f' p p' :
    sim X RA p p' -> (forall a a', RA a a' -> RB (f a) (f' a')) -> sim X RB (map_ f p) (map_ f' p').
  Proof.
    intros Hp Hf s s' Hs. specialize (Hp s s' Hs). unfold map_, rel in *. destruct (p s), (p' s'); auto.
    destruct Hp as [H1 H2]. auto.
  Qed.
  Lemma sim_value {A A' B B'} (RA : A -> A' -> Prop) (RB : B -> B' -> Prop) b b' p p' : sim X RA p p' -> RB b b' -> sim X RB (value b p) (value b' p').
  Proof. intros Hp Hb. unfold value. eapply sim_map; [exact Hp|]. auto. Qed.
  Lemma sim_map_res {A B A' B'} (RA : A -> A' -> Prop) (RB : B -> B' -> Prop) f f' p p' :
    sim X RA p p' -> (forall a a', RA a a' -> opt_rel RB (f a) (f' a')) -> sim X RB (map_res f p) (map_res f' p').
  Proof.
    intros Hp Hf s s' Hs. specialize (Hp s s' Hs). unfold map_res, rel in *.
    destruct (p s) as [r a| |]; destruct (p' s') as [r' a'| |]; auto; try tauto.
    - destruct Hp as [H1 H2]. specialize (Hf _ _ H1). unfold opt_rel in Hf. destruct (f a), (f' a'); auto.
    - destruct (f a); exact I.
  Qed.
  Lemma sim_alt {A B} (RA : A -> B -> Prop) p p' q q' : sim X RA p p' -> sim X RA q q' -> sim X RA (p <|> q) (p' <|> q').
  Proof.
    intros Hp Hq s s' Hs. pose proof (Hq s s' Hs) as H2. specialize (Hp s s' Hs). unfold alt, rel in *.
    destruct (p s), (p' s'); auto; try tauto. destruct (q s); auto.
  Qed.
  Lemma sim_opt {A B} (RA : A -> B -> Prop) p p' : sim X RA p p' -> sim X (opt_rel RA) (opt p) (opt p').
  Proof.
    intros Hp s s' Hs. specialize (Hp s s' Hs). unfold opt, rel in *. destruct (p s), (p' s'); auto; try tauto.
    cbn. split; [exact I|]. split; [exact Hs|]. exists [], []. tauto.
  Qed.
  Lemma sim_preceded {A B A' B'} (RA : A -> A' -> Prop) (RB : B -> B' -> Prop) p p' q q' :
    sim X RA p p' -> sim X RB q q' -> sim X RB (preceded p q) (preceded p' q').
  Proof. intros Hp Hq. eapply sim_bind; [exact Hp|]. intros _ _ _. exact Hq. Qed.
  Lemma sim_terminated {A B A' B'} (RA : A -> A' -> Prop) (RB : B -> B' -> Prop) p p' q q' :
    sim X RA p p' -> sim X RB q q' -> sim X RA (terminated p q) (terminated p' q').
  Proof.
    intros Hp Hq. eapply sim_bind; [exact Hp|]. intros a a' Ha. eapply sim_bind; [exact Hq|].
    intros _ _ _. apply sim_ret, Ha.
  Qed.
  Lemma sim_delimited {A B D A' B' D'} (RA : A -> A' -> Prop) (RB : B -> B' -> Prop) (RD : D -> D' -> Prop) p p' q q' t t' :
    sim X RA p p' -> sim X RB q q' -> sim X RD t t' -> sim X RB (delimited p q t) (delimited p' q' t').
  Proof.
    intros Hp Hq Ht. eapply sim_bind; [exact Hp|]. intros _ _ _. eapply sim_bind; [exact Hq|].
    intros b b' Hb. eapply sim_bind; [exact Ht|]. intros _ _ _. apply sim_ret, Hb.
  Qed.

  (** *** repetition *)
  Lemma same_len (t r : str) : (length r =? length (t ++ r)) = match t with [] => true | _ => false end.
  Proof.
    destruct t; [apply Nat.eqb_refl|]. apply Nat.eqb_neq. rewrite app_length. cbn. lia.
  Qed.
  Ltac lens Ht :=
    rewrite !same_len;
    match type of Ht with (?t = [] <-> ?t' = []) =>
      destruct t; destruct t';
      [|exfalso; apply proj1 in Ht; specialize (Ht eq_refl); discriminate Ht
       |exfalso; apply proj2 in Ht; specialize (Ht eq_refl); discriminate Ht|]; cbv iota end.
  Lemma rel_stop {A B} (RA : A -> B -> Prop) s s' : X s s' -> rel X (Forall2 RA) s s' (Ok s []) (Ok s' []).
  Proof. intros Hs. cbn. split; [constructor|]. split; [exact Hs|]. exists [], []. tauto. Qed.
  Lemma rel_more {A B} (RA : A -> B -> Prop) a a' t t' r r' x y :
    RA a a' -> (t = [] <-> t' = []) -> rel X (Forall2 RA) r r' x y ->
    rel X (Forall2 RA) (t ++ r) (t' ++ r') (match x with Ok r l => Ok r (a :: l) | Err => Err | Abort w => Abort w end) (match y with Ok r l => Ok r (a' :: l) | Err => Err | Abort w => Abort w end).
  Proof.
    unfold rel. intros Ha Ht H. destruct x, y; auto. destruct H as (Hl & Hr & u & u' & -> & -> & Hu).
    split; [constructor; assumption|]. split; [exact Hr|]. exists (t ++ u), (t' ++ u'). rewrite !app_assoc.
    split; [reflexivity|]. split; [reflexivity|].
    split; intros E; apply app_eq_nil in E as [E1 E2]; apply Ht in E1; apply Hu in E2; subst; reflexivity.
  Qed.
  Lemma rel_abort {A B} (RA : A -> B -> Prop) s s' x w : rel X RA s s' x (Abort w).
  Proof. destruct x; exact I. Qed.

  Lemma sim_many0 {A B} (RA : A -> B -> Prop) p p' : sim X RA p p' -> sim X (Forall2 RA) (many0 p) (many0 p').
  Proof.
    intros Hp s s' Hs. unfold many0. generalize (S (length s)), (S (length s')). intros n n'. revert n' s s' Hs.
    induction n as [|n IH]; intros [|n'] s s' Hs; try exact I; [apply rel_abort|]. cbn [many0_loop].
    pose proof (Hp s s' Hs) as H. destruct (p s) as [r a| |]; destruct (p' s') as [r' a'| |]; try (destruct H; fail); try exact I; try apply rel_abort.
    - destruct H as (Ha & Hr & t & t' & -> & -> & Ht). lens Ht.
      + apply rel_stop, Hs.
      + apply rel_more; [exact Ha|exact Ht|]. apply IH, Hr.
    - apply rel_stop, Hs.
  Qed.
  Lemma sim_many1_loop {A B} (RA : A -> B -> Prop) p p' n : sim X RA p p' -> forall n' s s', X s s' ->
    rel X (Forall2 RA) s s' (many1_loop n p s) (many1_loop n' p' s').
  Proof.
    intros Hp. induction n as [|n IH]; intros [|n'] s s' Hs; try exact I; [apply rel_abort|]. cbn [many1_loop].
    pose proof (Hp s s' Hs) as H. destruct (p s) as [r a| |]; destruct (p' s') as [r' a'| |]; try (destruct H; fail); try exact I; try apply rel_abort.
    - destruct H as (Ha & Hr & t & t' & -> & -> & Ht). lens Ht.
      + apply rel_stop, Hs.
      + apply rel_more; [exact Ha|exact Ht|]. apply IH, Hr.
    - apply rel_stop, Hs.
  Qed.
  Lemma sim_many1 {A B} (RA : A -> B -> Prop) p p' : sim X RA p p' -> sim X (Forall2 RA) (many1 p) (many1 p').
  Proof.
    intros Hp s s' Hs. unfold many1. pose proof (Hp s s' Hs) as H.
    destruct (p s) as [r a| |]; destruct (p' s') as [r' a'| |]; try (destruct H; fail); try exact I; try apply rel_abort.
    destruct H as (Ha & Hr & t & t' & -> & -> & Ht). apply rel_more; [exact Ha|exact Ht|]. apply sim_many1_loop; assumption.
  Qed.
  Lemma sim_sep_loop {A B D D'} (RA : A -> B -> Prop) (RD : D -> D' -> Prop) sep sep' p p' n :
    sim X RD sep sep' -> sim X RA p p' -> forall n' s s', X s s' ->
    rel X (Forall2 RA) s s' (sep_loop n sep p s) (sep_loop n' sep' p' s').
  Proof.
    intros Hsep Hp. induction n as [|n IH]; intros [|n'] s s' Hs; try exact I; [apply rel_abort|]. cbn [sep_loop].
    pose proof (Hsep s s' Hs) as H. destruct (sep s) as [r a| |]; destruct (sep' s') as [r' a'| |]; try (destruct H; fail); try exact I; try apply rel_abort.
    - destruct H as (_ & Hr & t & t' & -> & -> & Ht). lens Ht.
      + apply rel_stop, Hs.
      + pose proof (Hp r r' Hr) as H. destruct (p r) as [r1 b| |]; destruct (p' r') as [r1' b'| |]; try (destruct H; fail); try exact I; try apply rel_abort.
        * destruct H as (Hb & Hr1 & u & u' & -> & -> & Hu). lens Hu.
          -- apply rel_stop, Hs.
          -- rewrite !app_assoc. apply rel_more; [exact Hb| |apply IH, Hr1]. split; discriminate.
        * apply rel_stop, Hs.
    - apply rel_stop, Hs.
  Qed.
  Lemma sim_separated_list {A B D D'} (RA : A -> B -> Prop) (RD : D -> D' -> Prop) sep sep' p p' :
    sim X RD sep sep' -> sim X RA p p' -> sim X (Forall2 RA) (separated_list sep p) (separated_list sep' p').
  Proof.
    intros Hsep Hp s s' Hs. unfold separated_list. pose proof (Hp s s' Hs) as H.
    destruct (p s) as [r a| |]; destruct (p' s') as [r' a'| |]; try (destruct H; fail); try exact I; try apply rel_abort.
    - destruct H as (Ha & Hr & t & t' & -> & -> & Ht). lens Ht; [exact I|].
      apply rel_more; [exact Ha|exact Ht|]. eapply sim_sep_loop; eassumption.
    - apply rel_stop, Hs.
  Qed.
  Lemma sim_separated_nonempty {A B D D'} (RA : A -> B -> Prop) (RD : D -> D' -> Prop) sep sep' p p' :
    sim X RD sep sep' -> sim X RA p p' -> sim X (Forall2 RA) (separated_nonempty_list sep p) (separated_nonempty_list sep' p').
  Proof.
    intros Hsep Hp s s' Hs. unfold separated_nonempty_list. pose proof (Hp s s' Hs) as H.
    destruct (p s) as [r a| |]; destruct (p' s') as [r' a'| |]; try (destruct H; fail); try exact I; try apply rel_abort.
    destruct H as (Ha & Hr & t & t' & -> & -> & Ht). lens Ht; [exact I|].
    apply rel_more; [exact Ha|exact Ht|]. eapply sim_sep_loop; eassumption.
  Qed.

  Lemma rel_step {A B} (RA : A -> B -> Prop) t t' r r' a b : RA a b -> X r r' -> (t = [] <-> t' = []) ->
    rel X RA (t ++ r) (t' ++ r') (Ok r a) (Ok r' b).
  Proof. intros H1 H2 H3. cbn. split; [exact H1|]. split; [exact H2|]. exists t, t'. auto. Qed.
End Combinators.

Lemma Forall2_is_eq {A} (l l' : list A) : Forall2 eq l l' -> l = l'.
Proof. induction 1; congruence. Qed.
Lemma Forall2_is_map {A B} (f : A -> B) l l' : Forall2 (fun a b => b = f a) l l' -> l' = map f l.
Proof. induction 1; cbn; congruence. Qed.
Lemma opt_rel_is_map {A B} (f : A -> B) o o' : opt_rel (fun a b => b = f a) o o' -> o' = option_map f o.
Proof. destruct o, o'; cbn; intros H; try destruct H; congruence. Qed.
Lemma opt_rel_eq {A} (o o' : option A) : opt_rel eq o o' -> o = o'.
Proof. destruct o, o'; cbn; intros H; try destruct H; congruence. Qed.
