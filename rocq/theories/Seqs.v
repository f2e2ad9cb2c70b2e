(** * Inversion of the combinators, and repetition as relations *)
From Verif Require Import Base Nom Good.

Lemma bind_Ok {A B} (p : parser A) (f : A -> parser B) s r b :
  bind p f s = Ok r b <-> exists s' a, p s = Ok s' a /\ f a s' = Ok r b.
Proof.
  unfold bind. split.
  - destruct (p s) as [s' a| |]; try discriminate. intros H. exists s', a. auto.
  - intros (s' & a & -> & H). exact H.
Qed.

Lemma ret_Ok {A} (a : A) s r b : ret a s = Ok r b <-> r = s /\ b = a.
Proof. unfold ret. split; [intros [= <- <-]; auto|intros [-> ->]; reflexivity]. Qed.

Lemma map_Ok {A B} (f : A -> B) p s r b :
  map_ f p s = Ok r b <-> exists a, p s = Ok r a /\ b = f a.
Proof.
  unfold map_. split.
  - destruct (p s) as [s' a| |]; try discriminate. intros [= <- <-]. eauto.
  - intros (a & -> & ->). reflexivity.
Qed.

Lemma map_res_Ok {A B} (f : A -> option B) p s r b :
  map_res f p s = Ok r b <-> exists a, p s = Ok r a /\ f a = Some b.
Proof.
  unfold map_res. split.
  - destruct (p s) as [s' a| |]; try discriminate.
    destruct (f a) eqn:H; try discriminate. intros [= <- <-]. eauto.
  - intros (a & -> & ->). reflexivity.
Qed.

Lemma value_Ok {A B} (b0 : B) (p : parser A) s r b :
  value b0 p s = Ok r b <-> exists a, p s = Ok r a /\ b = b0.
Proof. apply map_Ok. Qed.

Lemma alt_Ok {A} (p q : parser A) s r a :
  (p <|> q) s = Ok r a <-> p s = Ok r a \/ (p s = Err /\ q s = Ok r a).
Proof.
  unfold alt. destruct (p s); split; intros H; try (destruct H as [H|[H H']]); auto; discriminate.
Qed.

Lemma opt_Ok {A} (p : parser A) s r o :
  opt p s = Ok r o <->
  (exists a, p s = Ok r a /\ o = Some a) \/ (p s = Err /\ r = s /\ o = None).
Proof.
  unfold opt. destruct (p s) as [r' a| |]; split; intros H.
  - injection H as <- <-. left; eauto.
  - destruct H as [(a' & [= -> ->] & ->)|(H & _)]; [reflexivity|discriminate].
  - injection H as <- <-. right; auto.
  - destruct H as [(a' & H & _)|(_ & -> & ->)]; [discriminate|reflexivity].
  - discriminate.
  - destruct H as [(a' & H & _)|(H & _)]; discriminate.
Qed.

Lemma preceded_Ok {A B} (p : parser A) (q : parser B) s r b :
  preceded p q s = Ok r b <-> exists s' a, p s = Ok s' a /\ q s' = Ok r b.
Proof. apply bind_Ok. Qed.

Lemma terminated_Ok {A B} (p : parser A) (q : parser B) s r a :
  terminated p q s = Ok r a <-> exists s' b, p s = Ok s' a /\ q s' = Ok r b.
Proof.
  unfold terminated. rewrite bind_Ok. split.
  - intros (s' & a' & H1 & H2). apply bind_Ok in H2 as (s2 & b & H2 & H3).
    apply ret_Ok in H3 as [-> ->]. eauto.
  - intros (s' & b & H1 & H2). exists s', a. split; [exact H1|].
    apply bind_Ok. exists r, b. split; [exact H2|]. apply ret_Ok; auto.
Qed.

Lemma delimited_Ok {A B D} (p : parser A) (q : parser B) (t : parser D) s r b :
  delimited p q t s = Ok r b <->
  exists s1 a s2 d, p s = Ok s1 a /\ q s1 = Ok s2 b /\ t s2 = Ok r d.
Proof.
  unfold delimited. rewrite bind_Ok. split.
  - intros (s1 & a & H1 & H2). apply (terminated_Ok q t) in H2 as (s2 & d & H2 & H3).
    exists s1, a, s2, d. auto.
  - intros (s1 & a & s2 & d & H1 & H2 & H3). exists s1, a. split; [exact H1|].
    apply (terminated_Ok q t). eauto.
Qed.

Lemma separated_pair_Ok {A B D} (p : parser A) (q : parser B) (t : parser D) s r x :
  separated_pair p q t s = Ok r x <->
  exists s1 a s2 b d, p s = Ok s1 a /\ q s1 = Ok s2 b /\ t s2 = Ok r d /\ x = (a, d).
Proof.
  unfold separated_pair. rewrite bind_Ok. split.
  - intros (s1 & a & H1 & H2). apply bind_Ok in H2 as (s2 & b & H2 & H3).
    apply bind_Ok in H3 as (s3 & d & H3 & H4). apply ret_Ok in H4 as [-> ->].
    exists s1, a, s2, b, d. auto.
  - intros (s1 & a & s2 & b & d & H1 & H2 & H3 & ->). exists s1, a. split; [exact H1|].
    apply bind_Ok. exists s2, b. split; [exact H2|]. apply bind_Ok. exists r, d.
    split; [exact H3|]. apply ret_Ok; auto.
Qed.

Lemma tag_Ok t s r a : tag t s = Ok r a <-> s = t ++ r /\ a = t.
Proof.
  unfold tag, need_more, at_eof. destruct (strip t s) as [r'|] eqn:H.
  - apply strip_app in H. subst s. split.
    + intros [= <- <-]; auto.
    + intros [He ->]. apply app_inv_head in He. subst; reflexivity.
  - split; [discriminate|]. intros [-> _].
    assert (strip t (t ++ r) = Some r) by (apply strip_app; reflexivity). congruence.
Qed.

Lemma char_Ok c s r a : char_ c s = Ok r a <-> s = c :: r /\ a = c.
Proof.
  unfold char_, need_more, at_eof. destruct s as [|d s]; [split; [discriminate|intros [H _]; discriminate]|].
  destruct (N.eqb_spec d c) as [->|Hd]; split.
  - intros [= <- <-]; auto.
  - intros [[= ->] ->]; reflexivity.
  - discriminate.
  - intros [[= -> _] _]; congruence.
Qed.

(** ** Repetition *)

Section Sep.
  Context {A B : Type} (sep : parser B) (p : parser A).

  (** no further element *)
  Definition sep_stop (s : str) : Prop :=
    match sep s with
    | Err => True
    | Abort _ => False
    | Ok s2 _ =>
        length s2 = length s \/
        match p s2 with
        | Err => True
        | Abort _ => False
        | Ok s3 _ => length s3 = length s2
        end
    end.

  Inductive seps : str -> list A -> str -> Prop :=
  | seps_stop s : sep_stop s -> seps s [] s
  | seps_more s s2 x s3 a l r :
      sep s = Ok s2 x -> length s2 <> length s ->
      p s2 = Ok s3 a -> length s3 <> length s2 ->
      seps s3 l r -> seps s (a :: l) r.

  Lemma sep_loop_seps n : forall s r l, sep_loop n sep p s = Ok r l -> seps s l r.
  Proof.
    induction n as [|n IH]; intros s r l; cbn [sep_loop]; [discriminate|].
    destruct (sep s) as [s2 x| |] eqn:Hs; try discriminate.
    - destruct (Nat.eqb_spec (length s2) (length s)) as [Hl|Hl].
      + intros [= <- <-]. constructor. unfold sep_stop. rewrite Hs. auto.
      + destruct (p s2) as [s3 a| |] eqn:Hp; try discriminate.
        * destruct (Nat.eqb_spec (length s3) (length s2)) as [Hl3|Hl3].
          -- intros [= <- <-]. constructor. unfold sep_stop. rewrite Hs, Hp. auto.
          -- destruct (sep_loop n sep p s3) as [r' l'| |] eqn:Hn; try discriminate.
             intros [= <- <-]. eapply seps_more; eauto.
        * intros [= <- <-]. constructor. unfold sep_stop. rewrite Hs, Hp. auto.
    - intros [= <- <-]. constructor. unfold sep_stop. rewrite Hs. auto.
  Qed.

  Hypothesis sep_short : forall s s2 x, sep s = Ok s2 x -> length s2 <= length s.
  Hypothesis p_short : forall s s2 x, p s = Ok s2 x -> length s2 <= length s.

  Lemma seps_sep_loop s l r : seps s l r -> forall n, length s < n -> sep_loop n sep p s = Ok r l.
  Proof.
    induction 1 as [s Hst|s s2 x s3 a l r Hs Hl Hp Hl3 Hrest IH]; intros n Hn;
      (destruct n as [|n]; [lia|]); cbn [sep_loop].
    - unfold sep_stop in Hst. destruct (sep s) as [s2 x| |]; try contradiction; auto.
      destruct (Nat.eqb_spec (length s2) (length s)); [reflexivity|].
      destruct Hst as [Hst|Hst]; [contradiction|].
      destruct (p s2) as [s3 a| |]; try contradiction; auto.
      rewrite Hst, Nat.eqb_refl. reflexivity.
    - rewrite Hs. destruct (Nat.eqb_spec (length s2) (length s)); [contradiction|].
      rewrite Hp. destruct (Nat.eqb_spec (length s3) (length s2)); [contradiction|].
      apply sep_short in Hs. apply p_short in Hp. rewrite IH by lia. reflexivity.
  Qed.

  Lemma separated_nonempty_list_intro s s1 a l r :
    p s = Ok s1 a -> length s1 <> length s -> seps s1 l r ->
    separated_nonempty_list sep p s = Ok r (a :: l).
  Proof.
    intros Hp Hl Hs. unfold separated_nonempty_list. rewrite Hp.
    destruct (Nat.eqb_spec (length s1) (length s)); [contradiction|].
    rewrite (seps_sep_loop _ _ _ Hs) by lia. reflexivity.
  Qed.

  Lemma separated_list_intro s s1 a l r :
    p s = Ok s1 a -> length s1 <> length s -> seps s1 l r ->
    separated_list sep p s = Ok r (a :: l).
  Proof.
    intros Hp Hl Hs. unfold separated_list. rewrite Hp.
    destruct (Nat.eqb_spec (length s1) (length s)); [contradiction|].
    rewrite (seps_sep_loop _ _ _ Hs) by lia. reflexivity.
  Qed.
End Sep.

Lemma separated_list_Ok {A B} (sep : parser B) (p : parser A) s r l :
  separated_list sep p s = Ok r l ->
  (l = [] /\ r = s /\ p s = Err) \/
  exists a l' s1, l = a :: l' /\ p s = Ok s1 a /\ length s1 <> length s /\ seps sep p s1 l' r.
Proof.
  unfold separated_list. destruct (p s) as [s1 a| |] eqn:Hp; try discriminate.
  - destruct (Nat.eqb_spec (length s1) (length s)) as [Hl|Hl]; [discriminate|].
    destruct (sep_loop (S (length s1)) sep p s1) as [r' l'| |] eqn:Hn; try discriminate.
    intros [= <- <-]. right. exists a, l', s1. repeat split; auto.
    eapply sep_loop_seps; exact Hn.
  - intros [= <- <-]. left; auto.
Qed.

Lemma separated_nonempty_list_Ok {A B} (sep : parser B) (p : parser A) s r l :
  separated_nonempty_list sep p s = Ok r l ->
  exists a l' s1, l = a :: l' /\ p s = Ok s1 a /\ length s1 <> length s /\ seps sep p s1 l' r.
Proof.
  unfold separated_nonempty_list. destruct (p s) as [s1 a| |] eqn:Hp; try discriminate.
  destruct (Nat.eqb_spec (length s1) (length s)) as [Hl|Hl]; [discriminate|].
  destruct (sep_loop (S (length s1)) sep p s1) as [r' l'| |] eqn:Hn; try discriminate.
  intros [= <- <-]. exists a, l', s1. repeat split; auto.
  eapply sep_loop_seps; exact Hn.
Qed.

Section Many.
  Context {A : Type} (p : parser A).

  Definition many_stop (s : str) : Prop :=
    match p s with
    | Err => True
    | Abort _ => False
    | Ok s2 _ => length s2 = length s
    end.

  Inductive manys : str -> list A -> str -> Prop :=
  | manys_stop s : many_stop s -> manys s [] s
  | manys_more s s2 a l r :
      p s = Ok s2 a -> length s2 <> length s -> manys s2 l r -> manys s (a :: l) r.

  Lemma many0_loop_manys n : forall s r l, many0_loop n p s = Ok r l -> manys s l r.
  Proof.
    induction n as [|n IH]; intros s r l; cbn [many0_loop]; [discriminate|].
    destruct (p s) as [s2 a| |] eqn:Hp; try discriminate.
    - destruct (Nat.eqb_spec (length s2) (length s)) as [Hl|Hl].
      + intros [= <- <-]. constructor. unfold many_stop. rewrite Hp. exact Hl.
      + destruct (many0_loop n p s2) as [r' l'| |] eqn:Hn; try discriminate.
        intros [= <- <-]. eapply manys_more; eauto.
    - intros [= <- <-]. constructor. unfold many_stop. rewrite Hp. exact I.
  Qed.

  Lemma many1_loop_manys n : forall s r l, many1_loop n p s = Ok r l -> manys s l r.
  Proof.
    induction n as [|n IH]; intros s r l; cbn [many1_loop]; [discriminate|].
    destruct (p s) as [s2 a| |] eqn:Hp; try discriminate.
    - destruct (Nat.eqb_spec (length s2) (length s)) as [Hl|Hl].
      + intros [= <- <-]. constructor. unfold many_stop. rewrite Hp. exact Hl.
      + destruct (many1_loop n p s2) as [r' l'| |] eqn:Hn; try discriminate.
        intros [= <- <-]. eapply manys_more; eauto.
    - intros [= <- <-]. constructor. unfold many_stop. rewrite Hp. exact I.
  Qed.

  Hypothesis p_short : forall s s2 x, p s = Ok s2 x -> length s2 <= length s.

  Lemma manys_many0_loop s l r : manys s l r -> forall n, length s < n -> many0_loop n p s = Ok r l.
  Proof.
    induction 1 as [s Hst|s s2 a l r Hp Hl Hrest IH]; intros n Hn;
      (destruct n as [|n]; [lia|]); cbn [many0_loop].
    - unfold many_stop in Hst. destruct (p s) as [s2 a| |]; try contradiction; auto.
      rewrite Hst, Nat.eqb_refl. reflexivity.
    - rewrite Hp. destruct (Nat.eqb_spec (length s2) (length s)); [contradiction|].
      apply p_short in Hp. rewrite IH by lia. reflexivity.
  Qed.

  Lemma manys_many1_loop s l r : manys s l r -> forall n, length s < n -> many1_loop n p s = Ok r l.
  Proof.
    induction 1 as [s Hst|s s2 a l r Hp Hl Hrest IH]; intros n Hn;
      (destruct n as [|n]; [lia|]); cbn [many1_loop].
    - unfold many_stop in Hst. destruct (p s) as [s2 a| |]; try contradiction; auto.
      rewrite Hst, Nat.eqb_refl. reflexivity.
    - rewrite Hp. destruct (Nat.eqb_spec (length s2) (length s)); [contradiction|].
      apply p_short in Hp. rewrite IH by lia. reflexivity.
  Qed.

  Lemma many0_intro s l r : manys s l r -> many0 p s = Ok r l.
  Proof. intros H. unfold many0. apply manys_many0_loop; [exact H|lia]. Qed.

  Lemma many1_intro s s1 a l r : p s = Ok s1 a -> manys s1 l r -> many1 p s = Ok r (a :: l).
  Proof.
    intros Hp H. unfold many1. rewrite Hp.
    rewrite (manys_many1_loop _ _ _ H) by lia. reflexivity.
  Qed.
End Many.

Lemma many0_Ok {A} (p : parser A) s r l : many0 p s = Ok r l -> manys p s l r.
Proof. apply many0_loop_manys. Qed.

Lemma many1_Ok {A} (p : parser A) s r l :
  many1 p s = Ok r l -> exists a l' s1, l = a :: l' /\ p s = Ok s1 a /\ manys p s1 l' r.
Proof.
  unfold many1. destruct (p s) as [s1 a| |] eqn:Hp; try discriminate.
  destruct (many1_loop (S (length s1)) p s1) as [r' l'| |] eqn:Hn; try discriminate.
  intros [= <- <-]. exists a, l', s1. repeat split; auto.
  eapply many1_loop_manys; exact Hn.
Qed.

(** Inversion of all hypotheses [p s = Ok r a] as far as the combinators go. *)
Ltac inv1 :=
  match goal with
  | H : bind _ _ _ = Ok _ _ |- _ =>
      apply bind_Ok in H; let H2 := fresh "H" in
      destruct H as (?s & ?a & H & H2)
  | H : ret _ _ = Ok _ _ |- _ => apply ret_Ok in H; destruct H as [? ?]; subst
  | H : map_ _ _ _ = Ok _ _ |- _ =>
      apply map_Ok in H; destruct H as (?a & H & ?); subst
  | H : value _ _ _ = Ok _ _ |- _ =>
      apply value_Ok in H; destruct H as (?a & H & ?); subst
  | H : map_res _ _ _ = Ok _ _ |- _ =>
      apply map_res_Ok in H; let H2 := fresh "H" in destruct H as (?a & H & H2)
  | H : preceded _ _ _ = Ok _ _ |- _ =>
      apply preceded_Ok in H; let H2 := fresh "H" in destruct H as (?s & ?a & H & H2)
  | H : terminated _ _ _ = Ok _ _ |- _ =>
      apply terminated_Ok in H; let H2 := fresh "H" in destruct H as (?s & ?a & H & H2)
  | H : delimited _ _ _ _ = Ok _ _ |- _ =>
      apply delimited_Ok in H; let H2 := fresh "H" in let H3 := fresh "H" in
      destruct H as (?s & ?a & ?s & ?a & H & H2 & H3)
  | H : separated_pair _ _ _ _ = Ok _ _ |- _ =>
      apply separated_pair_Ok in H; let H2 := fresh "H" in let H3 := fresh "H" in
      destruct H as (?s & ?a & ?s & ?a & ?a & H & H2 & H3 & ?); subst
  | H : char_ _ _ = Ok _ _ |- _ => apply char_Ok in H; destruct H as [? ?]; subst
  | H : tag _ _ = Ok _ _ |- _ => apply tag_Ok in H; destruct H as [? ?]; subst
  end.
Ltac inv := repeat inv1.
