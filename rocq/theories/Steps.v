(** * Two runs that read the same text

    [step X Y p q]: on inputs in relation [X] the two parsers read the same text,
    give the same result, and leave rests in relation [Y]; or both fail. *)
From Verif Require Import Base Nom.

Definition agree {A} (Y : str -> str -> Prop) (s s' : str) (x y : res A) : Prop :=
  match x, y with
  | Ok r a, Ok r' b => a = b /\ Y r r' /\ exists t, s = t ++ r /\ s' = t ++ r'
  | Err, Err => True
  | Abort _, _ => True
  | _, Abort _ => True
  | _, _ => False
  end.
Definition step {A} (X Y : str -> str -> Prop) (p q : parser A) : Prop :=
  forall s s', X s s' -> agree Y s s' (p s) (q s').
Definition no_ok {A} (x : res A) : Prop := match x with Ok _ _ => False | _ => True end.

Lemma agree_abort {A} Y s s' (x : res A) w : agree Y s s' x (Abort w).
Proof. destruct x; exact I. Qed.
Lemma agree_fail {A} Y s s' (x y : res A) : no_ok x -> no_ok y -> agree Y s s' x y.
Proof. destruct x, y; cbn; tauto. Qed.
Lemma agree_weak {A} (Y Y' : str -> str -> Prop) s s' (x y : res A) : (forall r r', Y r r' -> Y' r r') -> agree Y s s' x y -> agree Y' s s' x y.
Proof. intros H. destruct x, y; cbn; auto. intros (H1 & H2 & H3). auto. Qed.
Lemma agree_shift {A} Y t s s' (x y : res A) : agree Y s s' x y -> agree Y (t ++ s) (t ++ s') x y.
Proof.
  destruct x, y; cbn; auto. intros (H1 & H2 & u & -> & ->). split; [exact H1|]. split; [exact H2|].
  exists (t ++ u). rewrite !app_assoc. auto.
Qed.
Lemma step_weak {A} (X X' Y Y' : str -> str -> Prop) (p q : parser A) :
  (forall s s', X' s s' -> X s s') -> (forall s s', Y s s' -> Y' s s') -> step X Y p q -> step X' Y' p q.
Proof. intros H1 H2 H s s' Hs. eapply agree_weak; [exact H2|]. apply H, H1, Hs. Qed.
Lemma step_in {A} (X X' Y : str -> str -> Prop) (p q : parser A) :
  (forall s s', X' s s' -> X s s') -> step X Y p q -> step X' Y p q.
Proof. intros H1 H. eapply step_weak; eauto. Qed.
Lemma step_out {A} (X Y Y' : str -> str -> Prop) (p q : parser A) :
  (forall s s', Y s s' -> Y' s s') -> step X Y p q -> step X Y' p q.
Proof. intros H1 H. eapply step_weak; eauto. Qed.

Lemma step_bind {A B} X Y Z (p p' : parser A) (f f' : A -> parser B) :
  step X Y p p' -> (forall a, step Y Z (f a) (f' a)) -> step X Z (bind p f) (bind p' f').
Proof.
  intros Hp Hf s s' Hs. specialize (Hp s s' Hs). unfold bind. destruct (p s) as [r a| |]; destruct (p' s') as [r' b| |]; cbn in Hp; try tauto; try apply agree_abort.
  destruct Hp as (<- & Hr & t & -> & ->). apply agree_shift, Hf, Hr.
Qed.
Lemma step_ret {A} (X : str -> str -> Prop) (a : A) : step X X (ret a) (ret a).
Proof. intros s s' Hs. cbn. split; [reflexivity|]. split; [exact Hs|]. exists []. auto. Qed.
Lemma step_map {A B} X Y (f : A -> B) p p' : step X Y p p' -> step X Y (map_ f p) (map_ f p').
Proof.
  intros Hp s s' Hs. specialize (Hp s s' Hs). unfold map_. destruct (p s), (p' s'); cbn in *; auto.
  destruct Hp as (<- & H). auto.
Qed.
Lemma step_value {A B} X Y (b : B) (p p' : parser A) : step X Y p p' -> step X Y (value b p) (value b p').
Proof. apply step_map. Qed.
Lemma step_map_res {A B} X Y (f : A -> option B) p p' : step X Y p p' -> step X Y (map_res f p) (map_res f p').
Proof.
  intros Hp s s' Hs. specialize (Hp s s' Hs). unfold map_res. destruct (p s) as [r a| |], (p' s') as [r' a'| |]; cbn in *; try tauto; try apply agree_abort.
  destruct Hp as (<- & H). destruct (f a); cbn; auto.
Qed.
Lemma step_alt {A} X Y (p p' q q' : parser A) : step X Y p p' -> step X Y q q' -> step X Y (p <|> q) (p' <|> q').
Proof.
  intros Hp Hq s s' Hs. specialize (Hq s s' Hs). specialize (Hp s s' Hs). unfold alt.
  destruct (p s), (p' s'); cbn in *; try tauto; try apply agree_abort.
Qed.
Lemma step_opt {A} X (p p' : parser A) : step X X p p' -> step X X (opt p) (opt p').
Proof.
  intros Hp s s' Hs. specialize (Hp s s' Hs). unfold opt. destruct (p s), (p' s'); cbn in *; try tauto.
  - destruct Hp as (<- & H). auto.
  - split; [reflexivity|]. split; [exact Hs|]. exists []. auto.
Qed.
Lemma step_preceded {A B} X Y Z (p p' : parser A) (q q' : parser B) : step X Y p p' -> step Y Z q q' -> step X Z (preceded p q) (preceded p' q').
Proof. intros Hp Hq. eapply step_bind; [exact Hp|]. intros _. exact Hq. Qed.
Lemma step_terminated {A B} X Y Z (p p' : parser A) (q q' : parser B) : step X Y p p' -> step Y Z q q' -> step X Z (terminated p q) (terminated p' q').
Proof. intros Hp Hq. eapply step_bind; [exact Hp|]. intros a. eapply step_bind; [exact Hq|]. intros _. apply step_ret. Qed.
Lemma step_delimited {A B D} X Y Z W (p p' : parser A) (q q' : parser B) (t t' : parser D) :
  step X Y p p' -> step Y Z q q' -> step Z W t t' -> step X W (delimited p q t) (delimited p' q' t').
Proof.
  intros Hp Hq Ht. eapply step_bind; [exact Hp|]. intros _. eapply step_bind; [exact Hq|]. intros b.
  eapply step_bind; [exact Ht|]. intros _. apply step_ret.
Qed.

(** ** repetition *)
Lemma read_len (t r : str) : (length r =? length (t ++ r)) = match t with [] => true | _ => false end.
Proof. destruct t; [apply Nat.eqb_refl|]. apply Nat.eqb_neq. rewrite app_length. cbn. lia. Qed.
Lemma agree_stop {A} (X : str -> str -> Prop) s s' (a : A) : X s s' -> agree X s s' (Ok s a) (Ok s' a).
Proof. intros Hs. cbn. split; [reflexivity|]. split; [exact Hs|]. exists []. auto. Qed.
Lemma agree_more {A} (X : str -> str -> Prop) (a : A) t r r' x y : agree X r r' x y ->
  agree X (t ++ r) (t ++ r') (match x with Ok r l => Ok r (a :: l) | Err => Err | Abort w => Abort w end)
    (match y with Ok r l => Ok r (a :: l) | Err => Err | Abort w => Abort w end).
Proof.
  intros H. apply (agree_shift _ t) in H. destruct x, y; cbn in *; auto. destruct H as (<- & H). auto.
Qed.
Section Loops.
  Variable X : str -> str -> Prop.
  Lemma step_many0 {A} (p p' : parser A) : step X X p p' -> step X X (many0 p) (many0 p').
  Proof.
    intros Hp s s' Hs. unfold many0. generalize (S (length s)), (S (length s')). intros n n'. revert n' s s' Hs.
    induction n as [|n IH]; intros [|n'] s s' Hs; try exact I; [apply agree_abort|]. cbn [many0_loop].
    pose proof (Hp s s' Hs) as H. destruct (p s) as [r a| |]; destruct (p' s') as [r' a'| |]; try (destruct H; fail); try exact I; try apply agree_abort.
    - destruct H as (<- & Hr & t & -> & ->). rewrite !read_len. destruct t as [|c t]; [apply agree_stop, Hs|].
      apply (agree_more X a (c :: t)). apply IH, Hr.
    - apply agree_stop, Hs.
  Qed.
  Lemma step_many1 {A} (p p' : parser A) : step X X p p' -> step X X (many1 p) (many1 p').
  Proof.
    intros Hp s s' Hs. unfold many1. pose proof (Hp s s' Hs) as H.
    destruct (p s) as [r a| |]; destruct (p' s') as [r' a'| |]; try (destruct H; fail); try exact I; try apply agree_abort.
    destruct H as (<- & Hr & t & -> & ->). apply agree_more. clear t Hs. generalize (S (length r)), (S (length r')). intros n n'. revert n' r r' Hr.
    induction n as [|n IH]; intros [|n'] s s' Hs; try exact I; [apply agree_abort|]. cbn [many1_loop].
    pose proof (Hp s s' Hs) as H. destruct (p s) as [r b| |]; destruct (p' s') as [r' b'| |]; try (destruct H; fail); try exact I; try apply agree_abort.
    - destruct H as (<- & Hr & t & -> & ->). rewrite !read_len. destruct t as [|c t]; [apply agree_stop, Hs|].
      apply (agree_more X b (c :: t)). apply IH, Hr.
    - apply agree_stop, Hs.
  Qed.
  (** A separator may also lead to a place where no element can be read. *)
  Definition sep_step {A D} (sep sep' : parser D) (p p' : parser A) : Prop := forall s s', X s s' ->
    match sep s, sep' s' with
    | Ok r _, Ok r' _ => (X r r' /\ exists t, s = t ++ r /\ s' = t ++ r') \/
                         (no_ok (p r) /\ no_ok (p' r') /\ length r <> length s /\ length r' <> length s')
    | Err, Err => True
    | Abort _, _ => True
    | _, Abort _ => True
    | _, _ => False
    end.
  Lemma step_sep {A D} (sep sep' : parser D) (p p' : parser A) : step X X sep sep' -> sep_step sep sep' p p'.
  Proof. intros H s s' Hs. specialize (H s s' Hs). destruct (sep s), (sep' s'); cbn in *; auto. tauto. Qed.
  Lemma step_sep_loop {A D} (sep sep' : parser D) (p p' : parser A) n : sep_step sep sep' p p' -> step X X p p' -> forall n' s s', X s s' ->
    agree X s s' (sep_loop n sep p s) (sep_loop n' sep' p' s').
  Proof.
    intros Hsep Hp. induction n as [|n IH]; intros [|n'] s s' Hs; try exact I; [apply agree_abort|]. cbn [sep_loop].
    pose proof (Hsep s s' Hs) as H. destruct (sep s) as [r a| |]; destruct (sep' s') as [r' a'| |]; try (destruct H; fail); try exact I; try apply agree_abort.
    - destruct H as [(Hr & t & -> & ->)|(N1 & N2 & L1 & L2)].
      + rewrite !read_len. destruct t as [|c t]; [apply agree_stop, Hs|]. pose proof (Hp r r' Hr) as H. destruct (p r) as [r1 b| |]; destruct (p' r') as [r1' b'| |]; try (destruct H; fail); try exact I; try apply agree_abort.
        * destruct H as (<- & Hr1 & u & -> & ->). rewrite !read_len. destruct u as [|d u]; [apply agree_stop, Hs|].
          rewrite !app_assoc. apply (agree_more X b). apply IH, Hr1.
        * apply agree_stop, Hs.
      + apply Nat.eqb_neq in L1, L2. rewrite L1, L2. destruct (p r); [destruct N1|..]; destruct (p' r'); try (destruct N2; fail); try exact I. apply agree_stop, Hs.
    - apply agree_stop, Hs.
  Qed.
  Lemma step_separated_list_at {A D} (sep sep' : parser D) (p p' : parser A) : sep_step sep sep' p p' -> step X X p p' ->
    step X X (separated_list sep p) (separated_list sep' p').
  Proof.
    intros Hsep Hp s s' Hs. unfold separated_list. pose proof (Hp s s' Hs) as H.
    destruct (p s) as [r a| |]; destruct (p' s') as [r' a'| |]; try (destruct H; fail); try exact I; try apply agree_abort.
    - destruct H as (<- & Hr & t & -> & ->). rewrite !read_len. destruct t as [|c t]; [exact I|].
      apply (agree_more X a (c :: t)). apply step_sep_loop; assumption.
    - apply agree_stop, Hs.
  Qed.
  Lemma step_separated_nonempty_at {A D} (sep sep' : parser D) (p p' : parser A) : sep_step sep sep' p p' -> step X X p p' ->
    step X X (separated_nonempty_list sep p) (separated_nonempty_list sep' p').
  Proof.
    intros Hsep Hp s s' Hs. unfold separated_nonempty_list. pose proof (Hp s s' Hs) as H.
    destruct (p s) as [r a| |]; destruct (p' s') as [r' a'| |]; try (destruct H; fail); try exact I; try apply agree_abort.
    destruct H as (<- & Hr & t & -> & ->). rewrite !read_len. destruct t as [|c t]; [exact I|].
    apply (agree_more X a (c :: t)). apply step_sep_loop; assumption.
  Qed.
End Loops.
