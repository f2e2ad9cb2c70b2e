(** * Totality and progress of the combinators

    [ok k n p q]: on every input shorter than [n], the parsers [p] and [q]
    give the same answer, this answer is not an abort, and on success at least
    [k] characters were consumed.  [ok k n p p] thus says that [p] is total
    below [n]; the two-parser form also carries the independence from the
    recursion bound. *)
From Verif Require Import Base Nom Regex.

Definition ok_res {A} (k : nat) (s : str) (x : res A) : Prop :=
  match x with
  | Ok r _ => length r + k <= length s
  | Err => True
  | Abort _ => False
  end.

Definition ok {A} (k n : nat) (p q : parser A) : Prop :=
  forall s, length s < n -> p s = q s /\ ok_res k s (p s).

Lemma ok_res_weaken {A} k k' s (x : res A) : k' <= k -> ok_res k s x -> ok_res k' s x.
Proof. destruct x; simpl; intros; auto; lia. Qed.

Lemma ok_weaken {A} k k' n n' (p q : parser A) :
  k' <= k -> n' <= n -> ok k n p q -> ok k' n' p q.
Proof.
  intros Hk Hn H s Hs. destruct (H s) as [He Ho]; [lia|].
  split; [exact He|]. eapply ok_res_weaken; eassumption.
Qed.

Lemma ok_0 {A} n (p q : parser A) : ok 1 n p q -> ok 0 n p q.
Proof. apply ok_weaken; lia. Qed.

Lemma ok_down {A} k n (p q : parser A) : ok k (S n) p q -> ok k n p q.
Proof. apply ok_weaken; lia. Qed.

Lemma ok_bind1 {A B} n (p p' : parser A) (f f' : A -> parser B) :
  ok 1 (S n) p p' -> (forall a, ok 0 n (f a) (f' a)) ->
  ok 1 (S n) (bind p f) (bind p' f').
Proof.
  intros Hp Hf s Hs. destruct (Hp s Hs) as [He Ho]. unfold bind. rewrite <- He.
  destruct (p s) as [r a| |w]; simpl in *; auto.
  destruct (Hf a r) as [He' Ho']; [lia|]. split; [exact He'|].
  destruct (f a r); simpl in *; auto; lia.
Qed.

Lemma ok_bind0 {A B} k n (p p' : parser A) (f f' : A -> parser B) :
  ok 0 n p p' -> (forall a, ok k n (f a) (f' a)) ->
  ok k n (bind p f) (bind p' f').
Proof.
  intros Hp Hf s Hs. destruct (Hp s Hs) as [He Ho]. unfold bind. rewrite <- He.
  destruct (p s) as [r a| |w]; simpl in *; auto.
  destruct (Hf a r) as [He' Ho']; [lia|]. split; [exact He'|].
  destruct (f a r); simpl in *; auto; lia.
Qed.

Lemma ok_ret {A} n (a : A) : ok 0 n (ret a) (ret a).
Proof. intros s Hs. unfold ret; simpl; split; [reflexivity|lia]. Qed.

Lemma ok_map {A B} k n (f : A -> B) p q : ok k n p q -> ok k n (map_ f p) (map_ f q).
Proof.
  intros H s Hs. destruct (H s Hs) as [He Ho]. unfold map_. rewrite <- He.
  destruct (p s); simpl in *; auto.
Qed.

Lemma ok_map_res {A B} k n (f : A -> option B) p q :
  ok k n p q -> ok k n (map_res f p) (map_res f q).
Proof.
  intros H s Hs. destruct (H s Hs) as [He Ho]. unfold map_res. rewrite <- He.
  destruct (p s) as [r a| |]; simpl in *; auto.
  destruct (f a); simpl; auto.
Qed.

Lemma ok_value {A B} k n (b : B) (p q : parser A) :
  ok k n p q -> ok k n (value b p) (value b q).
Proof. apply ok_map. Qed.

Lemma ok_alt {A} k n (p p' q q' : parser A) :
  ok k n p p' -> ok k n q q' -> ok k n (p <|> q) (p' <|> q').
Proof.
  intros Hp Hq s Hs. destruct (Hp s Hs) as [He Ho]. destruct (Hq s Hs) as [He' Ho'].
  unfold alt. rewrite <- He. destruct (p s); simpl in *; auto.
Qed.

Lemma ok_opt {A} n (p q : parser A) : ok 0 n p q -> ok 0 n (opt p) (opt q).
Proof.
  intros H s Hs. destruct (H s Hs) as [He Ho]. unfold opt. rewrite <- He.
  destruct (p s); simpl in *; auto. split; auto; lia.
Qed.

Lemma ok_preceded1 {A B} n (p p' : parser A) (q q' : parser B) :
  ok 1 (S n) p p' -> ok 0 n q q' -> ok 1 (S n) (preceded p q) (preceded p' q').
Proof. intros; apply ok_bind1; auto. Qed.

Lemma ok_preceded0 {A B} k n (p p' : parser A) (q q' : parser B) :
  ok 0 n p p' -> ok k n q q' -> ok k n (preceded p q) (preceded p' q').
Proof. intros; apply ok_bind0; auto. Qed.

Lemma ok_terminated1 {A B} n (p p' : parser A) (q q' : parser B) :
  ok 1 (S n) p p' -> ok 0 n q q' -> ok 1 (S n) (terminated p q) (terminated p' q').
Proof.
  intros; apply ok_bind1; auto. intros a. apply ok_bind0; auto. intros; apply ok_ret.
Qed.

Lemma ok_terminated0 {A B} n (p p' : parser A) (q q' : parser B) :
  ok 0 n p p' -> ok 0 n q q' -> ok 0 n (terminated p q) (terminated p' q').
Proof.
  intros; apply ok_bind0; auto. intros a. apply ok_bind0; auto. intros; apply ok_ret.
Qed.

Lemma ok_delimited1 {A B D} n (p p' : parser A) (q q' : parser B) (t t' : parser D) :
  ok 1 (S n) p p' -> ok 0 n q q' -> ok 0 n t t' ->
  ok 1 (S n) (delimited p q t) (delimited p' q' t').
Proof.
  intros; apply ok_bind1; auto. intros a. apply ok_bind0; auto. intros b.
  apply ok_bind0; auto. intros; apply ok_ret.
Qed.

Lemma ok_delimited0 {A B D} n (p p' : parser A) (q q' : parser B) (t t' : parser D) :
  ok 0 n p p' -> ok 0 n q q' -> ok 0 n t t' ->
  ok 0 n (delimited p q t) (delimited p' q' t').
Proof.
  intros; apply ok_bind0; auto. intros a. apply ok_bind0; auto. intros b.
  apply ok_bind0; auto. intros; apply ok_ret.
Qed.

(** A delimited sequence whose middle or last part makes progress. *)
Lemma ok_delimited_mid {A B D} n (p p' : parser A) (q q' : parser B) (t t' : parser D) :
  ok 0 (S n) p p' -> ok 1 (S n) q q' -> ok 0 n t t' ->
  ok 1 (S n) (delimited p q t) (delimited p' q' t').
Proof.
  intros; apply ok_bind0; auto. intros a. apply ok_bind1; auto. intros b.
  apply ok_bind0; auto. intros; apply ok_ret.
Qed.

Lemma ok_separated_pair1 {A B D} n (p p' : parser A) (q q' : parser B) (t t' : parser D) :
  ok 1 (S n) p p' -> ok 0 n q q' -> ok 0 n t t' ->
  ok 1 (S n) (separated_pair p q t) (separated_pair p' q' t').
Proof.
  intros; apply ok_bind1; auto. intros a. apply ok_bind0; auto. intros b.
  apply ok_bind0; auto. intros; apply ok_ret.
Qed.

Lemma ok_separated_pair0 {A B D} n (p p' : parser A) (q q' : parser B) (t t' : parser D) :
  ok 0 n p p' -> ok 0 n q q' -> ok 0 n t t' ->
  ok 0 n (separated_pair p q t) (separated_pair p' q' t').
Proof.
  intros; apply ok_bind0; auto. intros a. apply ok_bind0; auto. intros b.
  apply ok_bind0; auto. intros; apply ok_ret.
Qed.

(** ** Repetition *)

Lemma ok_many0_loop {A} n (p q : parser A) :
  ok 0 n p q ->
  forall m s, length s < m -> length s < n ->
    many0_loop m p s = many0_loop m q s /\ ok_res 0 s (many0_loop m p s).
Proof.
  intros H m. induction m as [|m IH]; intros s Hm Hn; [lia|].
  cbn [many0_loop]. destruct (H s Hn) as [He Ho]. rewrite <- He.
  destruct (p s) as [r a| |w]; simpl in Ho; [|simpl; split; auto; lia|contradiction].
  destruct (Nat.eqb_spec (length r) (length s)) as [Hl|Hl].
  - simpl. split; auto; lia.
  - destruct (IH r) as [He' Ho']; [lia|lia|]. rewrite <- He'.
    destruct (many0_loop m p r); simpl in *; auto; split; auto; lia.
Qed.

Lemma ok_many0 {A} n (p q : parser A) : ok 0 n p q -> ok 0 n (many0 p) (many0 q).
Proof. intros H s Hs. apply (ok_many0_loop n); auto. Qed.

Lemma ok_many1_loop {A} n (p q : parser A) :
  ok 0 n p q ->
  forall m s, length s < m -> length s < n ->
    many1_loop m p s = many1_loop m q s /\ ok_res 0 s (many1_loop m p s).
Proof.
  intros H m. induction m as [|m IH]; intros s Hm Hn; [lia|].
  cbn [many1_loop]. destruct (H s Hn) as [He Ho]. rewrite <- He.
  destruct (p s) as [r a| |w]; simpl in Ho; [|simpl; split; auto; lia|contradiction].
  destruct (Nat.eqb_spec (length r) (length s)) as [Hl|Hl].
  - simpl. split; auto; lia.
  - destruct (IH r) as [He' Ho']; [lia|lia|]. rewrite <- He'.
    destruct (many1_loop m p r); simpl in *; auto; split; auto; lia.
Qed.

Lemma ok_many1 {A} k n (p q : parser A) : ok k n p q -> ok k n (many1 p) (many1 q).
Proof.
  intros H s Hs. unfold many1. destruct (H s Hs) as [He Ho]. rewrite <- He.
  destruct (p s) as [r a| |w]; simpl in *; auto.
  destruct (ok_many1_loop n p q) with (m := S (length r)) (s := r) as [He' Ho'];
    [eapply ok_weaken; [| |exact H]; lia|lia|lia|].
  cbn [many1_loop] in He', Ho'. rewrite <- He'.
  match goal with |- context [match ?x with _ => _ end] => destruct x end;
    simpl in *; auto; split; auto; lia.
Qed.

Lemma ok_sep_loop {A B} n (sep sep' : parser B) (p p' : parser A) :
  ok 0 n sep sep' -> ok 0 n p p' ->
  forall m s, length s < m -> length s < n ->
    sep_loop m sep p s = sep_loop m sep' p' s /\ ok_res 0 s (sep_loop m sep p s).
Proof.
  intros Hsep Hp m. induction m as [|m IH]; intros s Hm Hn; [lia|].
  cbn [sep_loop]. destruct (Hsep s Hn) as [He Ho]. rewrite <- He.
  destruct (sep s) as [s2 x| |w]; simpl in Ho; [|simpl; split; auto; lia|contradiction].
  destruct (Nat.eqb_spec (length s2) (length s)) as [Hl|Hl]; [simpl; split; auto; lia|].
  destruct (Hp s2) as [He2 Ho2]; [lia|]. rewrite <- He2.
  destruct (p s2) as [s3 a| |w]; simpl in Ho2; [|simpl; split; auto; lia|contradiction].
  destruct (Nat.eqb_spec (length s3) (length s2)) as [Hl3|Hl3]; [simpl; split; auto; lia|].
  destruct (IH s3) as [He' Ho']; [lia|lia|]. rewrite <- He'.
  destruct (sep_loop m sep p s3); simpl in *; auto; split; auto; lia.
Qed.

(** Only a non-empty separator is ever followed by an element, so the element
    is needed one level lower only. *)
Lemma ok_separated_list {A B} n (sep sep' : parser B) (p p' : parser A) :
  ok 0 n sep sep' -> ok 0 n p p' ->
  ok 0 n (separated_list sep p) (separated_list sep' p').
Proof.
  intros Hsep Hp s Hs. unfold separated_list.
  destruct (Hp s Hs) as [He Ho]. rewrite <- He.
  destruct (p s) as [r a| |w]; simpl in Ho; [|simpl; split; auto; lia|contradiction].
  destruct (Nat.eqb_spec (length r) (length s)) as [Hl|Hl]; [simpl; auto|].
  destruct (ok_sep_loop n sep sep' p p' Hsep Hp (S (length r)) r) as [He' Ho'];
    [lia|lia|]. rewrite <- He'.
  destruct (sep_loop (S (length r)) sep p r); cbn [ok_res] in *; auto; split; auto; lia.
Qed.

Lemma ok_separated_nonempty_list {A B} n (sep sep' : parser B) (p p' : parser A) :
  ok 0 n sep sep' -> ok 0 n p p' ->
  ok 1 n (separated_nonempty_list sep p) (separated_nonempty_list sep' p').
Proof.
  intros Hsep Hp s Hs. unfold separated_nonempty_list.
  destruct (Hp s Hs) as [He Ho]. rewrite <- He.
  destruct (p s) as [r a| |w]; simpl in Ho; [|simpl; split; auto; lia|contradiction].
  destruct (Nat.eqb_spec (length r) (length s)) as [Hl|Hl]; [simpl; auto|].
  destruct (ok_sep_loop n sep sep' p p' Hsep Hp (S (length r)) r) as [He' Ho'];
    [lia|lia|]. rewrite <- He'.
  destruct (sep_loop (S (length r)) sep p r); cbn [ok_res] in *; auto; split; auto; lia.
Qed.

(** ** Primitive parsers *)

Lemma strip_app t s r : strip t s = Some r <-> s = t ++ r.
Proof.
  revert s. induction t as [|c t IH]; intros s; simpl.
  - split; [intros [= ->]|intros ->]; reflexivity.
  - destruct s as [|d s]; [split; discriminate|].
    destruct (N.eqb_spec c d) as [->|Hne].
    + rewrite IH. split; [intros ->|intros [= ->]]; reflexivity.
    + split; [discriminate|intros [= -> _]; congruence].
Qed.

Lemma ok_tag k n t : k <= length t -> ok k n (tag t) (tag t).
Proof.
  intros Hk s Hs. split; [reflexivity|]. unfold tag, need_more, at_eof.
  destruct (strip t s) as [r|] eqn:Ht; simpl; auto.
  apply strip_app in Ht. subst s. rewrite app_length. lia.
Qed.

Lemma ok_char n c : ok 1 n (char_ c) (char_ c).
Proof.
  intros s Hs. split; [reflexivity|]. unfold char_, need_more, at_eof.
  destruct s as [|d s]; simpl; auto. destruct (N.eqb d c); simpl; auto; lia.
Qed.

Lemma ok_anychar n : ok 1 n anychar anychar.
Proof.
  intros s Hs. split; [reflexivity|]. unfold anychar, need_more, at_eof.
  destruct s as [|d s]; simpl; auto; lia.
Qed.

Lemma span_app f s a b : span f s = (a, b) -> s = a ++ b.
Proof.
  revert a b. induction s as [|c s IH]; intros a b; simpl; [intros [= <- <-]; reflexivity|].
  destruct (f c).
  - destruct (span f s) as [x y]. intros [= <- <-]. simpl. f_equal. apply IH; reflexivity.
  - intros [= <- <-]; reflexivity.
Qed.

Lemma ok_take_while0 n f : ok 0 n (take_while0 f) (take_while0 f).
Proof.
  intros s Hs. split; [reflexivity|]. unfold take_while0.
  destruct (span f s) as [a b] eqn:Hsp. apply span_app in Hsp. subst s.
  simpl. rewrite app_length; lia.
Qed.

Lemma ok_take_while1 n f : ok 1 n (take_while1 f) (take_while1 f).
Proof.
  intros s Hs. split; [reflexivity|]. unfold take_while1.
  destruct (span f s) as [a b] eqn:Hsp. apply span_app in Hsp. subst s.
  destruct a; simpl; auto. rewrite app_length; lia.
Qed.

Lemma ok_take n m : ok 0 n (take m) (take m).
Proof.
  intros s Hs. split; [reflexivity|]. unfold take, need_more, at_eof.
  destruct (length s <? m); simpl; auto. rewrite skipn_length; lia.
Qed.

Lemma find_sub_app t s a r : find_sub t s = Some (a, r) -> s = a ++ t ++ r.
Proof.
  revert a r. induction s as [|c s IH]; intros a r; cbn [find_sub].
  - destruct (strip t []) eqn:Ht; [|discriminate]. apply strip_app in Ht.
    intros [= <- <-]. simpl. exact Ht.
  - destruct (strip t (c :: s)) eqn:Ht.
    + apply strip_app in Ht. intros [= <- <-]. simpl. exact Ht.
    + destruct (find_sub t s) as [[a' r']|] eqn:Hf; [|discriminate].
      intros [= <- <-]. simpl. f_equal. apply IH; reflexivity.
Qed.

Lemma ok_take_until n t : ok 0 n (take_until_and_consume t) (take_until_and_consume t).
Proof.
  intros s Hs. split; [reflexivity|]. unfold take_until_and_consume, need_more, at_eof.
  destruct (find_sub t s) as [[a r]|] eqn:Hf; simpl; auto.
  apply find_sub_app in Hf. subst s. rewrite !app_length; lia.
Qed.

Lemma ok_eof n : ok 0 n eof eof.
Proof.
  intros s Hs. split; [reflexivity|]. unfold eof, at_eof. destruct s; simpl; auto.
Qed.
