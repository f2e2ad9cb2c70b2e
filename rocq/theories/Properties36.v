(** * C79: the words of an accepted text *)
From Verif Require Import Base Nom Ast Spec Helpers Types Expr Stmt Grammar Leaves Words Properties35.

(** ** C79: numbers, names and underscores never run into one another

    [words s] are the longest pieces of [s] made of letters, digits and underscores.  The
    text has no comments, strings and characters: its words would be theirs. *)
Definition without_literals (s : str) : Prop :=
  ~ In quote s /\ ~ In squote s /\ ~ (exists a b, s = a ++ L "--" ++ b) /\ ~ (exists a b, s = a ++ L "{-" ++ b).

Theorem C79_words : forall s sts w, file s = Ok [] sts -> without_literals s -> In w (words s) ->
  w = L "_" \/
  (w <> [] /\ forallb is_dec w = true) \/
  (exists c t, w = c :: t /\ is_lower c || is_upper c = true /\ forallb is_name_char t = true).
Proof.
  intros s sts w H (H1 & H2 & H3 & H4) Hw. apply C77_files in H.
  pose proof (written_shapes _ _ H H1 H2 H3 H4) as K. rewrite Forall_forall in K. exact (K w Hw).
Qed.
Print Assumptions C79_words.

(** So a numeral that begins a word is never followed by a letter or an underscore: [0xFF],
    [1e5] and [2nd] are rejected wherever they stand. *)
Theorem C79_numerals : forall a d c b sts, without_literals (a ++ d ++ c :: b) ->
  is_name_char (last a space) = false -> d <> [] -> forallb is_dec d = true ->
  is_lower c || is_upper c || (c =? C "_")%N = true ->
  file (a ++ d ++ c :: b) <> Ok [] sts.
Proof.
  intros a d c b sts Hs Ha Hd Hn Hc H.
  assert (Ec : is_name_char c = true).
  { unfold is_name_char. apply orb_true_iff in Hc as [Hc|Hc]; rewrite Hc; [reflexivity|apply orb_true_r]. }
  destruct (name_prefix_ok b) as (r & E & H1 & H2).
  assert (K : In (d ++ c :: name_prefix b) (words (a ++ d ++ c :: b))).
  { replace (a ++ d ++ c :: b) with (a ++ (d ++ c :: name_prefix b) ++ r).
    - apply words_middle; try assumption; [destruct d; discriminate|].
      rewrite forallb_app. cbn. rewrite Ec, H1. rewrite !andb_true_r. revert Hn. apply forallb_impl, dec_name.
    - rewrite <- app_assoc. cbn [app]. rewrite <- E. reflexivity. }
  destruct d as [|x d]; [congruence|]. cbn in Hn. apply andb_true_iff in Hn as [Hx Hn].
  destruct (C79_words _ _ _ H Hs K) as [Q|[[_ Q]|(y & t & Q & Hy & _)]].
  - apply (f_equal (@length _)) in Q. rewrite app_length in Q. cbn in Q. lia.
  - rewrite forallb_app in Q. cbn in Q. apply andb_true_iff in Q as [_ Q]. apply andb_true_iff in Q as [Q _].
    apply dec_not_letter in Q. congruence.
  - cbn [app] in Q. injection Q as <- _. apply dec_not_letter, orb_false_iff in Hx as [Hx _]. congruence.
Qed.
Print Assumptions C79_numerals.

(** A name does not begin with an underscore, unless it is one: [_x] is rejected wherever it
    stands. *)
Theorem C79_underscores : forall a c b sts, without_literals (a ++ C "_" :: c :: b) ->
  is_name_char (last a space) = false -> is_name_char c = true ->
  file (a ++ C "_" :: c :: b) <> Ok [] sts.
Proof.
  intros a c b sts Hs Ha Hc H. destruct (name_prefix_ok b) as (r & E & H1 & H2).
  assert (K : In (C "_" :: c :: name_prefix b) (words (a ++ C "_" :: c :: b))).
  { replace (a ++ C "_" :: c :: b) with (a ++ (C "_" :: c :: name_prefix b) ++ r).
    - apply words_middle; try assumption; [discriminate|]. cbn. rewrite Hc, H1. reflexivity.
    - cbn [app]. rewrite <- E. reflexivity. }
  destruct (C79_words _ _ _ H Hs K) as [Q|[[_ Q]|(y & t & Q & Hy & _)]]; [discriminate|discriminate|].
  injection Q as <- _. discriminate.
Qed.
Print Assumptions C79_underscores.

(** *** Instances *)
Lemma no_dash s : ~ In (C "-") s -> ~ In quote s -> ~ In squote s -> without_literals s.
Proof.
  intros H H1 H2. repeat split; try assumption; intros (a & b & ->); apply H, in_or_app; right.
  - left. reflexivity.
  - right. left. reflexivity.
Qed.
Definition instance_words : str := L "type T a = A2 Int | B_ (List a)" ++ [newline] ++ L "f _ = g1 {y = 2} 3.50 (x as y)".
Example C79_instance : exists sts, file instance_words = Ok [] sts /\ without_literals instance_words /\
  words instance_words =
  [L "type"; L "T"; L "a"; L "A2"; L "Int"; L "B_"; L "List"; L "a"; L "f"; L "_"; L "g1"; L "y"; L "2"; L "3"; L "50"; L "x"; L "as"; L "y"].
Proof.
  eexists. split; [vm_compute; reflexivity|]. split; [|vm_compute; reflexivity].
  apply no_dash; vm_compute; intuition discriminate.
Qed.
(** [f = 0xFF], [f = 1e5], [f = _x] meet the hypotheses *)
Example C79_instance_rejected :
  without_literals (L "f = " ++ L "0" ++ L "xFF") /\ without_literals (L "f = " ++ L "1" ++ L "e5") /\ without_literals (L "f = " ++ L "_x") /\
  is_name_char (last (L "f = ") space) = false /\
  file (L "f = 0xFF") = Err /\ file (L "f = 1e5") = Err /\ file (L "f = _x") = Err /\
  (exists sts, file (L "f = 0") = Ok [] sts) /\ (exists sts, file (L "f = 1") = Ok [] sts) /\ (exists sts, file (L "f = _") = Ok [] sts).
Proof.
  repeat split; try (eexists; vm_compute; reflexivity); try (vm_compute; reflexivity);
    try (vm_compute; intuition discriminate); intros (a & b & E);
    match type of E with ?u = _ => assert (K : ~ In (C "-") u) by (vm_compute; intuition discriminate); apply K; rewrite E end;
    apply in_or_app; right; cbn; auto.
Qed.
