(** * UTF-8

    [File::read_to_string] (src/check.rs:48, src/dump.rs:24) and
    [Path::to_str] (src/dump.rs:59) decode UTF-8 and fail on anything else.
    This models the decoder of the Rust standard library (not part of /repo,
    core::str::from_utf8): the number of bytes is read off the first byte, the
    range of the second one depends on it. *)
From Verif Require Import Base.
Local Open Scope N_scope.

(** a byte 10xxxxxx *)
Definition is_cont (b : N) : bool := (128 <=? b) && (b <=? 191).

(** the second byte of a sequence of three (no overlong forms, no surrogates) *)
Definition second3 (a b : N) : bool :=
  if a =? 224 then (160 <=? b) && (b <=? 191)
  else if a =? 237 then (128 <=? b) && (b <=? 159)
  else is_cont b.

(** the second byte of a sequence of four (no overlong forms, at most U+10FFFF) *)
Definition second4 (a b : N) : bool :=
  if a =? 240 then (144 <=? b) && (b <=? 191)
  else if a =? 244 then (128 <=? b) && (b <=? 143)
  else is_cont b.

Definition push (c : char) (o : option str) : option str :=
  match o with Some s => Some (c :: s) | None => None end.

Fixpoint decode (bs : list N) : option str :=
  match bs with
  | [] => Some []
  | a :: bs1 =>
      if a <? 128 then push a (decode bs1)
      else if a <? 194 then None
      else match bs1 with
      | [] => None
      | b :: bs2 =>
          if a <? 224 then
            if is_cont b then push ((a - 192) * 64 + (b - 128)) (decode bs2) else None
          else match bs2 with
          | [] => None
          | c :: bs3 =>
              if a <? 240 then
                if second3 a b && is_cont c
                then push ((a - 224) * 4096 + (b - 128) * 64 + (c - 128)) (decode bs3) else None
              else match bs3 with
              | [] => None
              | d :: bs4 =>
                  if a <? 245 then
                    if second4 a b && is_cont c && is_cont d
                    then push ((a - 240) * 262144 + (b - 128) * 4096 + (c - 128) * 64 + (d - 128))
                              (decode bs4)
                    else None
                  else None
              end
          end
      end
  end.

(** ** Specification: the encoding of Unicode scalar values *)

Definition scalar (c : char) : Prop := c <= 55295 \/ (57344 <= c /\ c <= 1114111).

Definition encode1 (c : char) : list N :=
  if c <? 128 then [c]
  else if c <? 2048 then [192 + c / 64; 128 + c mod 64]
  else if c <? 65536 then [224 + c / 4096; 128 + (c / 64) mod 64; 128 + c mod 64]
  else [240 + c / 262144; 128 + (c / 4096) mod 64; 128 + (c / 64) mod 64; 128 + c mod 64].

Definition encode (s : str) : list N := flat_map encode1 s.

(** ** The decoder accepts exactly the encodings *)

Ltac bools := repeat match goal with
  | H : _ && _ = true |- _ => apply andb_true_iff in H as [? ?]
  | H : (_ <=? _) = true |- _ => apply N.leb_le in H
  | H : (_ <? _) = true |- _ => apply N.ltb_lt in H
  | H : (_ <? _) = false |- _ => apply N.ltb_ge in H
  | H : (_ =? _) = true |- _ => apply N.eqb_eq in H
  | H : (_ =? _) = false |- _ => apply N.eqb_neq in H
  end.

Lemma divmod a q r b : 0 < b -> r < b -> a = q * b + r -> a / b = q /\ a mod b = r.
Proof.
  intros Hb Hr ->. rewrite N.add_comm. split.
  - rewrite N.div_add by lia. rewrite N.div_small by exact Hr. reflexivity.
  - rewrite N.mod_add by lia. apply N.mod_small, Hr.
Qed.

Lemma ltb_t a b : a < b -> (a <? b) = true.
Proof. apply N.ltb_lt. Qed.
Lemma ltb_f a b : b <= a -> (a <? b) = false.
Proof. apply N.ltb_ge. Qed.

Lemma second3_spec a b : 224 <= a -> a < 240 ->
  (second3 a b = true <-> 128 <= b /\ b <= 191 /\
     2048 <= (a - 224) * 4096 + (b - 128) * 64 /\
     ~ (55296 <= (a - 224) * 4096 + (b - 128) * 64 /\ (a - 224) * 4096 + (b - 128) * 64 <= 57343)).
Proof.
  intros H1 H2. unfold second3, is_cont.
  destruct (N.eqb_spec a 224) as [->|H3]; [|destruct (N.eqb_spec a 237) as [->|H4]];
    rewrite andb_true_iff, !N.leb_le; lia.
Qed.

Lemma second4_spec a b : 240 <= a -> a < 245 ->
  (second4 a b = true <-> 128 <= b /\ b <= 191 /\
     65536 <= (a - 240) * 262144 + (b - 128) * 4096 /\
     (a - 240) * 262144 + (b - 128) * 4096 <= 1114111).
Proof.
  intros H1 H2. unfold second4, is_cont.
  destruct (N.eqb_spec a 240) as [->|H3]; [|destruct (N.eqb_spec a 244) as [->|H4]];
    rewrite andb_true_iff, !N.leb_le; lia.
Qed.

Lemma is_cont_iff b : is_cont b = true <-> 128 <= b /\ b <= 191.
Proof. unfold is_cont. rewrite andb_true_iff, !N.leb_le. reflexivity. Qed.

Lemma encode1_2 a b : 194 <= a -> a < 224 -> 128 <= b -> b <= 191 ->
  scalar ((a - 192) * 64 + (b - 128)) /\ encode1 ((a - 192) * 64 + (b - 128)) = [a; b].
Proof.
  intros Ha1 Ha2 Hb1 Hb2. split; [left; lia|]. unfold encode1.
  rewrite ltb_f, ltb_t by lia.
  destruct (divmod ((a - 192) * 64 + (b - 128)) (a - 192) (b - 128) 64) as [-> ->]; [lia..|].
  f_equal; [lia|f_equal; lia].
Qed.

Lemma encode1_3 a b c : 224 <= a -> a < 240 -> second3 a b = true -> 128 <= c -> c <= 191 ->
  let x := (a - 224) * 4096 + (b - 128) * 64 + (c - 128) in scalar x /\ encode1 x = [a; b; c].
Proof.
  intros Ha1 Ha2 Hb Hc1 Hc2 x. apply second3_spec in Hb; [|assumption..].
  split; [unfold scalar, x; lia|]. unfold encode1. rewrite !ltb_f, ltb_t by (unfold x; lia).
  destruct (divmod x ((a - 224) * 64 + (b - 128)) (c - 128) 64) as [E1 E2]; [unfold x; lia..|].
  destruct (divmod x (a - 224) ((b - 128) * 64 + (c - 128)) 4096) as [E3 _]; [unfold x; lia..|].
  destruct (divmod (x / 64) (a - 224) (b - 128) 64) as [_ E4]; [unfold x in *; lia..|].
  rewrite E3, E2, E4. f_equal; [lia|f_equal; [lia|f_equal; lia]].
Qed.

Lemma encode1_4 a b c d : 240 <= a -> a < 245 -> second4 a b = true ->
  128 <= c -> c <= 191 -> 128 <= d -> d <= 191 ->
  let x := (a - 240) * 262144 + (b - 128) * 4096 + (c - 128) * 64 + (d - 128) in
  scalar x /\ encode1 x = [a; b; c; d].
Proof.
  intros Ha1 Ha2 Hb Hc1 Hc2 Hd1 Hd2 x. apply second4_spec in Hb; [|assumption..].
  split; [unfold scalar, x; lia|]. unfold encode1. rewrite !ltb_f by (unfold x; lia).
  destruct (divmod x ((a - 240) * 4096 + (b - 128) * 64 + (c - 128)) (d - 128) 64) as [E1 E2]; [unfold x; lia..|].
  destruct (divmod x ((a - 240) * 64 + (b - 128)) ((c - 128) * 64 + (d - 128)) 4096) as [E3 _]; [unfold x; lia..|].
  destruct (divmod x (a - 240) ((b - 128) * 4096 + (c - 128) * 64 + (d - 128)) 262144) as [E5 _]; [unfold x; lia..|].
  destruct (divmod (x / 64) ((a - 240) * 64 + (b - 128)) (c - 128) 64) as [_ E4]; [unfold x in *; lia..|].
  destruct (divmod (x / 4096) (a - 240) (b - 128) 64) as [_ E6]; [unfold x in *; lia..|].
  rewrite E5, E6, E4, E2. f_equal; [lia|f_equal; [lia|f_equal; [lia|f_equal; lia]]].
Qed.

Lemma push_Some c o s : push c o = Some s -> exists s', s = c :: s' /\ o = Some s'.
Proof. destruct o as [s'|]; [|discriminate]. intros [= <-]. eauto. Qed.

Lemma decode_encode_aux n : forall bs s, (length bs <= n)%nat -> decode bs = Some s ->
  Forall scalar s /\ bs = encode s.
Proof.
  induction n as [|n IH]; intros bs s Hn H.
  { destruct bs; [|simpl in Hn; lia]. injection H as <-. split; [constructor|reflexivity]. }
  destruct bs as [|a bs1]; [injection H as <-; split; [constructor|reflexivity]|].
  cbn [decode] in H. cbn [length] in Hn.
  assert (Hk : forall x bs' c, (length bs' <= n)%nat -> push c (decode bs') = Some s ->
                 scalar c -> encode1 c = x -> Forall scalar s /\ x ++ bs' = encode s).
  { intros x bs' c Hl Hp Hc <-. apply push_Some in Hp as (s' & -> & Hp).
    apply IH in Hp as [Hs ->]; [|exact Hl]. split; [constructor; assumption|reflexivity]. }
  destruct (a <? 128) eqn:Ha.
  { apply (Hk [a] bs1 a); [lia|exact H|left; bools; lia|]. unfold encode1. rewrite Ha. reflexivity. }
  destruct (a <? 194) eqn:Ha2; [discriminate|]. destruct bs1 as [|b bs2]; [discriminate|].
  cbn [length] in Hn. destruct (a <? 224) eqn:Ha3.
  { destruct (is_cont b) eqn:Hb; [|discriminate]. apply is_cont_iff in Hb. bools.
    apply (Hk [a; b] bs2 _ ltac:(lia) H); apply encode1_2; lia. }
  destruct bs2 as [|c bs3]; [discriminate|]. cbn [length] in Hn. destruct (a <? 240) eqn:Ha4.
  { destruct (second3 a b && is_cont c) eqn:Hb; [|discriminate]. apply andb_true_iff in Hb as [Hb Hc].
    apply is_cont_iff in Hc. bools. apply (Hk [a; b; c] bs3 _ ltac:(lia) H); apply encode1_3; try assumption; lia. }
  destruct bs3 as [|d bs4]; [discriminate|]. cbn [length] in Hn. destruct (a <? 245) eqn:Ha5; [|discriminate].
  destruct (second4 a b && is_cont c && is_cont d) eqn:Hb; [|discriminate].
  apply andb_true_iff in Hb as [Hb Hd]. apply andb_true_iff in Hb as [Hb Hc].
  apply is_cont_iff in Hc, Hd. bools.
  apply (Hk [a; b; c; d] bs4 _ ltac:(lia) H); apply encode1_4; try assumption; lia.
Qed.

Lemma div_lt a b q : 0 < b -> a < q * b -> a / b < q.
Proof. intros Hb H. apply N.div_lt_upper_bound; lia. Qed.
Lemma div_le a b q : 0 < b -> q * b <= a -> q <= a / b.
Proof. intros Hb H. apply N.div_le_lower_bound; lia. Qed.

Lemma decode1 c bs : scalar c -> decode (encode1 c ++ bs) = push c (decode bs).
Proof.
  intros Hc. unfold encode1.
  destruct (c <? 128) eqn:H1; [cbn [app decode]; rewrite H1; reflexivity|].
  destruct (c <? 2048) eqn:H2.
  { bools. cbn [app decode].
    pose proof (div_lt c 64 32 ltac:(lia) ltac:(lia)). pose proof (div_le c 64 2 ltac:(lia) ltac:(lia)).
    pose proof (N.mod_lt c 64 ltac:(lia)). pose proof (N.div_mod c 64 ltac:(lia)) as E.
    set (q := c / 64) in *. set (m := c mod 64) in *. clearbody q m.
    rewrite !ltb_f, ltb_t by lia. rewrite (proj2 (is_cont_iff (128 + m))) by lia.
    f_equal. lia. }
  destruct (c <? 65536) eqn:H3.
  { bools. cbn [app decode].
    pose proof (N.mod_lt c 64 ltac:(lia)). pose proof (N.div_mod c 64 ltac:(lia)) as E.
    pose proof (N.mod_lt (c / 64) 64 ltac:(lia)). pose proof (N.div_mod (c / 64) 64 ltac:(lia)) as E'.
    rewrite N.div_div in E' by lia. change (64 * 64) with 4096 in E'.
    pose proof (div_lt c 4096 16 ltac:(lia) ltac:(lia)).
    set (m := c mod 64) in *. set (m2 := (c / 64) mod 64) in *. set (q := c / 4096) in *.
    set (q1 := c / 64) in *. clearbody m m2 q q1.
    rewrite !(ltb_f (224 + q)), ltb_t by lia.
    rewrite (proj2 (second3_spec (224 + q) (128 + m2) ltac:(lia) ltac:(lia)))
      by (unfold scalar in Hc; lia).
    rewrite (proj2 (is_cont_iff (128 + m))) by lia. cbn [andb]. f_equal. lia. }
  bools. cbn [app decode].
  pose proof (N.mod_lt c 64 ltac:(lia)). pose proof (N.div_mod c 64 ltac:(lia)) as E.
  pose proof (N.mod_lt (c / 64) 64 ltac:(lia)). pose proof (N.div_mod (c / 64) 64 ltac:(lia)) as E'.
  rewrite N.div_div in E' by lia. change (64 * 64) with 4096 in E'.
  pose proof (N.mod_lt (c / 4096) 64 ltac:(lia)). pose proof (N.div_mod (c / 4096) 64 ltac:(lia)) as E''.
  rewrite N.div_div in E'' by lia. change (4096 * 64) with 262144 in E''.
  unfold scalar in Hc.
  pose proof (div_lt c 262144 5 ltac:(lia) ltac:(lia)).
  set (m := c mod 64) in *. set (m2 := (c / 64) mod 64) in *. set (m3 := (c / 4096) mod 64) in *.
  set (q := c / 262144) in *. set (q2 := c / 4096) in *. set (q1 := c / 64) in *. clearbody m m2 m3 q q1 q2.
  rewrite !(ltb_f (240 + q)), ltb_t by lia.
  rewrite (proj2 (second4_spec (240 + q) (128 + m3) ltac:(lia) ltac:(lia))) by lia.
  rewrite (proj2 (is_cont_iff (128 + m))), (proj2 (is_cont_iff (128 + m2))) by lia. cbn [andb].
  f_equal. lia.
Qed.

Theorem decode_iff bs s : decode bs = Some s <-> Forall scalar s /\ bs = encode s.
Proof.
  split; [apply (decode_encode_aux (length bs)); lia|].
  intros [Hs ->]. induction Hs as [|c s Hc Hs IH]; [reflexivity|].
  unfold encode. cbn [flat_map]. rewrite decode1 by exact Hc. unfold encode in IH. rewrite IH. reflexivity.
Qed.

Theorem decode_unique bs bs' s : decode bs = Some s -> decode bs' = Some s -> bs = bs'.
Proof. intros H H'. apply decode_iff in H as [_ ->]. apply decode_iff in H' as [_ ->]. reflexivity. Qed.

Lemma decode_ascii s : forallb (fun c => c <? 128) s = true -> decode s = Some s.
Proof.
  induction s as [|c s IH]; [reflexivity|]. cbn [forallb]. intros H. apply andb_true_iff in H as [Hc H].
  cbn [decode]. rewrite Hc, (IH H). reflexivity.
Qed.
