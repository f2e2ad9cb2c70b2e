(** * C37, C38: the debugging output and the cost of parsing *)
From Verif Require Import Base Nom Regex Ast Spec Utf8 Helpers Types Expr Stmt LexProps Cli CliProps Trace
  TraceProps Blowup Output.

(** ** C37: debugging lines on standard output come from hex escapes only *)

(** [s] contains a quote, a backslash, an x and two more characters, and [v] is
    their value as a hexadecimal number, if they have one. *)
Definition hex_escape (s : str) (v : option N) : Prop :=
  exists a c d b, s = a ++ L "'\x" ++ [c; d] ++ b /\ forall n, v = Some n <-> hex_code [c; d] n.
Lemma hex_escape_of s v : escape_in s v -> hex_escape s v.
Proof.
  intros (a & c & d & b & -> & ->). exists a, c, d, b. split; [reflexivity|]. intros n. apply u8_iff.
Qed.

(** The model with the debugging lines refines the one without. *)
Theorem C37_refines : forall w path quiet args,
  (messages (fst (dump_all w path quiet)) = fst (dump_main w path quiet) /\
   snd (dump_all w path quiet) = snd (dump_main w path quiet)) /\
  (messages (fst (check_all w args)) = fst (check_main w args) /\
   snd (check_all w args) = snd (check_main w args)).
Proof. intros w path quiet args. split; [apply agrees_dump|apply agrees_check]. Qed.
Print Assumptions C37_refines.

Theorem C37_origin : forall w path quiet args v,
  In (Debug v) (fst (dump_all w path quiet)) \/ In (Debug v) (fst (check_all w args)) ->
  exists p s, has_text w p s /\ hex_escape s v.
Proof.
  intros w path quiet args v [H|H]; [apply debug_dump in H as (p & s & Ht & H)|apply debug_check in H as (p & s & Ht & H)];
    exists p, s; (split; [exact Ht|apply hex_escape_of, H]).
Qed.
Print Assumptions C37_origin.

(** If no file contains a hex escape, the messages are all that is printed. *)
Theorem C37_clean : forall w path quiet args,
  (forall p s a b, has_text w p s -> s <> a ++ L "'\x" ++ b) ->
  fst (dump_all w path quiet) = map Message (fst (dump_main w path quiet)) /\
  fst (check_all w args) = map Message (fst (check_main w args)).
Proof.
  intros w path quiet args H.
  assert (Hm : forall ls, (forall v, ~ In (Debug v) ls) -> ls = map Message (messages ls)).
  { induction ls as [|[v|m] ls IH]; intros Hls; [reflexivity| |].
    - destruct (Hls v). left. reflexivity.
    - cbn. f_equal. apply IH. intros v Hv. apply (Hls v). right. exact Hv. }
  assert (Hn : forall v, ~ (In (Debug v) (fst (dump_all w path quiet)) \/ In (Debug v) (fst (check_all w args)))).
  { intros v Hv. apply C37_origin in Hv as (p & s & Ht & a & c & d & b & Hs & _).
    exact (H p s a ([c; d] ++ b) Ht Hs). }
  destruct (C37_refines w path quiet args) as [[H1 _] [H2 _]]. rewrite <- H1, <- H2.
  split; apply Hm; intros v Hv; apply (Hn v); auto.
Qed.
Print Assumptions C37_clean.

(** The expectation "one line per file in quiet mode" is refuted: this file has
    one hex escape, which is printed twice before the verdict. *)
Definition one_file (text : str) : world :=
  mkWorld (fun _ => Bytes text) (fun _ => Some false) (fun _ => []).
Theorem C37_polluted :
  dump_all (one_file (L "x = ('\x41', 1)")) (Some (L "A.elm")) true =
  ([Debug (Some 65%N); Debug (Some 65%N); Message (ParsedSuccessfully (L "A.elm"))], Returned) /\
  dump_main (one_file (L "x = ('\x41', 1)")) (Some (L "A.elm")) true =
  ([ParsedSuccessfully (L "A.elm")], Returned).
Proof. vm_compute. auto. Qed.
Print Assumptions C37_polluted.
Example C37_instance :
  (* no escape: nothing but the message; a wrong escape is shown as an error *)
  dump_all (one_file (L "x = 'a'")) (Some (L "A.elm")) true =
    ([Message (ParsedSuccessfully (L "A.elm"))], Returned) /\
  dump_all (one_file (L "x = '\xzz'")) (Some (L "A.elm")) true =
    ([Debug None; Message (FailedToParse (L "A.elm"))], Returned) /\
  (forall p s a b, has_text (one_file (L "x = 'a'")) p s -> s <> a ++ L "'\x" ++ b).
Proof.
  split; [vm_compute; reflexivity|]. split; [vm_compute; reflexivity|].
  intros p s a b Hs E. apply contents_text in Hs. vm_compute in Hs. injection Hs as <-.
  do 7 (destruct a as [|? a]; [discriminate E|]; injection E as _ E). destruct a; discriminate E.
Qed.

(** ** C38: parsing takes exponential time *)

(** [nested n] is [(...((a,a),a)...,a)], [arrows n] is [(...((a -> a) -> a)... -> a)]:
    Blowup.v.  [expression_calls] and [type_calls] count the calls of the two
    recursive parsers. *)
Theorem C38_tuples : forall n,
  length (L "x = " ++ nested n) = 4 * n + 5 /\
  file (L "x = " ++ nested n) = Ok [] [Function_ (mkFunc None (mkDef (L "x") [] (nested_ast n)))] /\
  expression_calls (snd (file_t (L "x = " ++ nested n))) + 2 = 3 * 2 ^ n.
Proof.
  intros n. split; [rewrite app_length, nested_length; cbn [length]; lia|].
  rewrite <- er_file, file_nested. split; [reflexivity|]. apply nested_calls.
Qed.
Print Assumptions C38_tuples.
Theorem C38_types : forall n,
  length (L "port x : " ++ arrows n) = 7 * n + 10 /\
  file (L "port x : " ++ arrows n) = Ok [] [PortTypeDeclaration (L "x") (arrows_ast n)] /\
  type_calls (snd (file_t (L "port x : " ++ arrows n))) + 2 = 3 * 2 ^ n.
Proof.
  intros n. split; [rewrite app_length, arrows_length; cbn [length]; lia|].
  rewrite <- er_file, file_arrows. split; [reflexivity|]. apply arrows_calls.
Qed.
Print Assumptions C38_types.

Lemma square_pow k : 4 <= k -> k * k <= 2 ^ k.
Proof.
  intros H. replace k with (4 + (k - 4)) by lia. generalize (k - 4). clear. intros m.
  induction m as [|m IH]; [cbn; lia|].
  replace (4 + S m) with (S (4 + m)) by lia. cbn [Nat.pow]. nia.
Qed.
Lemma beats_polynomial c d : exists n, c * (4 * n + 5) ^ d + c < 3 * 2 ^ n - 2.
Proof.
  set (k := 5 * d + c + 9). exists (2 ^ k).
  assert (Hk : c + (4 + k) * d + 2 <= 2 ^ k).
  { pose proof (square_pow k ltac:(unfold k; lia)). assert (c + (4 + k) * d + 2 <= k * k) by (unfold k; nia). lia. }
  assert (H1 : 1 <= 2 ^ k) by (pose proof (Nat.pow_nonzero 2 k); lia).
  assert (H2 : (4 * 2 ^ k + 5) ^ d <= 2 ^ ((4 + k) * d)).
  { rewrite Nat.pow_mul_r. apply Nat.pow_le_mono_l. rewrite Nat.pow_add_r. change (2 ^ 4) with 16. lia. }
  assert (H3 : c <= 2 ^ c) by (pose proof (Nat.pow_gt_lin_r 2 c); lia).
  assert (H4 : c * (4 * 2 ^ k + 5) ^ d + c <= 2 ^ (c + (4 + k) * d + 1)).
  { rewrite !Nat.pow_add_r. change (2 ^ 1) with 2. 
    assert (1 <= 2 ^ ((4 + k) * d)) by (pose proof (Nat.pow_nonzero 2 ((4 + k) * d)); lia). nia. }
  assert (H5 : 2 ^ (c + (4 + k) * d + 2) <= 2 ^ (2 ^ k)) by (apply Nat.pow_le_mono_r; lia).
  replace (c + (4 + k) * d + 2) with (S (c + (4 + k) * d + 1)) in H5 by lia. cbn [Nat.pow] in H5.
  assert (1 <= 2 ^ (c + (4 + k) * d + 1)) by (pose proof (Nat.pow_nonzero 2 (c + (4 + k) * d + 1)); lia).
  lia.
Qed.
(** No polynomial in the length of the text bounds the number of calls, even on
    accepted texts. *)
Theorem C38_not_polynomial : forall c d, exists s sts,
  file s = Ok [] sts /\ c * length s ^ d + c < expression_calls (snd (file_t s)).
Proof.
  intros c d. destruct (beats_polynomial c d) as [n Hn]. destruct (C38_tuples n) as (Hl & Hf & Hc).
  do 2 eexists. split; [exact Hf|]. rewrite Hl. lia.
Qed.
Print Assumptions C38_not_polynomial.
Example C38_instance :
  nested 2 = L "((a,a),a)" /\ arrows 2 = L "((a -> a) -> a)" /\
  expression_calls (snd (file_t (L "x = ((((((a,a),a),a),a),a),a)"))) = 190 /\
  type_calls (snd (file_t (L "port x : (((((a -> a) -> a) -> a) -> a) -> a)"))) = 94.
Proof. vm_compute. auto. Qed.
