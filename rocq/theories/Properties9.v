(** * C44, C45: the cost of parsing is at most exponential, the nesting of calls at most linear *)
From Verif Require Import Base Nom Regex Ast Spec Helpers Types Expr Stmt Cli Trace TraceProps Blowup Output Cost Depth.

(** ** C44: parsing takes at most exponential time *)

(** [expression_calls], [type_calls] (Blowup.v) count the calls of the recursive
    parsers, [debug_lines] (Output.v) are the lines printed during the parse. *)
Lemma work_split t : work t = expression_calls t + type_calls t + length (debug_lines t).
Proof.
  unfold work, expression_calls, type_calls, debug_lines.
  induction t as [|[v| | |] t IH]; [reflexivity|..]; cbn in *; lia.
Qed.
Theorem C44_bound : forall s,
  expression_calls (snd (file_t s)) + type_calls (snd (file_t s)) + length (debug_lines (snd (file_t s))) <=
  600 ^ length s.
Proof. intros s. rewrite <- work_split. apply events_bound. lia. Qed.
Print Assumptions C44_bound.
(** The exponent cannot be made smaller than linear: with C38, the worst case is
    exponential in the length, from below and from above. *)
Theorem C44_tight : forall n, exists s sts,
  length s = 4 * n + 5 /\ file s = Ok [] sts /\
  2 ^ n <= expression_calls (snd (file_t s)) /\ expression_calls (snd (file_t s)) <= 600 ^ length s.
Proof.
  intros n. exists (L "x = " ++ nested n). eexists. split; [rewrite app_length, nested_length; cbn [length]; lia|].
  split; [rewrite <- er_file, file_nested; reflexivity|]. split.
  - rewrite file_nested. cbn [snd]. pose proof (nested_calls n). pose proof (Nat.pow_nonzero 2 n). lia.
  - pose proof (C44_bound (L "x = " ++ nested n)). lia.
Qed.
Print Assumptions C44_tight.
Example C44_instance :
  expression_calls (snd (file_t (L "x = ('\x41', 1)"))) = 4 /\
  length (debug_lines (snd (file_t (L "x = ('\x41', 1)")))) = 2 /\
  type_calls (snd (file_t (L "port x : (a -> a)"))) = 4.
Proof. vm_compute. auto. Qed.

(** ** C45: the nesting of recursive calls is at most the length of the text *)

(** [begun a] and [ended a] (Depth.v) count the calls of [expression] and [type_]
    that begin and end in the events [a].  At every moment of the parse, that is
    after any beginning [a] of the events, at most [length s] calls are open. *)
Theorem C45_bound : forall s a b, snd (file_t s) = a ++ b ->
  ended a <= begun a /\ begun a - ended a <= length s.
Proof. intros s a b E. destruct (file_fits s) as [_ H]. destruct (H a b E). lia. Qed.
Print Assumptions C45_bound.
(** Every call ends, whether the text is accepted or not. *)
Theorem C45_ends : forall s, begun (snd (file_t s)) = ended (snd (file_t s)).
Proof. intros s. apply (file_fits s). Qed.
Print Assumptions C45_ends.
(** The expectation that the depth is bounded by a constant is refuted: n nested
    pairs need n+1 calls of [expression] at the same time, n nested function types
    n+1 calls of [type_]. *)
Theorem C45_unbounded : forall n,
  (exists s sts a b, length s = 4 * n + 5 /\ file s = Ok [] sts /\
     snd (file_t s) = a ++ b /\ begun a = n + 1 /\ ended a = 0) /\
  (exists s sts a b, length s = 7 * n + 10 /\ file s = Ok [] sts /\
     snd (file_t s) = a ++ b /\ begun a = n + 1 /\ ended a = 0).
Proof.
  intros n. split.
  - destruct (nested_deep n) as [b Hb].
    exists (L "x = " ++ nested n). do 2 eexists. exists b.
    split; [rewrite app_length, nested_length; cbn [length]; lia|].
    split; [rewrite <- er_file, file_nested; reflexivity|].
    split; [rewrite file_nested; exact Hb|]. destruct (begun_repeat (S n)) as [H1 H2]. split; [lia|exact H2].
  - destruct (arrows_deep n) as [b Hb].
    exists (L "port x : " ++ arrows n). do 2 eexists. exists b.
    split; [rewrite app_length, arrows_length; cbn [length]; lia|].
    split; [rewrite <- er_file, file_arrows; reflexivity|].
    split; [rewrite file_arrows; exact Hb|]. destruct (begun_repeat_t (S n)) as [H1 H2]. split; [lia|exact H2].
Qed.
Print Assumptions C45_unbounded.
Example C45_instance :
  snd (file_t (L "x = (a)")) =
  [CalledExpression; CalledExpression; CallEnds; CallEnds] /\
  begun [CalledExpression; CalledExpression] = 2 /\ ended [CalledExpression; CalledExpression] = 0 /\
  snd (file_t (L "x = )")) = [CalledExpression; CallEnds].
Proof. vm_compute. auto. Qed.
