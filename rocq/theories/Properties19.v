(** * C60: the cost of parsing depends polynomially on the length, exponentially on the nesting only *)
From Verif Require Import Base Nom Regex Ast Spec Helpers Types Expr Stmt Trace TraceProps Blowup BlowupLet Output Cost Depth Poly Properties9.

(** ** C60: with bounded nesting, parsing takes polynomial time

    If at no moment of the parse more than [d] calls of [expression] and [type_] are
    open (see C45), their number and that of the printed lines is at most
    [555 * (n + 1) ^ 5 * (215 * (n + 1) ^ 3) ^ d] where [n] is the length of the text.
    It does not matter whether the text is accepted. *)
Theorem C60_polynomial : forall s d,
  (forall a b, snd (file_t s) = a ++ b -> begun a - ended a <= d) ->
  expression_calls (snd (file_t s)) + type_calls (snd (file_t s)) + length (debug_lines (snd (file_t s))) <=
  555 * (length s + 1) ^ 5 * (215 * (length s + 1) ^ 3) ^ d.
Proof.
  intros s d H. rewrite <- work_split. apply events_polynomial. destruct (file_fits s) as [H1 H2].
  split; [exact H1|]. intros a b E. specialize (H a b E). destruct (H2 a b E). lia.
Qed.
Print Assumptions C60_polynomial.

(** For every bound on the nesting there is one polynomial for all texts. *)
Theorem C60_one_polynomial : forall d, exists c k, forall s,
  (forall a b, snd (file_t s) = a ++ b -> begun a - ended a <= d) ->
  expression_calls (snd (file_t s)) + type_calls (snd (file_t s)) <= c * (length s + 1) ^ k.
Proof.
  intros d. exists (555 * 215 ^ d), (5 + 3 * d). intros s H. pose proof (C60_polynomial s d H) as Hb.
  rewrite Nat.pow_mul_l, <- Nat.pow_mul_r in Hb. rewrite Nat.pow_add_r. nia.
Qed.
Print Assumptions C60_one_polynomial.

(** *** Instances *)

(** the largest number of open calls, computed *)
Fixpoint peak (o : nat) (t : list event) : nat :=
  match t with
  | [] => o
  | CallEnds :: t => Nat.max o (peak (o - 1) t)
  | Printed _ :: t => peak o t
  | _ :: t => peak (S o) t
  end.
Lemma peak_ge o t : o <= peak o t.
Proof.
  revert o. induction t as [|[v| | |] t IH]; intros o; cbn [peak]; [lia|apply IH| | |apply Nat.le_max_l].
  - specialize (IH (S o)). lia.
  - specialize (IH (S o)). lia.
Qed.
Lemma peak_open t a b o : t = a ++ b -> (forall a' b', t = a' ++ b' -> ended a' <= o + begun a') ->
  o + begun a - ended a <= peak o t.
Proof.
  revert t o. induction a as [|x a IH]; intros t o -> H.
  { pose proof (peak_ge o b). change (begun []) with 0. change (ended []) with 0. cbn [app]. lia. }
  assert (H' : forall a' b', a ++ b = a' ++ b' -> ended (x :: a') <= o + begun (x :: a')).
  { intros a' b' E. apply (H _ b'). cbn [app]. rewrite E. reflexivity. }
  clear H. destruct x; cbn [app peak].
  - apply (IH (a ++ b) o eq_refl). exact H'.
  - change (begun (CalledExpression :: a)) with (S (begun a)). change (ended (CalledExpression :: a)) with (ended a).
    etransitivity; [|apply (IH (a ++ b) (S o) eq_refl)]; [lia|]. intros a' b' E. specialize (H' a' b' E).
    change (begun (CalledExpression :: a')) with (S (begun a')) in H'. change (ended (CalledExpression :: a')) with (ended a') in H'. lia.
  - change (begun (CalledType :: a)) with (S (begun a)). change (ended (CalledType :: a)) with (ended a).
    etransitivity; [|apply (IH (a ++ b) (S o) eq_refl)]; [lia|]. intros a' b' E. specialize (H' a' b' E).
    change (begun (CalledType :: a')) with (S (begun a')) in H'. change (ended (CalledType :: a')) with (ended a') in H'. lia.
  - pose proof (H' [] _ eq_refl) as H0. change (S 0 <= o + 0) in H0.
    change (begun (CallEnds :: a)) with (begun a). change (ended (CallEnds :: a)) with (S (ended a)).
    etransitivity; [|apply Nat.le_max_r]. etransitivity; [|apply (IH (a ++ b) (o - 1) eq_refl)]; [lia|].
    intros a' b' E. specialize (H' a' b' E).
    change (begun (CallEnds :: a')) with (begun a') in H'. change (ended (CallEnds :: a')) with (S (ended a')) in H'. lia.
Qed.
Lemma file_peak s a b : snd (file_t s) = a ++ b -> begun a - ended a <= peak 0 (snd (file_t s)).
Proof.
  intros E. apply (peak_open _ a b 0 E). intros a' b' E'. destruct (file_fits s) as [_ H]. apply (H a' b' E').
Qed.

(** an ordinary file, accepted with at most four open calls, and ten copies
    of its definition of [view] *)
Definition definition_of_view : str :=
  L "view : Model -> List (Html msg)" ++ [newline] ++
  L "view m = if m.open then [ div [ class ""a"" ] [], text m.name ] else { m | rows = 1 }" ++ [newline].
Definition ordinary : str :=
  L "import Html exposing (div)" ++ [newline] ++ definition_of_view ++
  L "x = case f 1 of" ++ [newline] ++ L "  A -> 1" ++ [newline] ++ L "  B -> 2".
Example C60_instance :
  (exists l, file ordinary = Ok [] l) /\
  (forall a b, snd (file_t ordinary) = a ++ b -> begun a - ended a <= 4) /\
  (forall a b, snd (file_t (concat (repeat definition_of_view 10))) = a ++ b -> begun a - ended a <= 4).
Proof.
  split; [eexists; vm_compute; reflexivity|]. split; intros a b E.
  - etransitivity; [exact (file_peak _ a b E)|]. vm_compute. repeat constructor.
  - etransitivity; [exact (file_peak _ a b E)|]. vm_compute. repeat constructor.
Qed.
(** The nesting cannot be left out of the exponent: on the texts of C57 it grows
    with the text, and the work is exponential. *)
Example C60_nesting :
  map (fun n => peak 0 (snd (file_t (L "x = " ++ lets n)))) [1; 2; 3; 4] = [2; 3; 4; 5].
Proof. vm_compute. reflexivity. Qed.
