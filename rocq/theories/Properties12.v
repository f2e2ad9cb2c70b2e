(** * C48-C50 *)
From Verif Require Import Base Nom Ast Good Spec Helpers Types Expr Stmt Render CompleteE CompleteX Language Keywords.

(** [lay_ge i t j]: the text [t] is blank space (spaces, line feeds, comments);
    if it contains a line feed, what follows it stands in a column at least [i];
    [j] is that column, [i] if there is no line feed (Spec.v, C15). *)

(** ** C48: conditionals and lambdas, exactly

    [ends is_name_char s]: the word before [s] ends there ([iffy] is a name). *)
Theorem C48_if : forall i s r e, ends is_name_char s ->
  expression i (L "if" ++ s) = Ok r e <->
  exists t1 j1 s1 c t2 j2 t3 j3 s2 a t4 j4 t5 j5 s3 b,
    s = t1 ++ s1 /\ lay_ge i t1 j1 /\
    expression i s1 = Ok (t2 ++ L "then" ++ t3 ++ s2) c /\ lay_ge i t2 j2 /\ lay_ge i t3 j3 /\
    expression j3 s2 = Ok (t4 ++ L "else" ++ t5 ++ s3) a /\ lay_ge i t4 j4 /\ lay_ge i t5 j5 /\
    expression j5 s3 = Ok r b /\ e = If_ c a b.
Proof. exact if_iff. Qed.
Print Assumptions C48_if.
Theorem C48_lambda : forall i s r e, expression i (L "\" ++ s) = Ok r e <->
  exists x s1 xs t1 j1 t2 j2 s2 b,
    term i s = Ok s1 x /\ items tabs1 (next_argument i) s1 xs (t1 ++ L "->" ++ t2 ++ s2) /\
    lay_ge i t1 j1 /\ lay_ge i t2 j2 /\ expression j2 s2 = Ok r b /\ e = Lambda (x :: xs) b.
Proof. exact lambda_iff. Qed.
Print Assumptions C48_lambda.
(** An [else if] chain and a lambda with two arguments; a [then] that is not
    indented; a lambda argument on a new line is not accepted. *)
Example C48_instance :
  expression 2 (L "if a then 1 else if b then
   2
  else 3") = Ok [] (If_ (Variable_ [L "a"]) (Integer (L "1"))
    (If_ (Variable_ [L "b"]) (Integer (L "2")) (Integer (L "3")))) /\
  expression 2 (L "if a
 then 1 else 2") = Err /\
  expression 0 (L "\x y -> x") = Ok [] (Lambda [Variable_ [L "x"]; Variable_ [L "y"]] (Variable_ [L "x"])) /\
  expression 0 (L "\x
  y -> x") = Err.
Proof. vm_compute. auto. Qed.

(** ** C49: case expressions, exactly, and the off-side rule for branches

    The column [m] of the first branch is fixed by the layout after [of].  A
    [branch m] is a pattern, an arrow and a result (Language.v); a further branch
    belongs to the same case exactly if it stands in column [m]. *)
Theorem C49_case : forall i s r e, ends is_name_char s ->
  expression i (L "case" ++ s) = Ok r e <->
  exists t1 j1 s1 e0 t2 j2 t3 m s2 b bs s3,
    s = t1 ++ s1 /\ lay_ge i t1 j1 /\
    expression i s1 = Ok (t2 ++ L "of" ++ t3 ++ s2) e0 /\ lay_ge i t2 j2 /\ lay_ge i t3 m /\
    branch m s2 b s3 /\ items (same_column m) (branch m) s3 bs r /\ no_item (same_column m) (branch m) r /\
    e = Case_ e0 (b :: bs).
Proof. exact case_iff. Qed.
Print Assumptions C49_case.
Theorem C49_offside : forall m t s b r,
  trivia t -> closed t -> has_newline t = true -> branch m s b r ->
  (no_item (same_column m) (branch m) (t ++ s) <-> width m t <> m).
Proof. intros m t s b r. apply offside_items. intros s0 x0 r0. apply branch_no_trivia. Qed.
Print Assumptions C49_offside.
(** Two branches in column 4, then one in column 2, which is left. *)
Example C49_instance :
  expression 2 (L "case x of
    A -> 1
    B -> 2
  C -> 3") = Ok (L "
  C -> 3") (Case_ (Variable_ [L "x"])
    [(Variable_ [L "A"], Integer (L "1")); (Variable_ [L "B"], Integer (L "2"))]) /\
  (exists b r, branch 4 (L "C -> 3") b r) /\ width 4 (L "
  ") <> 4%N.
Proof.
  split; [vm_compute; reflexivity|]. split; [|vm_compute; discriminate].
  exists (Variable_ [L "C"], Integer (L "3")), []. apply branch_iff. vm_compute. reflexivity.
Qed.

(** ** C50: let expressions, exactly, and the off-side rule for entries *)
Theorem C50_let : forall i s r e, ends is_name_char s ->
  expression i (L "let" ++ s) = Ok r e <->
  exists t1 m s1 x s2 es t2 j2 t3 j3 s3 b,
    s = t1 ++ s1 /\ lay_ge i t1 m /\
    let_item m s1 x s2 /\ items (same_column m) (let_item m) s2 es (t2 ++ L "in" ++ t3 ++ s3) /\
    lay_ge i t2 j2 /\ lay_ge i t3 j3 /\ expression i s3 = Ok r b /\ e = Let_ (x :: es) b.
Proof. exact let_iff. Qed.
Print Assumptions C50_let.
Theorem C50_binding : forall m s r x, let_binding m s = Ok r x <->
  exists p t1 j1 t2 j2 s' e, let_binding_target m s = Ok (t1 ++ L "=" ++ t2 ++ s') p /\
    lay_ge m t1 j1 /\ lay_ge m t2 j2 /\ expression j2 s' = Ok r e /\ x = LetBinding p e.
Proof. exact let_binding_iff. Qed.
Print Assumptions C50_binding.
Theorem C50_offside : forall m t s x r,
  trivia t -> closed t -> has_newline t = true -> let_item m s x r ->
  (no_item (same_column m) (let_item m) (t ++ s) <-> width m t <> m).
Proof. intros m t s x r. apply offside_items. intros s0 x0 r0. apply let_item_no_trivia. Qed.
Print Assumptions C50_offside.
Example C50_instance :
  expression 2 (L "let
    a = 1
    b = 2
  in a") = Ok [] (Let_ [LetBinding (Variable_ [L "a"]) (Integer (L "1"));
    LetBinding (Variable_ [L "b"]) (Integer (L "2"))] (Variable_ [L "a"])) /\
  expression 2 (L "let
    a = 1
   b = 2
  in a") = Err /\
  (exists x r, let_item 4 (L "b = 2") x r) /\ width 4 (L "
   ") <> 4%N.
Proof.
  split; [vm_compute; reflexivity|]. split; [vm_compute; reflexivity|]. split; [|vm_compute; discriminate].
  eexists _, _. apply entry_iff. vm_compute. reflexivity.
Qed.
