(** * Comments in a text, seen without the parser

    [recomment s s']: read from left to right, [s] consists of comments, strings,
    character literals and ordinary characters, and [s'] is [s] with other texts in
    its comments. *)
From Verif Require Import Base Spec Ast Whole.

(** the text after the letters [infix], with [l] or [r], blanks and digits: the sign
    [--] is not reached *)
Definition lead (c : char) : bool := (c =? space)%N || is_dec c || (c =? C "l")%N || (c =? C "r")%N.
Definition quiet (s : str) : Prop := forall a b, s = a ++ L "--" ++ b -> forallb lead a = false.

(** [c] before [s] is an ordinary character: no comment, string or character literal
    begins here, and no line comment begins right after an operator symbol, a
    parenthesis, or the number in an [infix] declaration *)
Definition ordinary (c : char) (s : str) : Prop :=
  c <> quote /\ c <> squote /\ ~ dashes (c :: s) /\
  (is_op_char c = true \/ c = C "(" -> ~ dashes s) /\
  (c = C "{" -> ends (fun x => (x =? C "-")%N) s) /\
  (forall r, c :: s = L "infix" ++ r -> quiet r).

(** the text of a block comment: it is not empty and does not begin with a minus *)
Definition block_text (c : str) : Prop :=
  ~ (exists a b, c = a ++ L "-}" ++ b) /\ exists x c', c = x :: c' /\ x <> C "-".

Inductive recomment : str -> str -> Prop :=
| rc_nil : recomment [] []
| rc_line c c' s s' : forallb not_newline c = true -> forallb not_newline c' = true -> line_end s ->
    recomment s s' -> recomment (L "--" ++ c ++ s) (L "--" ++ c' ++ s')
| rc_block c c' s s' : block_text c -> block_text c' ->
    recomment s s' -> recomment (L "{-" ++ c ++ L "-}" ++ s) (L "{-" ++ c' ++ L "-}" ++ s')
| rc_string t s s' : string_token s t -> recomment s s' -> recomment (t ++ s) (t ++ s')
| rc_literal t s s' : char_token t -> recomment s s' -> recomment (t ++ s) (t ++ s')
| rc_char c s s' : ordinary c s -> recomment s s' -> recomment (c :: s) (c :: s').

(** statements that differ at most in the text of a comment *)
Inductive same_code : statement_ast -> statement_ast -> Prop :=
| same_comment c c' : same_code (Comment c) (Comment c')
| same_statement a : same_code a a.
