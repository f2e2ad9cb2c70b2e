(** * Spacing and comments in a text, seen without the parser

    [relayout s s']: read from left to right, [s] consists of runs of spaces, line
    feeds, comments, strings, character literals and ordinary characters, and [s'] is
    [s] with other numbers of spaces between the words of a line, other blank lines,
    and other texts in its comments. *)
From Verif Require Import Base Spec Ast Whole CommentSpec.

Definition spaces_of (n : nat) : str := repeat space n.
Definition is_sp_nl (c : char) : bool := (c =? space)%N || (c =? newline)%N.

Inductive relayout : str -> str -> Prop :=
| rl_nil : relayout [] []
(** one or more spaces in a line *)
| rl_spaces n m s s' : 0 < n -> 0 < m -> ends (fun c => (c =? space)%N) s ->
    relayout s s' -> relayout (spaces_of n ++ s) (spaces_of m ++ s')
(** a new line, with the same number of spaces before its first character *)
| rl_line k s s' : ends is_sp_nl s ->
    relayout s s' -> relayout (newline :: spaces_of k ++ s) (newline :: spaces_of k ++ s')
(** a new line after one or more blank lines *)
| rl_lines w w' k s s' : forallb is_sp_nl w = true -> forallb is_sp_nl w' = true -> ends is_sp_nl s ->
    relayout s s' -> relayout (newline :: w ++ newline :: spaces_of k ++ s) (newline :: w' ++ newline :: spaces_of k ++ s')
(** comments *)
| rl_comment c c' s s' : forallb not_newline c = true -> forallb not_newline c' = true -> line_end s ->
    relayout s s' -> relayout (L "--" ++ c ++ s) (L "--" ++ c' ++ s')
| rl_block c c' s s' : block_text c -> block_text c' ->
    relayout s s' -> relayout (L "{-" ++ c ++ L "-}" ++ s) (L "{-" ++ c' ++ L "-}" ++ s')
(** literals *)
| rl_string t s s' : string_token s t -> relayout s s' -> relayout (t ++ s) (t ++ s')
| rl_literal t s s' : char_token t -> relayout s s' -> relayout (t ++ s) (t ++ s')
(** a comma, and no, one, or more than one space *)
| rl_comma n m s s' : (n = 0 <-> m = 0) -> (n = 1 <-> m = 1) -> ends (fun c => (c =? space)%N) s ->
    relayout s s' -> relayout (C "," :: spaces_of n ++ s) (C "," :: spaces_of m ++ s')
| rl_char c s s' : ordinary c s -> is_sp_nl c = false -> c <> C "," -> relayout s s' -> relayout (c :: s) (c :: s').
