(** * Texts that differ in their spaces only

    Nothing here refers to the parser.  [reindented gaps P s s']: the text [s']
    arises from [s] by giving the lines other indentations and, if [gaps] is set, by
    making the gaps within lines wider or narrower.  The old and the new indentation of a line
    are related by [P], unless the line is blank or begins with a comment. *)
From Verif Require Import Base Ast Spec.

Definition spaces_of (n : N) : str := repeat space (N.to_nat n).
Definition is_gap (c : char) : bool := (c =? space)%N.

(** Whether a gap may change if it follows the character [c]: not after a comma
    or a single quote. *)
Definition free (c : char) : bool := negb (mem_char c [space; C ","; squote]).

Section Gaps.
(** whether the gaps within lines may change *)
Variable gaps : bool.

(** [respaced P g s s']: [g] says whether a gap at the beginning of [s] may change. *)
Inductive respaced (P : N -> N -> Prop) : bool -> str -> str -> Prop :=
| rs_nil g : respaced P g [] []
| rs_char g c s s' : c <> newline -> (c = space -> g = false) -> respaced P (free c) s s' ->
    respaced P g (c :: s) (c :: s')
| rs_gap n n' s s' : (gaps = true \/ n = n') -> (0 < n)%N -> (0 < n')%N -> ends is_gap s -> ends is_gap s' ->
    respaced P true s s' -> respaced P true (spaces_of n ++ s) (spaces_of n' ++ s')
| rs_line g n n' s s' : (no_trivia s -> P n n') -> ends is_gap s -> ends is_gap s' ->
    respaced P true s s' -> respaced P g (newline :: spaces_of n ++ s) (newline :: spaces_of n' ++ s').
Definition reindented (P : N -> N -> Prop) (s s' : str) : Prop := respaced P true s s'.

(** [P] relates columns in an order-preserving way and leaves the first column alone.
    (The parser keeps columns in 32 bits.) *)
Record columns (P : N -> N -> Prop) : Prop := {
  columns_order : forall a a' b b', P a a' -> P b b' -> (a < b <-> a' < b')%N;
  columns_small : forall a a', P a a' -> (a < 2 ^ 32 /\ a' < 2 ^ 32)%N;
  columns_zero : P 0%N 0%N
}.

(** ** The same syntax tree up to spaces inside strings and comments *)

Definition same_text (s s' : str) : Prop := reindented (fun _ _ => True) s s'.

Inductive like : expr -> expr -> Prop :=
| like_string s s' : same_text s s' -> like (String_ s) (String_ s')
| like_character c : like (Character c) (Character c)
| like_integer s : like (Integer s) (Integer s)
| like_float s : like (Float s) (Float s)
| like_variable q : like (Variable_ q) (Variable_ q)
| like_access_function n : like (AccessFunction n) (AccessFunction n)
| like_list l l' : Forall2 like l l' -> like (List_ l) (List_ l')
| like_tuple l l' : Forall2 like l l' -> like (Tuple l) (Tuple l')
| like_access e e' fs : like e e' -> like (Access e fs) (Access e' fs)
| like_record l l' : Forall2 (fun f f' => fst f = fst f' /\ like (snd f) (snd f')) l l' ->
    like (Record_ l) (Record_ l')
| like_update n l l' : Forall2 (fun f f' => fst f = fst f' /\ like (snd f) (snd f')) l l' ->
    like (RecordUpdate n l) (RecordUpdate n l')
| like_if a a' b b' c c' : like a a' -> like b b' -> like c c' -> like (If_ a b c) (If_ a' b' c')
| like_let l l' e e' : Forall2 like_entry l l' -> like e e' -> like (Let_ l e) (Let_ l' e')
| like_case e e' l l' : like e e' ->
    Forall2 (fun b b' => like (fst b) (fst b') /\ like (snd b) (snd b')) l l' ->
    like (Case_ e l) (Case_ e' l')
| like_lambda l l' e e' : Forall2 like l l' -> like e e' -> like (Lambda l e) (Lambda l' e')
| like_application f f' x x' : like f f' -> like x x' -> like (Application f x) (Application f' x')
| like_binop o a a' b b' : like a a' -> like b b' -> like (BinOp o a b) (BinOp o a' b')
with like_entry : let_entry -> let_entry -> Prop :=
| like_let_function f f' : like_func f f' -> like_entry (LetFunction f) (LetFunction f')
| like_let_binding t t' e e' : like t t' -> like e e' -> like_entry (LetBinding t e) (LetBinding t' e')
with like_func : func -> func -> Prop :=
| like_func_intro sg d d' : like_def d d' -> like_func (mkFunc sg d) (mkFunc sg d')
with like_def : func_def -> func_def -> Prop :=
| like_def_intro n l l' e e' : Forall2 like l l' -> like e e' -> like_def (mkDef n l e) (mkDef n l' e').

Definition like_statement (x x' : statement_ast) : Prop :=
  match x, x' with
  | PortDeclaration n args e, PortDeclaration n' args' e' => n = n' /\ args = args' /\ like e e'
  | Function_ f, Function_ f' => like_func f f'
  | Comment c, Comment c' => same_text c c'
  | _, _ => x = x'
  end.

End Gaps.

(** ** A text as a list of lines with their indentations *)

Definition line_text (l : N * str) : str := spaces_of (fst l) ++ snd l.
Definition lines_text (ls : list (N * str)) : str := join [newline] (map line_text ls).
(** the rest of a line: no line feed, no further space at the beginning *)
Definition line_rest (b : str) : Prop := ~ In newline b /\ ends is_gap b.
