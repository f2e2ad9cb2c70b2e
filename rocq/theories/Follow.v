(** * What may follow a phrase

    The parser always takes the longest phrase and never backtracks into it, so
    whether a text is read as intended depends on what comes next.  These are
    the conditions used by the relations of Render.v; nothing here refers to the
    parser. *)
From Verif Require Import Base Ast Spec.

(** [s] does not start with a literal, a name, or a bracket: no term starts
    here.  Reserved words are not terms. *)
Definition no_term (s : str) : Prop :=
  match s with
  | [] => True
  | c :: s' =>
      is_upper c = false /\ is_dec c = false /\
      mem_char c (quote :: squote :: L "_([{") = false /\
      (is_lower c = true ->
         exists w r, longest is_name_char w s r /\ In w reserved_words) /\
      (c = C "." -> ends (fun d => is_lower d || (d =? C "_")%N) s') /\
      (c = C "+" \/ c = C "-" -> ends is_dec s')
  end.

(** [s] does not start with an expression: additionally no [let], [case], [if]
    and no lambda. *)
Definition no_expr (s : str) : Prop :=
  no_term s /\ ends (fun c => (c =? backslash)%N) s /\
  ~ (exists w r, longest is_name_char w s r /\ In w [L "let"; L "case"; L "if"]).

(** [s] does not start with an infix operator (or [as]) that is followed by a
    blank. *)
Definition no_operator (s : str) : Prop :=
  ~ exists o b s', s = o ++ b :: s' /\ (o = L "as" \/ operator_name o) /\ is_blank b = true.

(** [r] does not continue a function application at indentation [i]: there is
    no blank space, or the next line is not indented by more than [i], or what
    comes next is not a term. *)
Definition no_arg (i : N) (r : str) : Prop :=
  exists t r', trivia_run r t r' /\
    (t = [] \/ (has_newline t = true /\ (width i t <= i)%N) \/ no_term r').

(** [r] does not continue an operator expression at indentation [i]. *)
Definition no_infix (i : N) (r : str) : Prop :=
  exists t r', trivia_run r t r' /\
    (t = [] \/ (has_newline t = true /\ (width i t < i)%N) \/ no_operator r').

(** [r] does not continue a variable to a field access. *)
Definition no_access (r : str) : Prop :=
  match r with
  | c :: r' => c = C "." -> ends (fun d => is_lower d || (d =? C "_")%N) r'
  | [] => True
  end.

(** [r] does not continue a lower-case name [n] ([_] is never continued). *)
Definition ends_lower (n r : str) : Prop := n = L "_" \/ ends is_name_char r.

(** [r] does not continue a dotted name. *)
Definition ends_dotted (r : str) : Prop :=
  ends is_name_char r /\ ~ exists n r', r = L "." ++ n ++ r' /\ upper_name n.

(** [r] does not continue an integer to a longer integer or a float. *)
Definition ends_integer (r : str) : Prop :=
  ends is_dec r /\ ~ exists d r', r = C "." :: d :: r' /\ is_dec d = true.

(** [s] starts with a triple-quoted string without inner quotes. *)
Definition quotes3 : str := [quote; quote; quote].
Definition multi_at (s r c : str) : Prop := s = quotes3 ++ c ++ quotes3 ++ r /\ no_quote c.
Definition no_multi (s : str) : Prop := ~ exists r c, multi_at s r c.

(** [r] does not continue a type application at indentation [i]. *)
Definition no_type_param (i : N) (r : str) : Prop :=
  exists t r', trivia_run r t r' /\
    (t = [] \/ (has_newline t = true /\ (width i t <= i)%N) \/
     ends (fun c => is_lower c || is_upper c || (c =? C "{")%N || (c =? C "(")%N) r').

(** [r] does not continue a function type. *)
Definition no_arrow (r : str) : Prop :=
  ~ exists b1 b2 s, r = b1 ++ L "->" ++ b2 ++ s /\ spnl1 b1 /\ spnl1 b2.
