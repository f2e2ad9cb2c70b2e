(** * The error of a rejected file (model)

    The other files use one value [Err] for all recoverable errors.  Here the
    three outermost parsers are modelled with the content of their error, which
    the tools print: the remaining input and nom's [ErrorKind].  Everything below
    [statement] stays as it is, since [alt!] replaces the errors of its branches
    by its own. *)
From Verif Require Import Base Nom Ast Helpers Stmt.

(** [nom::ErrorKind] (the three kinds that can occur here) *)
Inductive kind := KAlt | KEof | KSeparatedNonEmptyList.

Inductive eres (A : Type) :=
| EOk (rest : str) (a : A)
| EError (rest : str) (k : kind)      (* Err::Error(Context::Code(rest, k)) *)
| EAbort (w : abort).
Arguments EOk {A}. Arguments EError {A}. Arguments EAbort {A}.

(** src/ast/statement/mod.rs:25-39: [alt!] answers [error_position!(i, ErrorKind::Alt)]
    when all branches fail *)
Definition statement_e (s : str) : eres statement_ast :=
  match statement s with
  | Ok r a => EOk r a
  | Err => EError s KAlt
  | Abort w => EAbort w
  end.

(** separated_nonempty_list! with the error of the first element.  An error of a
    later element ends the list, so [sep_loop] of Nom.v is used as it is. *)
Definition statement_list_e (s : str) : eres (list statement_ast) :=
  match statement_e s with
  | EError r k => EError r k
  | EAbort w => EAbort w
  | EOk r a =>
      if length r =? length s then EError s KSeparatedNonEmptyList
      else match sep_loop (S (length r)) multispace0 statement r with
           | Ok r' l => EOk r' (a :: l)
           | Err => EError r KSeparatedNonEmptyList
           | Abort w => EAbort w
           end
  end.

(** src/ast/statement/mod.rs:41-50; [multispace0] does not fail *)
Definition statements_e (s : str) : eres (list statement_ast) :=
  let '(_, s1) := span is_multispace s in
  match statement_list_e s1 with
  | EOk r l => let '(_, r') := span is_multispace r in EOk r' l
  | o => o
  end.

(** src/ast/mod.rs:12-14; [eof!] answers [error_position!(i, ErrorKind::Eof)] *)
Definition file_e (s : str) : eres (list statement_ast) :=
  match statements_e s with
  | EOk [] l => EOk [] l
  | EOk r _ => EError r KEof
  | o => o
  end.

Definition forget {A} (x : eres A) : res A :=
  match x with EOk r a => Ok r a | EError _ _ => Err | EAbort w => Abort w end.
