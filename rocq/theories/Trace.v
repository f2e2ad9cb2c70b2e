(** * The effects of a parse: debugging output and recursive calls

    The parsers of the crate are pure but for one [println!] (src/ast/expression/character.rs:18).
    This file models every parser a second time, now with the list of what
    happens while it runs, also in alternatives that are given up later:
    the values printed by that [println!], and the beginning and the end of the
    calls of the two recursive parsers [expression] and [type_] (their number is
    a measure of the running time, their nesting one of the stack).  TraceProps.v proves that forgetting the list gives back the parsers
    of Types.v, Expr.v and Stmt.v, so the two models cannot disagree. *)
From Verif Require Import Base Nom Regex Ast Helpers Types Expr Stmt.

Inductive event :=
| Printed (r : option N)      (* src/ast/expression/character.rs:18: [println!("{:?}", r)]; [None] is [Err(_)] *)
| CalledExpression            (* src/ast/expression/mod.rs:343-351: a call of [expression] *)
| CalledType                  (* src/ast/type_/mod.rs:124-137: a call of [type_] *)
| CallEnds.                   (* the end of the last call that has not ended yet *)

Definition tparser (A : Type) := str -> res A * list event.

(** A parser without effects. *)
Definition quiet {A} (p : parser A) : tparser A := fun s => (p s, []).
Coercion quiet : parser >-> tparser.

(** The macros of Nom.v: the result is computed in the same way, the events are
    put one after the other. *)
Definition bind_t {A B} (p : tparser A) (f : A -> tparser B) : tparser B :=
  fun s => match p s with
           | (Ok r a, t) => let '(x, t') := f a r in (x, t ++ t')
           | (Err, t) => (Err, t)
           | (Abort w, t) => (Abort w, t)
           end.
Notation "x <~ p ~; q" := (bind_t p (fun x => q))
  (at level 100, p at next level, right associativity).
Notation "p ;~; q" := (bind_t p (fun _ => q))
  (at level 100, right associativity).
Definition map_t {A B} (f : A -> B) (p : tparser A) : tparser B :=
  fun s => match p s with
           | (Ok r a, t) => (Ok r (f a), t)
           | (Err, t) => (Err, t)
           | (Abort w, t) => (Abort w, t)
           end.
Definition map_res_t {A B} (f : A -> option B) (p : tparser A) : tparser B :=
  fun s => match p s with
           | (Ok r a, t) => (match f a with Some b => Ok r b | None => Err end, t)
           | (Err, t) => (Err, t)
           | (Abort w, t) => (Abort w, t)
           end.
(** [map_res!] with a closure that prints its argument first *)
Definition map_res_print (p : parser (option N)) : tparser N :=
  fun s => match p s with
           | Ok r a => (match a with Some b => Ok r b | None => Err end, [Printed a])
           | Err => (Err, [])
           | Abort w => (Abort w, [])
           end.
Definition alt_t {A} (p q : tparser A) : tparser A :=
  fun s => match p s with
           | (Err, t) => let '(x, t') := q s in (x, t ++ t')
           | o => o
           end.
Infix "<||>" := alt_t (at level 60, right associativity).
Definition opt_t {A} (p : tparser A) : tparser (option A) :=
  fun s => match p s with
           | (Ok r a, t) => (Ok r (Some a), t)
           | (Err, t) => (Ok s None, t)
           | (Abort w, t) => (Abort w, t)
           end.
Definition preceded_t {A B} (p : tparser A) (q : tparser B) : tparser B :=
  p ;~; q.
Definition terminated_t {A B} (p : tparser A) (q : tparser B) : tparser A :=
  a <~ p ~; q ;~; ret a.
Definition delimited_t {A B D} (p : tparser A) (q : tparser B) (t : tparser D) : tparser B :=
  p ;~; b <~ q ~; t ;~; ret b.
Definition separated_pair_t {A B D} (p : tparser A) (sep : tparser B) (q : tparser D)
  : tparser (A * D) :=
  a <~ p ~; sep ;~; b <~ q ~; ret (a, b).
Fixpoint many0_loop_t {A} (n : nat) (p : tparser A) (s : str) : res (list A) * list event :=
  match n with
  | O => (Abort OutOfFuel, [])
  | S n' =>
      match p s with
      | (Ok r a, t) =>
          if length r =? length s then (if at_eof then Ok s [] else Err, t)
          else match many0_loop_t n' p r with
               | (Ok r' l, t') => (Ok r' (a :: l), t ++ t')
               | (o, t') => (o, t ++ t')
               end
      | (Err, t) => (Ok s [], t)
      | (Abort w, t) => (Abort w, t)
      end
  end.
Definition many0_t {A} (p : tparser A) : tparser (list A) :=
  fun s => many0_loop_t (S (length s)) p s.
Fixpoint sep_loop_t {A B} (n : nat) (sep : tparser B) (p : tparser A) (s : str)
  : res (list A) * list event :=
  match n with
  | O => (Abort OutOfFuel, [])
  | S n' =>
      match sep s with
      | (Err, t) => (Ok s [], t)
      | (Abort w, t) => (Abort w, t)
      | (Ok s2 _, t) =>
          if length s2 =? length s then (Ok s [], t)
          else match p s2 with
               | (Err, t2) => (Ok s [], t ++ t2)
               | (Abort w, t2) => (Abort w, t ++ t2)
               | (Ok s3 a, t2) =>
                   if length s3 =? length s2 then (Ok s [], t ++ t2)
                   else match sep_loop_t n' sep p s3 with
                        | (Ok r l, t3) => (Ok r (a :: l), t ++ t2 ++ t3)
                        | (o, t3) => (o, t ++ t2 ++ t3)
                        end
               end
      end
  end.
Definition separated_list_t {A B} (sep : tparser B) (p : tparser A) : tparser (list A) :=
  fun s => match p s with
           | (Err, t) => (Ok s [], t)
           | (Abort w, t) => (Abort w, t)
           | (Ok r a, t) =>
               if length r =? length s then (Err, t)
               else match sep_loop_t (S (length r)) sep p r with
                    | (Ok r' l, t') => (Ok r' (a :: l), t ++ t')
                    | (o, t') => (o, t ++ t')
                    end
           end.
Definition separated_nonempty_list_t {A B} (sep : tparser B) (p : tparser A)
  : tparser (list A) :=
  fun s => match p s with
           | (Err, t) => (Err, t)
           | (Abort w, t) => (Abort w, t)
           | (Ok r a, t) =>
               if length r =? length s then (Err, t)
               else match sep_loop_t (S (length r)) sep p r with
                    | (Ok r' l, t') => (Ok r' (a :: l), t ++ t')
                    | (o, t') => (o, t ++ t')
                    end
           end.


(** ** Types.v *)


Section TraceT.
  Variable T : N -> tparser type_ast.   (* the recursive parser [type_] *)

  (** src/ast/type_/mod.rs:139-169 *)
  Definition type_annotation_f_t (i : N) : tparser type_ast :=
    map_res_t arrow_of_list
      (separated_nonempty_list_t
         (delimited_t spaces_and_newlines (tag (L "->")) spaces_and_newlines)
         (T i)).

  (** src/ast/type_/mod.rs:24-40 *)
  Definition type_tuple_f_t (i : N) : tparser type_ast :=
    map_t TypeTuple
      (delimited_t
         (preceded_t (char_ (C "(")) (opt_sp i))
         (separated_list_t (comma_sep i) (T i))
         (terminated_t (opt_sp i) (char_ (C ")")))).

  (** src/ast/type_/mod.rs:42-51 *)
  Definition type_record_pair_f_t (i : N) : tparser (str * type_ast) :=
    name <~ lo_name ~;
    opt_sp i ;~;
    char_ (C ":") ;~;
    opt_sp i ;~;
    t <~ type_annotation_f_t i ~;
    ret (name, t).

  (** src/ast/type_/mod.rs:53-62 *)
  Definition type_record_pairs_f_t (i : N) : tparser (list (str * type_ast)) :=
    separated_list_t (comma_sep i) (type_record_pair_f_t i).

  (** src/ast/type_/mod.rs:64-79 *)
  Definition type_record_constructor_f_t (i : N) : tparser type_ast :=
    delimited_t (char_ (C "{"))
      (spaces_or_new_lines_and_indent i IR_GTE ;~;
       var <~ type_variable ~;
       spaces_or_new_lines_and_indent i IR_GTE ;~;
       char_ (C "|") ;~;
       spaces_or_new_lines_and_indent i IR_GTE ;~;
       record_pairs <~ type_record_pairs_f_t i ~;
       spaces_or_new_lines_and_indent i IR_GTE ;~;
       ret (TypeRecordConstructor var record_pairs))
      (char_ (C "}")).

  (** src/ast/type_/mod.rs:81-90 *)
  Definition type_record_f_t (i : N) : tparser type_ast :=
    delimited_t
      (preceded_t (char_ (C "{")) (opt_sp i))
      (map_t TypeRecord (type_record_pairs_f_t i))
      (terminated_t (opt_sp i) (char_ (C "}"))).

  (** The parenthesised annotation of src/ast/type_/mod.rs:99-103 and 131-135 *)
  Definition type_parens_f_t (i : N) : tparser type_ast :=
    delimited_t
      (preceded_t (char_ (C "(")) (opt_sp i))
      (type_annotation_f_t i)
      (terminated_t (opt_sp i) (char_ (C ")"))).

  (** src/ast/type_/mod.rs:92-105 *)
  Definition type_parameter_f_t (i : N) : tparser type_ast :=
    type_variable
    <||> type_constant
    <||> type_record_constructor_f_t i
    <||> type_record_f_t i
    <||> type_tuple_f_t i
    <||> type_parens_f_t i.

  (** src/ast/type_/mod.rs:107-122 *)
  Definition type_constructor_f_t (i : N) : tparser type_ast :=
    first <~ separated_nonempty_list_t (char_ (C ".")) up_name ~;
    second <~ many0_t (new_indent <~ spaces_or_new_lines_and_indent i IR_GT ~;
                     t <~ type_parameter_f_t new_indent ~;
                     ret t) ~;
    ret (TypeConstructor first second).

  (** src/ast/type_/mod.rs:124-137 *)
  Definition type_f_t (i : N) : tparser type_ast :=
    type_constructor_f_t i
    <||> type_variable
    <||> type_record_constructor_f_t i
    <||> type_record_f_t i
    <||> type_tuple_f_t i
    <||> type_parens_f_t i.
End TraceT.

(** src/ast/type_/mod.rs:124-137; the call itself is recorded *)
Fixpoint type_n_t (n : nat) (i : N) (s : str) : res type_ast * list event :=
  match n with
  | O => (Abort OutOfFuel, [])
  | S n' => let '(x, t) := type_f_t (type_n_t n') i s in (x, CalledType :: t ++ [CallEnds])
  end.

Definition type__t (i : N) : tparser type_ast := fun s => type_n_t (S (length s)) i s.

Definition type_annotation_t (i : N) : tparser type_ast := type_annotation_f_t type__t i.
Definition type_constructor_t (i : N) : tparser type_ast := type_constructor_f_t type__t i.

(** ** Expr.v *)


(** src/ast/expression/character.rs:8-24, with the [println!] of line 18 *)
Definition character_content_t : tparser char :=
  map_res_print
    (tag (L "\x") ;;; code <- take 2 ;; ret (u8_from_str_radix_16 code))
  <||> anychar.

(** src/ast/expression/character.rs:26-33; 39 is the single quote *)
Definition character_t : tparser expr :=
  map_t Character (delimited_t (char_ 39%N) character_content_t (char_ 39%N)).

(** src/ast/expression/function.rs:10-22 *)
Definition function_signature_t (i : N) : tparser function_signature_ast :=
  name <~ binding_name ~;
  spaces ;~;
  char_ (C ":") ;~;
  new_indent <~ spaces_or_new_lines_and_indent i IR_GT ~;
  t <~ type_annotation_t new_indent ~;
  ret (mkSig name t).

Section TraceE.
  Variable E : N -> tparser expr.   (* the recursive parser [expression] *)

  (** src/ast/expression/mod.rs:30-46 *)
  Definition tuple_f_t (i : N) : tparser expr :=
    map_t Tuple
      (delimited_t (char_ (C "("))
         (separated_list_t (char_ (C ","))
            (delimited_t multispace0 (E i) multispace0))
         (char_ (C ")"))).

  (** src/ast/expression/mod.rs:48-67 *)
  Definition list_f_t (i : N) : tparser expr :=
    map_t (fun o => List_ (match o with Some l => l | None => [] end))
      (delimited_t
         (preceded_t (char_ (C "[")) (opt_sp i))
         (opt_t (separated_list_t (comma_sep i) (E i)))
         (terminated_t (opt_sp i) (char_ (C "]")))).

  (** src/ast/expression/mod.rs:79-87 *)
  Definition record_field_f_t (i : N) : tparser (str * expr) :=
    separated_pair_t lo_name
      (delimited_t (opt_sp i) (char_ (C "=")) (opt_sp i))
      (E i).

  (** src/ast/expression/mod.rs:69-93 *)
  Definition record_f_t (i : N) : tparser expr :=
    map_t Record_
      (delimited_t
         (preceded_t (char_ (C "{")) (opt_sp i))
         (separated_list_t (comma_sep i) (record_field_f_t i))
         (terminated_t (opt_sp i) (char_ (C "}")))).

  (** src/ast/expression/mod.rs:128-135 *)
  Definition update_field_f_t (i : N) : tparser (str * expr) :=
    name <~ lo_name ~;
    multispace0 ;~;
    char_ (C "=") ;~;
    multispace0 ;~;
    e <~ E i ~;
    ret (name, e).

  (** src/ast/expression/mod.rs:114-141 *)
  Definition record_update_f_t (i : N) : tparser expr :=
    delimited_t
      (preceded_t (char_ (C "{")) (opt_spaces_or_new_lines_and_indent i IR_GTE))
      (name <~ lo_name ~;
       opt_spaces_or_new_lines_and_indent i IR_GTE ;~;
       char_ (C "|") ;~;
       multispace0 ;~;
       pairs <~ separated_list_t
                  (delimited_t
                     (opt_spaces_or_new_lines_and_indent i IR_GTE)
                     (char_ (C ","))
                     (opt_spaces_or_new_lines_and_indent i IR_GTE))
                  (update_field_f_t i) ~;
       ret (RecordUpdate name pairs))
      (terminated_t (spaces_or_new_lines_and_indent i IR_GTE) (char_ (C "}"))).

  (** src/ast/expression/mod.rs:143-149 *)
  Definition parens_f_t (i : N) : tparser expr :=
    delimited_t (char_ (C "(")) (E i) (char_ (C ")")).

  (** src/ast/expression/mod.rs:153-169 *)
  Definition term_f_t (i : N) : tparser expr :=
    access
    <||> variable
    <||> access_function
    <||> string_
    <||> float
    <||> integer
    <||> character_t
    <||> parens_f_t i
    <||> list_f_t i
    <||> tuple_f_t i
    <||> record_update_f_t i
    <||> record_f_t i
    <||> simplified_record.

  (** src/ast/expression/mod.rs:173-183 *)
  Definition lambda_f_t (i : N) : tparser expr :=
    char_ 92%N ;~;
    args <~ separated_nonempty_list_t space1 (term_f_t i) ~;
    spaces_or_new_lines_and_indent i IR_GTE ;~;
    tag (L "->") ;~;
    new_indent <~ spaces_or_new_lines_and_indent i IR_GTE ~;
    body <~ E new_indent ~;
    ret (Lambda args body).

  (** src/ast/expression/mod.rs:187-208 *)
  Definition application_or_var_f_t (i : N) : tparser expr :=
    map_res_t application_of_list
      (separated_list_t (spaces_or_new_lines_and_indent i IR_GT) (term_f_t i)).

  (** src/ast/expression/function.rs:24-37 *)
  Definition function_definition_f_t (i : N) : tparser func_def :=
    name <~ binding_name ~;
    args <~ many0_t (preceded_t spaces (term_f_t i)) ~;
    spaces ;~;
    char_ (C "=") ;~;
    new_indent <~ spaces_or_new_lines_and_indent i IR_GT ~;
    body <~ E new_indent ~;
    ret (mkDef name args body).

  (** src/ast/expression/function.rs:39-50 *)
  Definition function_f_t (i : N) : tparser func :=
    signature <~ opt_t (terminated_t (function_signature_t i) (new_line_and_same_indent i)) ~;
    definition <~ function_definition_f_t i ~;
    ret (mkFunc signature definition).

  (** src/ast/expression/mod.rs:212-219 *)
  Definition let_binding_target_f_t (i : N) : tparser expr :=
    variable <||> list_f_t i <||> tuple_f_t i <||> simplified_record.

  (** src/ast/expression/mod.rs:221-230 *)
  Definition let_binding_f_t (i : N) : tparser let_entry :=
    binding <~ let_binding_target_f_t i ~;
    spaces_or_new_lines_and_indent i IR_GTE ;~;
    char_ (C "=") ;~;
    new_indent <~ spaces_or_new_lines_and_indent i IR_GTE ~;
    e <~ E new_indent ~;
    ret (LetBinding binding e).

  (** src/ast/expression/mod.rs:232-240 *)
  Definition let_bindings_f_t (i : N) : tparser (list let_entry) :=
    separated_nonempty_list_t
      (spaces_or_new_lines_and_indent i IR_EQ)
      (let_binding_f_t i <||> map_t LetFunction (function_f_t i)).

  (** src/ast/expression/mod.rs:242-253 *)
  Definition let_expression_f_t (i : N) : tparser expr :=
    tag (L "let") ;~;
    assignment_indentation <~ spaces_or_new_lines_and_indent i IR_GTE ~;
    assignments <~ let_bindings_f_t assignment_indentation ~;
    spaces_or_new_lines_and_indent i IR_GTE ;~;
    tag (L "in") ;~;
    spaces_or_new_lines_and_indent i IR_GTE ;~;
    e <~ E i ~;
    ret (Let_ assignments e).

  (** src/ast/expression/mod.rs:257-266 *)
  Definition case_f_t (i : N) : tparser (expr * expr) :=
    matcher <~ E i ~;
    spaces_or_new_lines_and_indent i IR_GTE ;~;
    tag (L "->") ;~;
    new_indent <~ spaces_or_new_lines_and_indent i IR_GTE ~;
    e <~ E new_indent ~;
    ret (matcher, e).

  (** src/ast/expression/mod.rs:268-273 *)
  Definition cases_f_t (i : N) : tparser (list (expr * expr)) :=
    separated_nonempty_list_t (spaces_or_new_lines_and_indent i IR_EQ) (case_f_t i).

  (** src/ast/expression/mod.rs:275-286 *)
  Definition case_expression_f_t (i : N) : tparser expr :=
    tag (L "case") ;~;
    spaces_or_new_lines_and_indent i IR_GTE ;~;
    e <~ E i ~;
    spaces_or_new_lines_and_indent i IR_GTE ;~;
    tag (L "of") ;~;
    new_indent <~ spaces_or_new_lines_and_indent i IR_GTE ~;
    cs <~ cases_f_t new_indent ~;
    ret (Case_ e cs).

  (** src/ast/expression/mod.rs:290-305 *)
  Definition if_expression_f_t (i : N) : tparser expr :=
    tag (L "if") ;~;
    spaces_or_new_lines_and_indent i IR_GTE ;~;
    test <~ E i ~;
    spaces_or_new_lines_and_indent i IR_GTE ;~;
    tag (L "then") ;~;
    new_if_indent <~ spaces_or_new_lines_and_indent i IR_GTE ~;
    if_exp <~ E new_if_indent ~;
    spaces_or_new_lines_and_indent i IR_GTE ;~;
    tag (L "else") ;~;
    new_else_indent <~ spaces_or_new_lines_and_indent i IR_GTE ~;
    else_exp <~ E new_else_indent ~;
    ret (If_ test if_exp else_exp).

  (** src/ast/expression/mod.rs:324-330 *)
  Definition operator_exp_f_t (i : N) : tparser (expr * expr) :=
    spaces_or_new_lines_and_indent i IR_GTE ;~;
    o <~ operator_or_as ~;
    multispace ;~;
    e <~ E i ~;
    ret (o, e).

  (** src/ast/expression/mod.rs:319-341 *)
  Definition binary_f_t (i : N) : tparser expr :=
    a <~ application_or_var_f_t i ~;
    oe <~ opt_t (operator_exp_f_t i) ~;
    ret (match oe with
         | Some (o, e) => BinOp o a e
         | None => a
         end).

  (** src/ast/expression/mod.rs:343-351 *)
  Definition expression_f_t (i : N) : tparser expr :=
    binary_f_t i
    <||> let_expression_f_t i
    <||> case_expression_f_t i
    <||> if_expression_f_t i
    <||> lambda_f_t i.
End TraceE.

(** src/ast/expression/mod.rs:343-351; the call itself is recorded *)
Fixpoint expression_n_t (n : nat) (i : N) (s : str) : res expr * list event :=
  match n with
  | O => (Abort OutOfFuel, [])
  | S n' => let '(x, t) := expression_f_t (expression_n_t n') i s in (x, CalledExpression :: t ++ [CallEnds])
  end.

Definition expression_t (i : N) : tparser expr :=
  fun s => expression_n_t (S (length s)) i s.

(** The parsers of src/ast/expression/mod.rs and src/ast/expression/function.rs proper. *)
Definition term_t (i : N) : tparser expr := term_f_t expression_t i.
Definition tuple_t (i : N) : tparser expr := tuple_f_t expression_t i.
Definition list_expr_t (i : N) : tparser expr := list_f_t expression_t i.
Definition record_t (i : N) : tparser expr := record_f_t expression_t i.
Definition record_update_t (i : N) : tparser expr := record_update_f_t expression_t i.
Definition parens_t (i : N) : tparser expr := parens_f_t expression_t i.
Definition lambda_t (i : N) : tparser expr := lambda_f_t expression_t i.
Definition application_or_var_t (i : N) : tparser expr := application_or_var_f_t expression_t i.
Definition binary_t (i : N) : tparser expr := binary_f_t expression_t i.
Definition let_binding_t (i : N) : tparser let_entry := let_binding_f_t expression_t i.
Definition let_bindings_t (i : N) : tparser (list let_entry) := let_bindings_f_t expression_t i.
Definition let_expression_t (i : N) : tparser expr := let_expression_f_t expression_t i.
Definition case_expression_t (i : N) : tparser expr := case_expression_f_t expression_t i.
Definition if_expression_t (i : N) : tparser expr := if_expression_f_t expression_t i.
Definition function_definition_t (i : N) : tparser func_def := function_definition_f_t expression_t i.
Definition function_t (i : N) : tparser func := function_f_t expression_t i.

(** ** Stmt.v *)


(** ** src/ast/statement/type_declaration.rs *)

(** src/ast/statement/type_declaration.rs:7-20 *)
Definition type_alias_declaration_t : tparser statement_ast :=
  tag (L "type") ;~;
  spaces ;~;
  tag (L "alias") ;~;
  spaces ;~;
  name <~ type__t 0 ~;
  spaces ;~;
  char_ (C "=") ;~;
  spaces_or_new_lines_and_indent 1 IR_GTE ;~;
  declaration <~ type_annotation_t 1 ~;
  ret (TypeAliasDeclaration name declaration).

(** src/ast/statement/type_declaration.rs:22-36 *)
Definition type_declaration_t (i : N) : tparser statement_ast :=
  tag (L "type") ;~;
  spaces ;~;
  name <~ type__t i ~;
  new_indent <~ spaces_or_new_lines_and_indent 0 IR_GT ~;
  char_ (C "=") ;~;
  spaces_or_new_lines_and_indent new_indent IR_GTE ;~;
  definition <~ separated_nonempty_list_t
                  (delimited_t (spaces_or_new_lines_and_indent new_indent IR_GTE)
                             (char_ (C "|")) spaces)
                  (type_constructor_t new_indent) ~;
  ret (TypeDeclaration name definition).

(** ** src/ast/statement/port.rs *)

(** src/ast/statement/port.rs:8-19 *)
Definition port_type_declaration_t : tparser statement_ast :=
  tag (L "port") ;~;
  spaces ;~;
  name <~ lo_name ~;
  spaces ;~;
  char_ (C ":") ;~;
  new_indent <~ spaces_or_new_lines_and_indent 0 IR_GT ~;
  t <~ type_annotation_t new_indent ~;
  ret (PortTypeDeclaration name t).

(** src/ast/statement/port.rs:21-33 *)
Definition port_declaration_t : tparser statement_ast :=
  tag (L "port") ;~;
  spaces ;~;
  name <~ lo_name ~;
  args <~ many0_t (preceded_t spaces lo_name) ~;
  spaces ;~;
  char_ (C "=") ;~;
  new_indent <~ spaces_or_new_lines_and_indent 0 IR_GT ~;
  e <~ expression_t new_indent ~;
  ret (PortDeclaration name args e).

(** ** src/ast/statement/mod.rs *)

(** src/ast/statement/mod.rs:25-39 *)
Definition statement_t : tparser statement_ast :=
  port_module_declaration
  <||> effect_module_declaration
  <||> module_declaration
  <||> import_statement
  <||> type_alias_declaration_t
  <||> type_declaration_t 0
  <||> port_type_declaration_t
  <||> port_declaration_t
  <||> map_t Function_ (function_t 0)
  <||> infix_declaration
  <||> comment.

(** src/ast/statement/mod.rs:41-50 *)
Definition statements_t : tparser (list statement_ast) :=
  delimited_t multispace0 (separated_nonempty_list_t multispace0 statement_t) multispace0.

(** ** src/ast/mod.rs:12-14 *)
Definition file_t : tparser (list statement_ast) := terminated_t statements_t eof.