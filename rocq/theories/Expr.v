(** * src/ast/expression/*.rs

    As in Types.v, the parsers take the recursive parser [expression] as a
    parameter [E]; all recursion of the Rust code goes through it. *)
From Verif Require Import Base Nom Regex Ast Helpers Types.

(** ** src/ast/expression/variable.rs *)

(** src/ast/expression/variable.rs:6-11 *)
Definition lower_case : parser expr := map_ (fun v => Variable_ [v]) lo_name.

(** src/ast/expression/variable.rs:13-18 *)
Definition upper_with_dots : parser expr :=
  map_ Variable_ (separated_nonempty_list (char_ (C ".")) up_name).

(** src/ast/expression/variable.rs:20-31 *)
Definition op : parser expr :=
  map_ (fun s => Variable_ [s])
       (delimited (char_ (C "(")) (operator <|> is_a (L ",")) (char_ (C ")"))).

(** src/ast/expression/variable.rs:33-39 *)
Definition variable : parser expr := lower_case <|> upper_with_dots <|> op.

(** ** src/ast/expression/access.rs:7-19 *)
Definition access : parser expr :=
  var <- variable ;;
  accessors <- many1 (char_ (C ".") ;;; name <- lo_name ;; ret name) ;;
  ret (Access var accessors).

(** ** src/ast/expression/access_function.rs:6-12 *)
Definition access_function : parser expr :=
  char_ (C ".") ;;; name <- lo_name ;; ret (AccessFunction name).

(** ** src/ast/expression/string.rs *)

(** The regular expression of src/ast/expression/string.rs:9: begin, then any number of (two
    backslashes, or backslash quote, or a character other than quote and line
    feed); 34 is the quote, 92 the backslash. *)
Definition re_single_string : re :=
  RSeq RBegin
    (RStar (RAlt (RSeq (RClass false [(92, 92)%N]) (RClass false [(92, 92)%N]))
           (RAlt (RSeq (RClass false [(92, 92)%N]) (RClass false [(34, 34)%N]))
                 (RClass true [(34, 34)%N; (10, 10)%N])))).

(** src/ast/expression/string.rs:5-15 *)
Definition single_string : parser str :=
  map_index0 (delimited (char_ 34%N) (re_matches re_single_string) (char_ 34%N)).

(** src/ast/expression/string.rs:19, second argument: begin, then characters other than quote *)
Definition re_multi_string : re :=
  RSeq RBegin (RStar (RClass true [(34, 34)%N])).

(** src/ast/expression/string.rs:17-23 *)
Definition multi_string : parser str :=
  map_index0 (delimited (tag [34; 34; 34]%N) (re_matches re_multi_string)
                        (tag [34; 34; 34]%N)).

(** src/ast/expression/string.rs:25-33 *)
Definition string_ : parser expr := map_ String_ (multi_string <|> single_string).

(** ** src/ast/expression/float.rs and src/ast/expression/integer.rs *)

(** src/ast/expression/float.rs:8-11 and src/ast/expression/integer.rs:8-11 *)
Definition sign : parser str :=
  map_ (fun o => match o with Some c => [c] | None => [] end)
       (opt (char_ (C "+") <|> char_ (C "-"))).

(** src/ast/expression/float.rs:6-17 *)
Definition float : parser expr :=
  sg <- sign ;;
  start <- digit ;;
  char_ (C ".") ;;;
  end_ <- digit ;;
  ret (Float (sg ++ start ++ L "." ++ end_)).

(** src/ast/expression/integer.rs:6-15 *)
Definition integer : parser expr :=
  sg <- sign ;;
  number <- digit ;;
  ret (Integer (sg ++ number)).

(** ** src/ast/expression/character.rs *)

(** char::to_digit(16) *)
Definition hex_digit (c : char) : option N :=
  if (C "0" <=? c)%N && (c <=? C "9")%N then Some (c - C "0")%N
  else if (C "a" <=? c)%N && (c <=? C "f")%N then Some (c - C "a" + 10)%N
  else if (C "A" <=? c)%N && (c <=? C "F")%N then Some (c - C "A" + 10)%N
  else None.

(** u8::from_str_radix(code, 16), src/ast/expression/character.rs:8-24, on a text of any length: an optional [+], at
    least one digit, overflow is an error. *)
Fixpoint hex_acc (acc : N) (s : str) : option N :=
  match s with
  | [] => Some acc
  | c :: s' => match hex_digit c with
               | None => None
               | Some d => let v := (acc * 16 + d)%N in
                           if (v <? 256)%N then hex_acc v s' else None
               end
  end.
Definition u8_from_str_radix_16 (s : str) : option N :=
  match s with
  | [] => None
  | c :: s' => if N.eqb c (C "+")
               then match s' with [] => None | _ => hex_acc 0 s' end
               else hex_acc 0 s
  end.

(** src/ast/expression/character.rs:8-24.  The debug output [println!("{:?}", r)] of line 18 is
    left to Trace.v. *)
Definition character_content : parser char :=
  map_res (fun r => r)
    (tag (L "\x") ;;; code <- take 2 ;; ret (u8_from_str_radix_16 code))
  <|> anychar.

(** src/ast/expression/character.rs:26-33; 39 is the single quote *)
Definition character : parser expr :=
  map_ Character (delimited (char_ 39%N) character_content (char_ 39%N)).

(** ** src/ast/expression/mod.rs *)

(** The closure of application_or_var, src/ast/expression/mod.rs:193-206; the indices v[0], v[1]
    are guarded there by the tests on the length. *)
Definition application_of_list (v : list expr) : option expr :=
  match v with
  | [] => None
  | [x] => Some x
  | x :: y :: rest => Some (fold_left Application rest (Application x y))
  end.

(** src/ast/expression/mod.rs:309-317 *)
Definition operator_or_as : parser expr :=
  map_ (fun o => Variable_ [o]) (tag (L "as") <|> operator).

(** src/ast/expression/function.rs:12-15 and 26-29 *)
Definition binding_name : parser str :=
  lo_name <|> delimited (char_ (C "(")) operator (char_ (C ")")).

(** src/ast/expression/function.rs:10-22 *)
Definition function_signature (i : N) : parser function_signature_ast :=
  name <- binding_name ;;
  spaces ;;;
  char_ (C ":") ;;;
  new_indent <- spaces_or_new_lines_and_indent i IR_GT ;;
  t <- type_annotation new_indent ;;
  ret (mkSig name t).

Section WithE.
  Variable E : N -> parser expr.   (* the recursive parser [expression] *)

  (** src/ast/expression/mod.rs:30-46 *)
  Definition tuple_f (i : N) : parser expr :=
    map_ Tuple
      (delimited (char_ (C "("))
         (separated_list (char_ (C ","))
            (delimited multispace0 (E i) multispace0))
         (char_ (C ")"))).

  (** src/ast/expression/mod.rs:48-67 *)
  Definition list_f (i : N) : parser expr :=
    map_ (fun o => List_ (match o with Some l => l | None => [] end))
      (delimited
         (preceded (char_ (C "[")) (opt_sp i))
         (opt (separated_list (comma_sep i) (E i)))
         (terminated (opt_sp i) (char_ (C "]")))).

  (** src/ast/expression/mod.rs:79-87 *)
  Definition record_field_f (i : N) : parser (str * expr) :=
    separated_pair lo_name
      (delimited (opt_sp i) (char_ (C "=")) (opt_sp i))
      (E i).

  (** src/ast/expression/mod.rs:69-93 *)
  Definition record_f (i : N) : parser expr :=
    map_ Record_
      (delimited
         (preceded (char_ (C "{")) (opt_sp i))
         (separated_list (comma_sep i) (record_field_f i))
         (terminated (opt_sp i) (char_ (C "}")))).

  (** src/ast/expression/mod.rs:101-106 *)
  Definition simplified_field : parser (str * expr) :=
    multispace0 ;;;
    name <- lo_name ;;
    multispace0 ;;;
    ret (name, Variable_ [name]).

  (** src/ast/expression/mod.rs:95-112 *)
  Definition simplified_record : parser expr :=
    map_ Record_
      (delimited (char_ (C "{"))
         (separated_list (char_ (C ",")) simplified_field)
         (char_ (C "}"))).

  (** src/ast/expression/mod.rs:128-135 *)
  Definition update_field_f (i : N) : parser (str * expr) :=
    name <- lo_name ;;
    multispace0 ;;;
    char_ (C "=") ;;;
    multispace0 ;;;
    e <- E i ;;
    ret (name, e).

  (** src/ast/expression/mod.rs:114-141 *)
  Definition record_update_f (i : N) : parser expr :=
    delimited
      (preceded (char_ (C "{")) (opt_spaces_or_new_lines_and_indent i IR_GTE))
      (name <- lo_name ;;
       opt_spaces_or_new_lines_and_indent i IR_GTE ;;;
       char_ (C "|") ;;;
       multispace0 ;;;
       pairs <- separated_list
                  (delimited
                     (opt_spaces_or_new_lines_and_indent i IR_GTE)
                     (char_ (C ","))
                     (opt_spaces_or_new_lines_and_indent i IR_GTE))
                  (update_field_f i) ;;
       ret (RecordUpdate name pairs))
      (terminated (spaces_or_new_lines_and_indent i IR_GTE) (char_ (C "}"))).

  (** src/ast/expression/mod.rs:143-149 *)
  Definition parens_f (i : N) : parser expr :=
    delimited (char_ (C "(")) (E i) (char_ (C ")")).

  (** src/ast/expression/mod.rs:153-169 *)
  Definition term_f (i : N) : parser expr :=
    access
    <|> variable
    <|> access_function
    <|> string_
    <|> float
    <|> integer
    <|> character
    <|> parens_f i
    <|> list_f i
    <|> tuple_f i
    <|> record_update_f i
    <|> record_f i
    <|> simplified_record.

  (** src/ast/expression/mod.rs:173-183 *)
  Definition lambda_f (i : N) : parser expr :=
    char_ 92%N ;;;
    args <- separated_nonempty_list space1 (term_f i) ;;
    spaces_or_new_lines_and_indent i IR_GTE ;;;
    tag (L "->") ;;;
    new_indent <- spaces_or_new_lines_and_indent i IR_GTE ;;
    body <- E new_indent ;;
    ret (Lambda args body).

  (** src/ast/expression/mod.rs:187-208 *)
  Definition application_or_var_f (i : N) : parser expr :=
    map_res application_of_list
      (separated_list (spaces_or_new_lines_and_indent i IR_GT) (term_f i)).

  (** src/ast/expression/function.rs:24-37 *)
  Definition function_definition_f (i : N) : parser func_def :=
    name <- binding_name ;;
    args <- many0 (preceded spaces (term_f i)) ;;
    spaces ;;;
    char_ (C "=") ;;;
    new_indent <- spaces_or_new_lines_and_indent i IR_GT ;;
    body <- E new_indent ;;
    ret (mkDef name args body).

  (** src/ast/expression/function.rs:39-50 *)
  Definition function_f (i : N) : parser func :=
    signature <- opt (terminated (function_signature i) (new_line_and_same_indent i)) ;;
    definition <- function_definition_f i ;;
    ret (mkFunc signature definition).

  (** src/ast/expression/mod.rs:212-219 *)
  Definition let_binding_target_f (i : N) : parser expr :=
    variable <|> list_f i <|> tuple_f i <|> simplified_record.

  (** src/ast/expression/mod.rs:221-230 *)
  Definition let_binding_f (i : N) : parser let_entry :=
    binding <- let_binding_target_f i ;;
    spaces_or_new_lines_and_indent i IR_GTE ;;;
    char_ (C "=") ;;;
    new_indent <- spaces_or_new_lines_and_indent i IR_GTE ;;
    e <- E new_indent ;;
    ret (LetBinding binding e).

  (** src/ast/expression/mod.rs:232-240 *)
  Definition let_bindings_f (i : N) : parser (list let_entry) :=
    separated_nonempty_list
      (spaces_or_new_lines_and_indent i IR_EQ)
      (let_binding_f i <|> map_ LetFunction (function_f i)).

  (** src/ast/expression/mod.rs:242-253 *)
  Definition let_expression_f (i : N) : parser expr :=
    tag (L "let") ;;;
    assignment_indentation <- spaces_or_new_lines_and_indent i IR_GTE ;;
    assignments <- let_bindings_f assignment_indentation ;;
    spaces_or_new_lines_and_indent i IR_GTE ;;;
    tag (L "in") ;;;
    spaces_or_new_lines_and_indent i IR_GTE ;;;
    e <- E i ;;
    ret (Let_ assignments e).

  (** src/ast/expression/mod.rs:257-266 *)
  Definition case_f (i : N) : parser (expr * expr) :=
    matcher <- E i ;;
    spaces_or_new_lines_and_indent i IR_GTE ;;;
    tag (L "->") ;;;
    new_indent <- spaces_or_new_lines_and_indent i IR_GTE ;;
    e <- E new_indent ;;
    ret (matcher, e).

  (** src/ast/expression/mod.rs:268-273 *)
  Definition cases_f (i : N) : parser (list (expr * expr)) :=
    separated_nonempty_list (spaces_or_new_lines_and_indent i IR_EQ) (case_f i).

  (** src/ast/expression/mod.rs:275-286 *)
  Definition case_expression_f (i : N) : parser expr :=
    tag (L "case") ;;;
    spaces_or_new_lines_and_indent i IR_GTE ;;;
    e <- E i ;;
    spaces_or_new_lines_and_indent i IR_GTE ;;;
    tag (L "of") ;;;
    new_indent <- spaces_or_new_lines_and_indent i IR_GTE ;;
    cs <- cases_f new_indent ;;
    ret (Case_ e cs).

  (** src/ast/expression/mod.rs:290-305 *)
  Definition if_expression_f (i : N) : parser expr :=
    tag (L "if") ;;;
    spaces_or_new_lines_and_indent i IR_GTE ;;;
    test <- E i ;;
    spaces_or_new_lines_and_indent i IR_GTE ;;;
    tag (L "then") ;;;
    new_if_indent <- spaces_or_new_lines_and_indent i IR_GTE ;;
    if_exp <- E new_if_indent ;;
    spaces_or_new_lines_and_indent i IR_GTE ;;;
    tag (L "else") ;;;
    new_else_indent <- spaces_or_new_lines_and_indent i IR_GTE ;;
    else_exp <- E new_else_indent ;;
    ret (If_ test if_exp else_exp).

  (** src/ast/expression/mod.rs:324-330 *)
  Definition operator_exp_f (i : N) : parser (expr * expr) :=
    spaces_or_new_lines_and_indent i IR_GTE ;;;
    o <- operator_or_as ;;
    multispace ;;;
    e <- E i ;;
    ret (o, e).

  (** src/ast/expression/mod.rs:319-341 *)
  Definition binary_f (i : N) : parser expr :=
    a <- application_or_var_f i ;;
    oe <- opt (operator_exp_f i) ;;
    ret (match oe with
         | Some (o, e) => BinOp o a e
         | None => a
         end).

  (** src/ast/expression/mod.rs:343-351 *)
  Definition expression_f (i : N) : parser expr :=
    binary_f i
    <|> let_expression_f i
    <|> case_expression_f i
    <|> if_expression_f i
    <|> lambda_f i.
End WithE.

(** The recursive knot. *)
Fixpoint expression_n (n : nat) (i : N) (s : str) : res expr :=
  match n with
  | O => Abort OutOfFuel
  | S n' => expression_f (expression_n n') i s
  end.

(** src/ast/expression/mod.rs, expression (see [expression_f]), with a bound on the
    recursion that is never reached (C01, C29) *)
Definition expression (i : N) : parser expr :=
  fun s => expression_n (S (length s)) i s.

(** The parsers of src/ast/expression/mod.rs and src/ast/expression/function.rs proper. *)
Definition term (i : N) : parser expr := term_f expression i.
Definition tuple (i : N) : parser expr := tuple_f expression i.
Definition list_expr (i : N) : parser expr := list_f expression i.
Definition record (i : N) : parser expr := record_f expression i.
Definition record_update (i : N) : parser expr := record_update_f expression i.
Definition parens (i : N) : parser expr := parens_f expression i.
Definition lambda (i : N) : parser expr := lambda_f expression i.
Definition application_or_var (i : N) : parser expr := application_or_var_f expression i.
Definition binary (i : N) : parser expr := binary_f expression i.
Definition let_binding (i : N) : parser let_entry := let_binding_f expression i.
Definition let_bindings (i : N) : parser (list let_entry) := let_bindings_f expression i.
Definition let_expression (i : N) : parser expr := let_expression_f expression i.
Definition case_expression (i : N) : parser expr := case_expression_f expression i.
Definition if_expression (i : N) : parser expr := if_expression_f expression i.
Definition function_definition (i : N) : parser func_def := function_definition_f expression i.
Definition function (i : N) : parser func := function_f expression i.
