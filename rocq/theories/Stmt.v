(** * src/ast/statement/*.rs and src/ast/mod.rs *)
From Verif Require Import Base Nom Regex Ast Helpers Types Expr.

(** ** src/ast/statement/export.rs *)

(** src/ast/statement/export.rs:8-10 *)
Definition all_export : parser export_set := map_ (fun _ => AllExport) (tag (L "..")).

(** src/ast/statement/export.rs:12-20 *)
Definition function_export : parser export_set :=
  map_ FunctionExport
       (function_name <|> delimited (char_ (C "(")) operator (char_ (C ")"))).

(** src/ast/statement/export.rs:22-30 *)
Definition constructor_subset_exports : parser export_set :=
  map_ SubsetExport
       (separated_nonempty_list (tag (L ", ")) (map_ FunctionExport up_name)).

(** src/ast/statement/export.rs:32-46 *)
Definition constructor_exports : parser (option export_set) :=
  opt (delimited (char_ (C "(")) (all_export <|> constructor_subset_exports)
                 (char_ (C ")"))).

(** src/ast/statement/export.rs:48-54 *)
Definition type_export : parser export_set :=
  name <- up_name ;;
  constructors <- constructor_exports ;;
  ret (TypeExport name constructors).

(** src/ast/statement/export.rs:56-67 *)
Definition subset_export : parser export_set :=
  map_ SubsetExport
    (separated_nonempty_list
       (delimited (opt spaces_and_newlines) (char_ (C ",")) (opt spaces_and_newlines))
       (function_export <|> type_export)).

(** src/ast/statement/export.rs:69-78 *)
Definition exports : parser export_set :=
  delimited
    (preceded (char_ (C "(")) (opt_sp 0))
    (all_export <|> subset_export)
    (terminated (opt_sp 0) (char_ (C ")"))).

(** ** src/ast/statement/module.rs *)

(** [call!(spaces_or_new_lines_and_indent, 0, IR::GT)] *)
Definition sp_gt0 : parser N := spaces_or_new_lines_and_indent 0 IR_GT.

(** src/ast/statement/module.rs:7-20 *)
Definition port_module_declaration : parser statement_ast :=
  tag (L "port") ;;;
  sp_gt0 ;;;
  tag (L "module") ;;;
  sp_gt0 ;;;
  name <- module_name ;;
  sp_gt0 ;;;
  tag (L "exposing") ;;;
  sp_gt0 ;;;
  e <- exports ;;
  ret (PortModuleDeclaration name e).

(** src/ast/statement/module.rs:36-43 *)
Definition effect_field : parser (str * str) :=
  lname <- lo_name ;;
  opt spaces ;;;
  char_ (C "=") ;;;
  opt spaces ;;;
  uname <- up_name ;;
  ret (lname, uname).

(** src/ast/statement/module.rs:22-53 *)
Definition effect_module_declaration : parser statement_ast :=
  tag (L "effect") ;;;
  sp_gt0 ;;;
  tag (L "module") ;;;
  sp_gt0 ;;;
  name <- module_name ;;
  sp_gt0 ;;;
  tag (L "where") ;;;
  sp_gt0 ;;;
  where_ <- delimited (char_ (C "{"))
              (separated_list (tag (L ", ")) effect_field)
              (char_ (C "}")) ;;
  sp_gt0 ;;;
  tag (L "exposing") ;;;
  sp_gt0 ;;;
  e <- exports ;;
  ret (EffectModuleDeclaration name where_ e).

(** src/ast/statement/module.rs:55-66 *)
Definition module_declaration : parser statement_ast :=
  tag (L "module") ;;;
  sp_gt0 ;;;
  name <- module_name ;;
  sp_gt0 ;;;
  tag (L "exposing") ;;;
  sp_gt0 ;;;
  e <- exports ;;
  ret (ModuleDeclaration name e).

(** ** src/ast/statement/import.rs:7-26 *)
Definition import_statement : parser statement_ast :=
  tag (L "import") ;;;
  spaces ;;;
  name <- module_name ;;
  alias <- opt (preceded (delimited spaces (tag (L "as")) spaces) up_name) ;;
  exposing <- opt (preceded (delimited spaces (tag (L "exposing")) spaces) exports) ;;
  ret (ImportStatement name alias exposing).

(** ** src/ast/statement/type_declaration.rs *)

(** src/ast/statement/type_declaration.rs:7-20 *)
Definition type_alias_declaration : parser statement_ast :=
  tag (L "type") ;;;
  spaces ;;;
  tag (L "alias") ;;;
  spaces ;;;
  name <- type_ 0 ;;
  spaces ;;;
  char_ (C "=") ;;;
  spaces_or_new_lines_and_indent 1 IR_GTE ;;;
  declaration <- type_annotation 1 ;;
  ret (TypeAliasDeclaration name declaration).

(** src/ast/statement/type_declaration.rs:22-36 *)
Definition type_declaration (i : N) : parser statement_ast :=
  tag (L "type") ;;;
  spaces ;;;
  name <- type_ i ;;
  new_indent <- spaces_or_new_lines_and_indent 0 IR_GT ;;
  char_ (C "=") ;;;
  spaces_or_new_lines_and_indent new_indent IR_GTE ;;;
  definition <- separated_nonempty_list
                  (delimited (spaces_or_new_lines_and_indent new_indent IR_GTE)
                             (char_ (C "|")) spaces)
                  (type_constructor new_indent) ;;
  ret (TypeDeclaration name definition).

(** ** src/ast/statement/port.rs *)

(** src/ast/statement/port.rs:8-19 *)
Definition port_type_declaration : parser statement_ast :=
  tag (L "port") ;;;
  spaces ;;;
  name <- lo_name ;;
  spaces ;;;
  char_ (C ":") ;;;
  new_indent <- spaces_or_new_lines_and_indent 0 IR_GT ;;
  t <- type_annotation new_indent ;;
  ret (PortTypeDeclaration name t).

(** src/ast/statement/port.rs:21-33 *)
Definition port_declaration : parser statement_ast :=
  tag (L "port") ;;;
  spaces ;;;
  name <- lo_name ;;
  args <- many0 (preceded spaces lo_name) ;;
  spaces ;;;
  char_ (C "=") ;;;
  new_indent <- spaces_or_new_lines_and_indent 0 IR_GT ;;
  e <- expression new_indent ;;
  ret (PortDeclaration name args e).

(** ** src/ast/statement/infix.rs *)

(** [str::parse::<i64>] on a run of digits: overflow is an error. *)
Definition i64_max : N := 9223372036854775807.
Fixpoint parse_i64_acc (acc : N) (s : str) : option N :=
  match s with
  | [] => Some acc
  | c :: s' => if is_digit c
               then let v := (acc * 10 + (c - C "0"))%N in
                    if (v <=? i64_max)%N then parse_i64_acc v s' else None
               else None
  end.
Definition parse_i64 (s : str) : option N :=
  match s with
  | [] => None
  | _ => parse_i64_acc 0 s
  end.

(** src/ast/statement/infix.rs:8-24 *)
Definition infix_declaration : parser statement_ast :=
  a <- (value AssocL (tag (L "infixl"))
        <|> value AssocR (tag (L "infixr"))
        <|> value AssocN (tag (L "infix"))) ;;
  spaces ;;;
  v <- map_res parse_i64 digit ;;
  spaces ;;;
  name <- (lo_name <|> operator) ;;
  ret (InfixDeclaration a v name).

(** ** src/ast/statement/comment.rs *)

(** src/ast/statement/comment.rs:5-10 *)
Definition single_line_comment_stmt : parser statement_ast :=
  map_ Comment (map_index0 (preceded (tag (L "--")) (re_matches re_line))).

(** src/ast/statement/comment.rs:12-20 *)
Definition multi_line_comment : parser statement_ast :=
  map_ Comment (preceded (tag (L "{-")) (take_until_and_consume (L "-}"))).

(** src/ast/statement/comment.rs:22-27 *)
Definition comment : parser statement_ast :=
  single_line_comment_stmt <|> multi_line_comment.

(** ** src/ast/statement/mod.rs *)

(** src/ast/statement/mod.rs:25-39 *)
Definition statement : parser statement_ast :=
  port_module_declaration
  <|> effect_module_declaration
  <|> module_declaration
  <|> import_statement
  <|> type_alias_declaration
  <|> type_declaration 0
  <|> port_type_declaration
  <|> port_declaration
  <|> map_ Function_ (function 0)
  <|> infix_declaration
  <|> comment.

(** src/ast/statement/mod.rs:41-50 *)
Definition statements : parser (list statement_ast) :=
  delimited multispace0 (separated_nonempty_list multispace0 statement) multispace0.

(** ** src/ast/mod.rs:12-14 *)
Definition file : parser (list statement_ast) := terminated statements eof.
