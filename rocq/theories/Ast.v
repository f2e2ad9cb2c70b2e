(** * Abstract syntax (src/ast/**/core.rs, src/ast/binop.rs) *)
From Verif Require Import Base.

(** src/ast/type_/core.rs:3-11 (Box is transparent). *)
Inductive type_ast :=
| TypeConstructor (q : list str) (args : list type_ast)
| TypeVariable (n : str)
| TypeRecordConstructor (v : type_ast) (fields : list (str * type_ast))
| TypeRecord (fields : list (str * type_ast))
| TypeTuple (ts : list type_ast)
| TypeApplication (a b : type_ast).

(** src/ast/expression/core.rs:4-8 *)
Record function_signature_ast := mkSig { sig_name : str; sig_type : type_ast }.

(** src/ast/expression/core.rs:10-48.  [FunctionDefinition] (10-15), [Function]
    (17-21), [LetEntry] (23-27) and [Expression] (29-48) are mutually
    recursive. *)
Inductive expr :=
| Character (c : char)
| String_ (s : str)
| Integer (s : str)
| Float (s : str)
| Variable_ (q : list str)
| List_ (es : list expr)
| Tuple (es : list expr)
| Access (e : expr) (fields : list str)
| AccessFunction (n : str)
| Record_ (fields : list (str * expr))
| RecordUpdate (n : str) (fields : list (str * expr))
| If_ (c t e : expr)
| Let_ (entries : list let_entry) (body : expr)
| Case_ (e : expr) (branches : list (expr * expr))
| Lambda (args : list expr) (body : expr)
| Application (f x : expr)
| BinOp (op l r : expr)
with let_entry :=
| LetFunction (f : func)
| LetBinding (target e : expr)
with func :=
| mkFunc (signature : option function_signature_ast) (definition : func_def)
with func_def :=
| mkDef (name : str) (args : list expr) (body : expr).

(** src/ast/binop.rs:1-6 *)
Inductive assoc := AssocN | AssocL | AssocR.

(** src/ast/statement/core.rs:7-13 *)
Inductive export_set :=
| AllExport
| SubsetExport (l : list export_set)
| FunctionExport (n : str)
| TypeExport (n : str) (c : option export_set).

(** src/ast/statement/core.rs:15-28.  The i64 of InfixDeclaration is an [N]:
    the parser only builds it from a run of digits, see [infix_declaration]. *)
Inductive statement_ast :=
| ModuleDeclaration (n : list str) (e : export_set)
| PortModuleDeclaration (n : list str) (e : export_set)
| EffectModuleDeclaration (n : list str) (w : list (str * str)) (e : export_set)
| ImportStatement (n : list str) (alias : option str) (e : option export_set)
| TypeAliasDeclaration (n t : type_ast)
| TypeDeclaration (n : type_ast) (cs : list type_ast)
| PortTypeDeclaration (n : str) (t : type_ast)
| PortDeclaration (n : str) (args : list str) (e : expr)
| Function_ (f : func)
| InfixDeclaration (a : assoc) (prec : N) (n : str)
| Comment (s : str).
