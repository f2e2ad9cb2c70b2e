(** * What the tools write: the Debug formatting of the standard library

    src/dump.rs and src/check.rs print with [{:?}] and [{:#?}].  The formatters
    are derived ([#[derive(Debug)]] in src/ast/**/core.rs, src/ast/binop.rs) or
    belong to the standard library and to nom; their sources are not in /repo.
    Where releases of the standard library differ, the model takes the choice
    from a record [style], and the theorems hold for every style. *)
From Verif Require Import Base Nom Ast Fail Cli Trace Output.

Record style := mkStyle {
  trailing : bool;             (* a comma after the last item of a block (since Rust 1.36) *)
  other_quote : bool;          (* the quote that does not delimit is escaped as well (old) *)
  short_nul : bool;            (* NUL is written [\0] (since Rust 1.71) *)
  printable : char -> bool     (* the Unicode table [core::unicode::printable] *)
}.

(** ** Numerals *)

Definition numeral_digit (d : N) : char := if (d <? 10)%N then (C "0" + d)%N else (C "a" + (d - 10))%N.
(** the digits of [n] in base [b], most significant first *)
Fixpoint numeral_from (b : N) (fuel : nat) (n : N) (acc : str) : str :=
  match fuel with
  | O => acc
  | S k =>
      let acc' := numeral_digit (n mod b) :: acc in
      if (n / b =? 0)%N then acc' else numeral_from b k (n / b) acc'
  end.
Definition numeral (b n : N) : str := numeral_from b (S (N.size_nat n)) n [].

(** ** Characters and strings: [core::fmt::Debug] of [char] and [str] *)

(** one character between quotes [q]: [char::escape_debug] *)
Definition escape (st : style) (q c : char) : str :=
  if (c =? 9)%N then L "\t"
  else if (c =? 13)%N then L "\r"
  else if (c =? 10)%N then L "\n"
  else if (c =? C "\")%N then L "\\"
  else if (c =? q)%N then [C "\"; c]
  else if other_quote st && ((c =? C "'") || (c =? 34))%N then [C "\"; c]
  else if short_nul st && (c =? 0)%N then L "\0"
  else if printable st c then [c]
  else L "\u{" ++ numeral 16 c ++ L "}".
Definition quoted (st : style) (q : char) (s : str) : str := [q] ++ flat_map (escape st q) s ++ [q].

(** ** Values: the calls of [debug_tuple], [debug_struct] and [debug_list] *)

Inductive dbg :=
| DUnit (name : str)                          (* a variant without fields *)
| DInt (n : N)
| DStr (s : str)
| DChar (c : char)
| DTuple (name : str) (fields : list dbg)     (* a variant with fields; a tuple has no name *)
| DStruct (name : str) (fields : list (str * dbg))
| DList (items : list dbg).

(** [core::fmt::builders::PadAdapter]: four spaces at the beginning of each line
    ([fresh]: nothing of the line is written yet) *)
Fixpoint padded (fresh : bool) (s : str) : str :=
  match s with
  | [] => []
  | c :: s' => (if fresh then L "    " else []) ++ c :: padded (c =? 10)%N s'
  end.

(** the items of a block, each on lines of its own *)
Fixpoint block_items (st : style) (items : list str) : str :=
  match items with
  | [] => []
  | [x] => padded true (x ++ (if trailing st then L "," else []) ++ [10%N])
  | x :: rest => padded true (x ++ L "," ++ [10%N]) ++ block_items st rest
  end.
Definition block (st : style) (open : str) (items : list str) (close : str) : str :=
  match items with
  | [] => open ++ close
  | _ => open ++ [10%N] ++ block_items st items ++ close
  end.

(** [{:#?}] *)
Fixpoint pretty (st : style) (x : dbg) : str :=
  match x with
  | DUnit n => n
  | DInt n => numeral 10 n
  | DStr s => quoted st 34 s
  | DChar c => quoted st (C "'") [c]
  | DTuple n l => n ++ block st (L "(") (map (pretty st) l) (L ")")
  | DStruct n l => n ++ block st (L " {") (map (fun f => fst f ++ L ": " ++ pretty st (snd f)) l) (L "}")
  | DList l => block st (L "[") (map (pretty st) l) (L "]")
  end.

(** ** The derived formatters *)

Definition dbg_option {A} (f : A -> dbg) (o : option A) : dbg :=
  match o with None => DUnit (L "None") | Some a => DTuple (L "Some") [f a] end.
Definition dbg_names (q : list str) : dbg := DList (map DStr q).
Definition dbg_pair {A B} (f : A -> dbg) (g : B -> dbg) (p : A * B) : dbg := DTuple [] [f (fst p); g (snd p)].

(** src/ast/type_/core.rs:3-11 *)
Fixpoint dbg_type (t : type_ast) : dbg :=
  match t with
  | TypeConstructor q args => DTuple (L "TypeConstructor") [dbg_names q; DList (map dbg_type args)]
  | TypeVariable n => DTuple (L "TypeVariable") [DStr n]
  | TypeRecordConstructor v fs =>
      DTuple (L "TypeRecordConstructor") [dbg_type v; DList (map (dbg_pair DStr dbg_type) fs)]
  | TypeRecord fs => DTuple (L "TypeRecord") [DList (map (dbg_pair DStr dbg_type) fs)]
  | TypeTuple ts => DTuple (L "TypeTuple") [DList (map dbg_type ts)]
  | TypeApplication a b => DTuple (L "TypeApplication") [dbg_type a; dbg_type b]
  end.

(** src/ast/expression/core.rs:4-8 *)
Definition dbg_signature (s : function_signature_ast) : dbg :=
  DStruct (L "FunctionSignature") [(L "name", DStr (sig_name s)); (L "type_", dbg_type (sig_type s))].

(** src/ast/expression/core.rs:10-48 *)
Fixpoint dbg_expr (e : expr) : dbg :=
  match e with
  | Character c => DTuple (L "Character") [DChar c]
  | String_ s => DTuple (L "String") [DStr s]
  | Integer s => DTuple (L "Integer") [DStr s]
  | Float s => DTuple (L "Float") [DStr s]
  | Variable_ q => DTuple (L "Variable") [dbg_names q]
  | List_ es => DTuple (L "List") [DList (map dbg_expr es)]
  | Tuple es => DTuple (L "Tuple") [DList (map dbg_expr es)]
  | Access e fs => DTuple (L "Access") [dbg_expr e; dbg_names fs]
  | AccessFunction n => DTuple (L "AccessFunction") [DStr n]
  | Record_ fs => DTuple (L "Record") [DList (map (dbg_pair DStr dbg_expr) fs)]
  | RecordUpdate n fs => DTuple (L "RecordUpdate") [DStr n; DList (map (dbg_pair DStr dbg_expr) fs)]
  | If_ c t e => DTuple (L "If") [dbg_expr c; dbg_expr t; dbg_expr e]
  | Let_ es e => DTuple (L "Let") [DList (map dbg_entry es); dbg_expr e]
  | Case_ e bs => DTuple (L "Case") [dbg_expr e; DList (map (dbg_pair dbg_expr dbg_expr) bs)]
  | Lambda args e => DTuple (L "Lambda") [DList (map dbg_expr args); dbg_expr e]
  | Application f x => DTuple (L "Application") [dbg_expr f; dbg_expr x]
  | BinOp o a b => DTuple (L "BinOp") [dbg_expr o; dbg_expr a; dbg_expr b]
  end
with dbg_entry (x : let_entry) : dbg :=
  match x with
  | LetFunction f => DTuple (L "LetFunction") [dbg_func f]
  | LetBinding t e => DTuple (L "LetBinding") [dbg_expr t; dbg_expr e]
  end
with dbg_func (f : func) : dbg :=
  match f with
  | mkFunc sg d =>
      DStruct (L "Function") [(L "signature", dbg_option dbg_signature sg); (L "definition", dbg_def d)]
  end
with dbg_def (d : func_def) : dbg :=
  match d with
  | mkDef n args e =>
      DStruct (L "FunctionDefinition")
        [(L "name", DStr n); (L "args", DList (map dbg_expr args)); (L "body", dbg_expr e)]
  end.

(** src/ast/binop.rs:1-6 *)
Definition dbg_assoc (a : assoc) : dbg :=
  DUnit match a with AssocN => L "N" | AssocL => L "L" | AssocR => L "R" end.

(** src/ast/statement/core.rs:7-13 *)
Fixpoint dbg_exports (e : export_set) : dbg :=
  match e with
  | AllExport => DUnit (L "AllExport")
  | SubsetExport es => DTuple (L "SubsetExport") [DList (map dbg_exports es)]
  | FunctionExport n => DTuple (L "FunctionExport") [DStr n]
  | TypeExport n c =>
      DTuple (L "TypeExport")
        [DStr n; match c with None => DUnit (L "None") | Some c => DTuple (L "Some") [dbg_exports c] end]
  end.

(** src/ast/statement/core.rs:15-28 *)
Definition dbg_statement (s : statement_ast) : dbg :=
  match s with
  | ModuleDeclaration q e => DTuple (L "ModuleDeclaration") [dbg_names q; dbg_exports e]
  | PortModuleDeclaration q e => DTuple (L "PortModuleDeclaration") [dbg_names q; dbg_exports e]
  | EffectModuleDeclaration q fs e =>
      DTuple (L "EffectModuleDeclaration") [dbg_names q; DList (map (dbg_pair DStr DStr) fs); dbg_exports e]
  | ImportStatement q al e =>
      DTuple (L "ImportStatement") [dbg_names q; dbg_option DStr al; dbg_option dbg_exports e]
  | TypeAliasDeclaration n t => DTuple (L "TypeAliasDeclaration") [dbg_type n; dbg_type t]
  | TypeDeclaration n cs => DTuple (L "TypeDeclaration") [dbg_type n; DList (map dbg_type cs)]
  | PortTypeDeclaration n t => DTuple (L "PortTypeDeclaration") [DStr n; dbg_type t]
  | PortDeclaration n args e => DTuple (L "PortDeclaration") [DStr n; dbg_names args; dbg_expr e]
  | Function_ f => DTuple (L "Function") [dbg_func f]
  | InfixDeclaration a p n => DTuple (L "InfixDeclaration") [dbg_assoc a; DInt p; DStr n]
  | Comment s => DTuple (L "Comment") [DStr s]
  end.

(** [nom::Err], [nom::Context], [nom::ErrorKind] and [nom::types::CompleteStr] of nom 4.0.0 *)
Definition dbg_kind (k : kind) : dbg :=
  DUnit match k with
        | KAlt => L "Alt" | KEof => L "Eof" | KSeparatedNonEmptyList => L "SeparatedNonEmptyList"
        end.
Definition dbg_error (rest : str) (k : kind) : dbg :=
  DTuple (L "Error") [DTuple (L "Code") [DTuple (L "CompleteStr") [DStr rest]; dbg_kind k]].

(** ** Lines *)

(** src/check.rs:38, 54-58; src/dump.rs:30-41: the argument of [println!] *)
Definition message_text (st : style) (m : message) : str :=
  match m with
  | ParsedSuccessfully path => quoted st 34 path ++ L " parsed successfully"
  | FailedToParse path => quoted st 34 path ++ L " failed to parse"
  | ShowAst sts => pretty st (DList (map dbg_statement sts))
  | ShowError rest k => pretty st (dbg_error rest k)
  | ShowNames names => pretty st (dbg_names names)
  | ShowUsage program => L "Usage: " ++ program ++ L " [elm file to check]"
  end.

(** src/ast/expression/character.rs:18: [{:?}] of a [Result<u8, ParseIntError>].  Two characters
    are never too many for a [u8], so the kind of error is [InvalidDigit]. *)
Definition line_text (st : style) (l : line) : str :=
  match l with
  | Debug (Some n) => L "Ok(" ++ numeral 10 n ++ L ")"
  | Debug None => L "Err(ParseIntError { kind: InvalidDigit })"
  | Message m => message_text st m
  end.

(** everything written to standard output *)
Definition screen (st : style) (ls : list line) : str := flat_map (fun l => line_text st l ++ [10%N]) ls.
