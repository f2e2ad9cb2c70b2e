(** * Replacing the names of a text

    What it means to replace the names of a text, and those of a tree, by other
    names.  Nothing here refers to the parser.

    A word of a text is a longest run [a-z][a-z1-9_]* or [A-Z][a-zA-Z0-9_]*.
    A name such as [fooBar] is therefore the word [foo] followed by the word
    [Bar].  This is the cut that the parser itself makes where it wants a type
    variable: there [fooBar] is the variable [foo], and [Bar] is left. *)
From Verif Require Import Base Nom Spec Ast. (* of Nom only [span], which cuts off the longest prefix in a class *)

(** The words that mean something to the parser; the last four are not reserved. *)
Definition keywords : list str :=
  reserved_words ++ [L "effect"; L "infix"; L "infixl"; L "infixr"].

Definition is_letter (c : char) : bool := is_lower c || is_upper c.

(** [f] replaces words by words of the same kind and concerns no keyword. *)
Record renaming (f : str -> str) : Prop := {
  renaming_small : forall p, type_var_name p -> type_var_name (f p);
  renaming_capital : forall p, upper_name p -> upper_name (f p);
  renaming_keywords : forall p, type_var_name p -> (In p keywords \/ In (f p) keywords) -> f p = p;
}.

(** [rename f s]: every word of [s] is replaced. *)
Fixpoint rename_n (f : str -> str) (n : nat) (s : str) : str :=
  match n, s with
  | S n, c :: r =>
      if is_lower c then let '(p, r) := span is_tyvar_char s in f p ++ rename_n f n r
      else if is_upper c then let '(p, r) := span is_name_char s in f p ++ rename_n f n r
      else c :: rename_n f n r
  | _, _ => []
  end.
Definition rename (f : str -> str) (s : str) : str := rename_n f (length s) s.

(** What may stand between two single quotes so that it looks like a character
    literal: its words must stay. *)
Definition is_literal_char (c : char) : bool :=
  is_name_char c || (c =? C "+")%N || (c =? backslash)%N.
Definition spares_literals (f : str -> str) (s : str) : Prop :=
  forall a w r, s = a ++ squote :: w ++ squote :: r -> forallb is_literal_char w = true -> rename f w = w.

(** ** Trees *)

(** [g] is applied to every name, string and comment of a tree; characters,
    numbers and precedences stay. *)
Section Trees.
  Variable g : str -> str.
  Fixpoint names_type (t : type_ast) : type_ast :=
    match t with
    | TypeConstructor q args => TypeConstructor (map g q) (map names_type args)
    | TypeVariable n => TypeVariable (g n)
    | TypeRecordConstructor v fields =>
        TypeRecordConstructor (names_type v) (map (fun '(n, t) => (g n, names_type t)) fields)
    | TypeRecord fields => TypeRecord (map (fun '(n, t) => (g n, names_type t)) fields)
    | TypeTuple ts => TypeTuple (map names_type ts)
    | TypeApplication a b => TypeApplication (names_type a) (names_type b)
    end.
  Definition names_sig (s : function_signature_ast) : function_signature_ast :=
    mkSig (g (sig_name s)) (names_type (sig_type s)).
  Fixpoint names_expr (e : expr) : expr :=
    match e with
    | Character c => Character c
    | String_ s => String_ (g s)
    | Integer s => Integer s
    | Float s => Float s
    | Variable_ q => Variable_ (map g q)
    | List_ es => List_ (map names_expr es)
    | Tuple es => Tuple (map names_expr es)
    | Access e fields => Access (names_expr e) (map g fields)
    | AccessFunction n => AccessFunction (g n)
    | Record_ fields => Record_ (map (fun '(n, e) => (g n, names_expr e)) fields)
    | RecordUpdate n fields => RecordUpdate (g n) (map (fun '(n, e) => (g n, names_expr e)) fields)
    | If_ c t e => If_ (names_expr c) (names_expr t) (names_expr e)
    | Let_ entries body => Let_ (map names_entry entries) (names_expr body)
    | Case_ e branches => Case_ (names_expr e) (map (fun '(p, e) => (names_expr p, names_expr e)) branches)
    | Lambda args body => Lambda (map names_expr args) (names_expr body)
    | Application h x => Application (names_expr h) (names_expr x)
    | BinOp op l r => BinOp (names_expr op) (names_expr l) (names_expr r)
    end
  with names_entry (x : let_entry) : let_entry :=
    match x with
    | LetFunction h => LetFunction (names_func h)
    | LetBinding target e => LetBinding (names_expr target) (names_expr e)
    end
  with names_func (x : func) : func :=
    match x with mkFunc sg d => mkFunc (option_map names_sig sg) (names_def d) end
  with names_def (x : func_def) : func_def :=
    match x with mkDef n args body => mkDef (g n) (map names_expr args) (names_expr body) end.
  Fixpoint names_export (x : export_set) : export_set :=
    match x with
    | AllExport => AllExport
    | SubsetExport l => SubsetExport (map names_export l)
    | FunctionExport n => FunctionExport (g n)
    | TypeExport n c => TypeExport (g n) (match c with Some x => Some (names_export x) | None => None end)
    end.
  Definition names_statement (x : statement_ast) : statement_ast :=
    match x with
    | ModuleDeclaration n e => ModuleDeclaration (map g n) (names_export e)
    | PortModuleDeclaration n e => PortModuleDeclaration (map g n) (names_export e)
    | EffectModuleDeclaration n w e =>
        EffectModuleDeclaration (map g n) (map (fun '(a, b) => (g a, g b)) w) (names_export e)
    | ImportStatement n alias e =>
        ImportStatement (map g n) (option_map g alias) (option_map names_export e)
    | TypeAliasDeclaration n t => TypeAliasDeclaration (names_type n) (names_type t)
    | TypeDeclaration n cs => TypeDeclaration (names_type n) (map names_type cs)
    | PortTypeDeclaration n t => PortTypeDeclaration (g n) (names_type t)
    | PortDeclaration n args e => PortDeclaration (g n) (map g args) (names_expr e)
    | Function_ h => Function_ (names_func h)
    | InfixDeclaration a prec n => InfixDeclaration a prec (g n)
    | Comment s => Comment (g s)
    end.
End Trees.
