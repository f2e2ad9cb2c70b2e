(** * A printer

    Every function takes the text that is to follow, so [print_x a r] is the
    text of [a] followed by [r].  Compound expressions are always put in
    parentheses; tokens are separated by single blanks; let entries, case
    branches and statements start at the beginning of a line.  There is no
    printer in /repo; this one serves to state the round trip (C06, C07). *)
From Verif Require Import Base Ast Spec.

(** the elements of a list with a separator between them *)
Definition sep_with {A} (sep : str) (p : A -> str -> str) : list A -> str -> str :=
  fix go (l : list A) (r : str) : str :=
    match l with
    | [] => r
    | x :: l' => match l' with [] => p x r | _ :: _ => p x (sep ++ go l' r) end
    end.

(** every element preceded by one space *)
Definition spaced {A} (p : A -> str -> str) : list A -> str -> str :=
  fix go (l : list A) (r : str) : str :=
    match l with
    | [] => r
    | x :: l' => L " " ++ p x (go l' r)
    end.

(** ** Names *)

(** an identifier, as opposed to an operator or a run of commas *)
Definition is_word (n : str) : bool :=
  match n with [] => false | c :: _ => is_name_char c end.

Definition print_name (n r : str) : str :=
  if is_word n then n ++ r else L "(" ++ n ++ L ")" ++ r.

Definition print_variable (q : list str) (r : str) : str :=
  match q with
  | [n] => print_name n r
  | _ => dotted q ++ r
  end.

(** ** Types *)

Fixpoint print_type (t : type_ast) (r : str) : str :=
  match t with
  | TypeConstructor q args => dotted q ++ spaced print_type args r
  | TypeVariable n => n ++ r
  | TypeRecordConstructor v fs =>
      L "{ " ++ print_type v (L " | " ++
        sep_with (L ", ") (fun f r => fst f ++ L " : " ++ print_type (snd f) r) fs (L " }" ++ r))
  | TypeRecord fs =>
      L "{" ++ sep_with (L ", ") (fun f r => fst f ++ L " : " ++ print_type (snd f) r) fs (L "}" ++ r)
  | TypeTuple ts => L "(" ++ sep_with (L ", ") print_type ts (L ")" ++ r)
  | TypeApplication a b => L "(" ++ print_type a (L " -> " ++ print_type b (L ")" ++ r))
  end.

Definition print_signature (s : function_signature_ast) (r : str) : str :=
  print_name (sig_name s) (L " : " ++ print_type (sig_type s) r).

(** ** Expressions *)

Definition print_string (s r : str) : str :=
  if existsb (N.eqb quote) s then quote :: s ++ quote :: r
  else quote :: quote :: quote :: s ++ quote :: quote :: quote :: r.

Fixpoint print_expr (e : expr) (r : str) : str :=
  match e with
  | Character c => squote :: c :: squote :: r
  | String_ s => print_string s r
  | Integer s | Float s => s ++ r
  | Variable_ q => print_variable q r
  | List_ es => L "[" ++ sep_with (L ", ") print_expr es (L "]" ++ r)
  | Tuple es =>
      (* "(a)" is not a tuple, "( a )" is *)
      L "(" ++ match es with
               | [e] => L " " ++ print_expr e (L " )" ++ r)
               | _ => sep_with (L ", ") print_expr es (L ")" ++ r)
               end
  | Access e fs => print_expr e (fold_right (fun f k => L "." ++ f ++ k) r fs)
  | AccessFunction n => L "." ++ n ++ r
  | Record_ fs =>
      L "{" ++ sep_with (L ", ") (fun f r => fst f ++ L " = " ++ print_expr (snd f) r) fs (L "}" ++ r)
  | RecordUpdate n fs =>
      (* the closing brace needs layout; without fields it must be a comment *)
      L "{" ++ n ++ L " | " ++
        match fs with
        | [] => L "--" ++ [newline] ++ L "}" ++ r
        | _ => sep_with (L ", ") (fun f r => fst f ++ L " = " ++ print_expr (snd f) r) fs (L " }" ++ r)
        end
  | If_ c t e =>
      L "(if " ++ print_expr c (L " then " ++ print_expr t (L " else " ++ print_expr e (L ")" ++ r)))
  | Let_ es e => L "(let " ++ sep_with [newline] print_entry es (L " in " ++ print_expr e (L ")" ++ r))
  | Case_ e bs =>
      L "(case " ++ print_expr e (L " of " ++
        sep_with [newline] (fun b r => print_expr (fst b) (L " -> " ++ print_expr (snd b) r)) bs
          (L ")" ++ r))
  | Lambda args e => L "(\" ++ sep_with (L " ") print_expr args (L " -> " ++ print_expr e (L ")" ++ r))
  | Application f x => L "(" ++ print_expr f (L " " ++ print_expr x (L ")" ++ r))
  | BinOp op a b =>
      L "(" ++ print_expr a (L " " ++
        match op with Variable_ [o] => o | _ => [] end ++ L " " ++ print_expr b (L ")" ++ r))
  end

with print_entry (x : let_entry) (r : str) : str :=
  match x with
  | LetFunction f => print_function f r
  | LetBinding t e =>
      let k := L " = " ++ print_expr e r in
      match t with
      | Record_ fs => L "{" ++ sep_with (L ", ") (fun f r => fst f ++ r) fs (L "}" ++ k)
      | _ => print_expr t k
      end
  end

with print_function (f : func) (r : str) : str :=
  match f with
  | mkFunc (Some s) d => print_signature s ([newline] ++ print_definition d r)
  | mkFunc None d => print_definition d r
  end

with print_definition (d : func_def) (r : str) : str :=
  match d with
  | mkDef n args e => print_name n (spaced print_expr args (L " = " ++ print_expr e r))
  end.

(** ** Statements *)

Definition print_item (e : export_set) (r : str) : str :=
  match e with
  | FunctionExport n => print_name n r
  | TypeExport n None => n ++ r
  | TypeExport n (Some AllExport) => n ++ L "(..)" ++ r
  | TypeExport n (Some (SubsetExport cs)) =>
      n ++ L "(" ++
        join (L ", ") (map (fun c => match c with FunctionExport m => m | _ => [] end) cs) ++
        L ")" ++ r
  | _ => r
  end.

Definition print_exports (e : export_set) (r : str) : str :=
  match e with
  | SubsetExport es => L "(" ++ sep_with (L ", ") print_item es (L ")" ++ r)
  | _ => L "(..)" ++ r
  end.

(** decimal numerals *)
Fixpoint digits_fuel (k : nat) (n : N) (acc : str) : str :=
  match k with
  | O => acc
  | S k' =>
      let acc' := (n mod 10 + C "0")%N :: acc in
      if (n / 10 =? 0)%N then acc' else digits_fuel k' (n / 10) acc'
  end.
Definition digits (n : N) : str := digits_fuel (S (N.size_nat n)) n [].

Definition print_assoc (a : assoc) : str :=
  match a with AssocN => L "infix" | AssocL => L "infixl" | AssocR => L "infixr" end.

Definition print_statement (st : statement_ast) (r : str) : str :=
  match st with
  | ModuleDeclaration q e => L "module " ++ dotted q ++ L " exposing " ++ print_exports e r
  | PortModuleDeclaration q e => L "port module " ++ dotted q ++ L " exposing " ++ print_exports e r
  | EffectModuleDeclaration q fs e =>
      L "effect module " ++ dotted q ++ L " where {" ++
        sep_with (L ", ") (fun f r => fst f ++ L " = " ++ snd f ++ r) fs
          (L "} exposing " ++ print_exports e r)
  | ImportStatement q al ex =>
      L "import " ++ dotted q ++
        match al with None => [] | Some a => L " as " ++ a end ++
        match ex with None => r | Some e => L " exposing " ++ print_exports e r end
  | TypeAliasDeclaration n t => L "type alias " ++ print_type n (L " = " ++ print_type t r)
  | TypeDeclaration n cs => L "type " ++ print_type n (L " = " ++ sep_with (L " | ") print_type cs r)
  | PortTypeDeclaration n t => L "port " ++ n ++ L " : " ++ print_type t r
  | PortDeclaration n args e =>
      L "port " ++ n ++ spaced (fun a r => a ++ r) args (L " = " ++ print_expr e r)
  | Function_ f => print_function f r
  | InfixDeclaration a p n => print_assoc a ++ L " " ++ digits p ++ L " " ++ n ++ r
  | Comment c =>
      if existsb (N.eqb newline) c then L "{-" ++ c ++ L "-}" ++ r else L "--" ++ c ++ r
  end.

Definition print_file (sts : list statement_ast) : str :=
  sep_with [newline] print_statement sts [].
