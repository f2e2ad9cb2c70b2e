(** * Literals, operators and comments in a text, and the same program with other ones

    [relit K b s s']: read from left to right, [s] consists of comments, strings,
    character literals, numbers, operators, list literals, phrases in parentheses or
    braces and ordinary characters, and [s'] is [s] with other comments, strings,
    characters, digits, operators, list literals and phrases in parentheses or braces.
    [K] says what may stand for what; [b] says whether the character before is one of a name, so that
    digits belong to that name, or one of an operator, so that the symbols belong to
    that operator. *)
From Verif Require Import Base Spec Ast Whole CommentSpec.

Record kinds := mkKinds {
  on_string : str -> str -> Prop;    (* the content of a string *)
  on_char : char -> char -> Prop;    (* the character a character literal stands for *)
  on_digits : str -> str -> Prop;    (* a run of digits of a number *)
  on_comment : str -> str -> Prop;   (* the text of a comment *)
  on_operator : str -> str -> Prop;  (* an operator *)
  on_list : str * expr -> str * expr -> Prop; (* a list literal: its text after the first bracket, and its tree *)
  on_round : str * expr -> str * expr -> Prop; (* a phrase in parentheses: its text after the first one, and its tree *)
  on_curly : str * expr -> str * expr -> Prop  (* a phrase in braces: its text after the first one, and its tree *)
}.
Inductive before := after_name | after_operator | after_other.
Definition kind (c : char) : before :=
  if is_name_char c then after_name else if is_op_char c then after_operator else after_other.

(** a string literal [t] with content [c], before [w] *)
Inductive string_literal (w : str) : str -> str -> Prop :=
| lit_multi c : no_quote c -> string_literal w ([quote; quote; quote] ++ c ++ [quote; quote; quote]) c
| lit_single c : string_content c -> (c = [] -> ends (fun x => (x =? quote)%N) w) ->
    string_literal w (quote :: c ++ [quote]) c.
(** a character literal *)
Inductive char_literal : str -> char -> Prop :=
| lit_char t c : char_content t c -> char_literal (squote :: t ++ [squote]) c.
(** after [infix] and until the name of the operator, the texts are equal *)
Definition infix_kept (c : char) (s s' : str) : Prop :=
  forall v, forallb lead v = true ->
  ((exists r, c :: s = L "infix" ++ v ++ r) <-> (exists r, c :: s' = L "infix" ++ v ++ r)).

(** an operator [o], before [s], that can be replaced: it is not one of the reserved
    symbols, no comment begins in it, it is not the sign of a number or the beginning of
    a function, and it cannot be read as the sign [=] of a field with the first symbol
    of its value *)
Definition changeable (o s : str) : Prop :=
  operator_name o /\ ends is_op_char s /\ ~ (exists p q, o = p ++ L "--" ++ q) /\
  (o = L "+" \/ o = L "-" -> ends is_dec s) /\
  (forall t, o <> backslash :: t) /\
  (forall t, o = L "=" ++ t -> ends (fun x => mem_char x (L ".+-\")) t).

(** the text after a brace that does not begin a block comment *)
Definition brace_text (t : str) : Prop := exists c u, t = c :: u /\ c <> C "-".

Inductive relit (K : kinds) : before -> str -> str -> Prop :=
| rl_nil b : relit K b [] []
| rl_line b c c' s s' : forallb not_newline c = true -> forallb not_newline c' = true -> line_end s -> line_end s' ->
    on_comment K c c' -> relit K after_other s s' -> relit K b (L "--" ++ c ++ s) (L "--" ++ c' ++ s')
| rl_block b c c' s s' : block_text c -> block_text c' ->
    on_comment K c c' -> relit K after_other s s' -> relit K b (L "{-" ++ c ++ L "-}" ++ s) (L "{-" ++ c' ++ L "-}" ++ s')
| rl_string b t t' c c' s s' : string_literal s t c -> string_literal s' t' c' ->
    on_string K c c' -> relit K after_other s s' -> relit K b (t ++ s) (t' ++ s')
| rl_literal b t t' c c' s s' : char_literal t c -> char_literal t' c' ->
    on_char K c c' -> relit K after_other s s' -> relit K b (t ++ s) (t' ++ s')
| rl_digits b d d' s s' : digits1 d -> digits1 d' -> ends is_dec s -> ends is_dec s' ->
    b <> after_name -> on_digits K d d' -> relit K after_other s s' -> relit K b (d ++ s) (d' ++ s')
| rl_operator b o o' s s' : changeable o s -> changeable o' s' -> b <> after_operator ->
    on_operator K o o' -> relit K after_other s s' -> relit K b (o ++ s) (o' ++ s')
| rl_list b t t' e e' s s' : on_list K (t, e) (t', e') -> relit K after_other s s' -> relit K b (C "[" :: t ++ s) (C "[" :: t' ++ s')
| rl_round b t t' e e' s s' : on_round K (t, e) (t', e') -> relit K after_other s s' -> relit K b (C "(" :: t ++ s) (C "(" :: t' ++ s')
| rl_curly b t t' e e' s s' : on_curly K (t, e) (t', e') -> brace_text t -> brace_text t' ->
    relit K after_other s s' -> relit K b (C "{" :: t ++ s) (C "{" :: t' ++ s')
| rl_other b c s s' : ordinary c s -> ordinary c s' -> (is_dec c = true -> b = after_name) -> infix_kept c s s' ->
    relit K (kind c) s s' -> relit K b (c :: s) (c :: s').

(** ** The same tree with other literals, operators and comments *)
Definition same_name (K : kinds) (n n' : str) : Prop := n = n' \/ on_operator K n n'.
Inductive same_signature (K : kinds) : function_signature_ast -> function_signature_ast -> Prop :=
| sg_name n n' t : same_name K n n' -> same_signature K (mkSig n t) (mkSig n' t).
Inductive same_export (K : kinds) : export_set -> export_set -> Prop :=
| sx_all : same_export K AllExport AllExport
| sx_subset l l' : Forall2 (same_export K) l l' -> same_export K (SubsetExport l) (SubsetExport l')
| sx_function n n' : same_name K n n' -> same_export K (FunctionExport n) (FunctionExport n')
| sx_type n c : same_export K (TypeExport n c) (TypeExport n c).
Definition both {A} (R : A -> A -> Prop) (o o' : option A) : Prop :=
  match o, o' with Some a, Some b => R a b | None, None => True | _, _ => False end.
Inductive same_expr (K : kinds) : expr -> expr -> Prop :=
| se_char c c' : on_char K c c' -> same_expr K (Character c) (Character c')
| se_string c c' : on_string K c c' -> same_expr K (String_ c) (String_ c')
| se_integer g d d' : sign_text g -> on_digits K d d' -> same_expr K (Integer (g ++ d)) (Integer (g ++ d'))
| se_float g d d' e e' : sign_text g -> on_digits K d d' -> on_digits K e e' ->
    same_expr K (Float (g ++ d ++ L "." ++ e)) (Float (g ++ d' ++ L "." ++ e'))
| se_variable q : same_expr K (Variable_ q) (Variable_ q)
| se_operator o o' : on_operator K o o' -> same_expr K (Variable_ [o]) (Variable_ [o'])
| se_replaced t t' e e' : on_list K (t, e) (t', e') -> same_expr K e e'
| se_round t t' e e' : on_round K (t, e) (t', e') -> same_expr K e e'
| se_curly t t' e e' : on_curly K (t, e) (t', e') -> same_expr K e e'
| se_list l l' : Forall2 (same_expr K) l l' -> same_expr K (List_ l) (List_ l')
| se_tuple l l' : Forall2 (same_expr K) l l' -> same_expr K (Tuple l) (Tuple l')
| se_access e e' f : same_expr K e e' -> same_expr K (Access e f) (Access e' f)
| se_access_function n : same_expr K (AccessFunction n) (AccessFunction n)
| se_record l l' : Forall2 (fun x y => fst x = fst y /\ same_expr K (snd x) (snd y)) l l' -> same_expr K (Record_ l) (Record_ l')
| se_update n l l' : Forall2 (fun x y => fst x = fst y /\ same_expr K (snd x) (snd y)) l l' ->
    same_expr K (RecordUpdate n l) (RecordUpdate n l')
| se_if a a' b b' c c' : same_expr K a a' -> same_expr K b b' -> same_expr K c c' -> same_expr K (If_ a b c) (If_ a' b' c')
| se_let l l' e e' : Forall2 (same_entry K) l l' -> same_expr K e e' -> same_expr K (Let_ l e) (Let_ l' e')
| se_case e e' l l' : same_expr K e e' ->
    Forall2 (fun x y => same_expr K (fst x) (fst y) /\ same_expr K (snd x) (snd y)) l l' -> same_expr K (Case_ e l) (Case_ e' l')
| se_lambda l l' e e' : Forall2 (same_expr K) l l' -> same_expr K e e' -> same_expr K (Lambda l e) (Lambda l' e')
| se_application f f' x x' : same_expr K f f' -> same_expr K x x' -> same_expr K (Application f x) (Application f' x')
| se_binop o o' a a' b b' : same_expr K o o' -> same_expr K a a' -> same_expr K b b' -> same_expr K (BinOp o a b) (BinOp o' a' b')
with same_entry (K : kinds) : let_entry -> let_entry -> Prop :=
| se_function f f' : same_func K f f' -> same_entry K (LetFunction f) (LetFunction f')
| se_binding t t' e e' : same_expr K t t' -> same_expr K e e' -> same_entry K (LetBinding t e) (LetBinding t' e')
with same_func (K : kinds) : func -> func -> Prop :=
| se_func g g' n n' l l' e e' : both (same_signature K) g g' -> same_name K n n' -> Forall2 (same_expr K) l l' -> same_expr K e e' ->
    same_func K (mkFunc g (mkDef n l e)) (mkFunc g' (mkDef n' l' e')).
Inductive same_stmt (K : kinds) : statement_ast -> statement_ast -> Prop :=
| ss_function f f' : same_func K f f' -> same_stmt K (Function_ f) (Function_ f')
| ss_port n a e e' : same_expr K e e' -> same_stmt K (PortDeclaration n a e) (PortDeclaration n a e')
| ss_comment c c' : on_comment K c c' -> same_stmt K (Comment c) (Comment c')
| ss_module n e e' : same_export K e e' -> same_stmt K (ModuleDeclaration n e) (ModuleDeclaration n e')
| ss_port_module n e e' : same_export K e e' -> same_stmt K (PortModuleDeclaration n e) (PortModuleDeclaration n e')
| ss_effect_module n w e e' : same_export K e e' -> same_stmt K (EffectModuleDeclaration n w e) (EffectModuleDeclaration n w e')
| ss_import n a e e' : both (same_export K) e e' -> same_stmt K (ImportStatement n a e) (ImportStatement n a e')
| ss_infix a p n n' : same_name K n n' -> same_stmt K (InfixDeclaration a p n) (InfixDeclaration a p n')
| ss_alias n t : same_stmt K (TypeAliasDeclaration n t) (TypeAliasDeclaration n t)
| ss_type n l : same_stmt K (TypeDeclaration n l) (TypeDeclaration n l)
| ss_port_type n t : same_stmt K (PortTypeDeclaration n t) (PortTypeDeclaration n t).
