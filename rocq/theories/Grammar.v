(** * A declarative grammar of the language accepted by the parser

    One relation per syntactic category, relating an AST and the text it is
    written as; [i] is the indentation in force.  It does not mention the
    parser; layout and lexical classes are those of Spec.v. *)
From Verif Require Import Base Ast Spec.

(** ** Types *)

Inductive GTy : N -> type_ast -> str -> Prop :=
| GTy_constructor i q args w :
    qualified q -> GParams i args w ->
    GTy i (TypeConstructor q args) (dotted q ++ w)
| GTy_simple i t w : GTySimple i t w -> GTy i t w

(* what may also stand as a parameter of a type constructor *)
with GTySimple : N -> type_ast -> str -> Prop :=
| GTy_variable i n : type_var_name n -> GTySimple i (TypeVariable n) n
| GTy_extension i t1 j1 n t2 j2 t3 j3 fs w t4 j4 :
    lay_ge i t1 j1 -> type_var_name n -> lay_ge i t2 j2 -> lay_ge i t3 j3 ->
    GTyFields i fs w -> lay_ge i t4 j4 ->
    GTySimple i (TypeRecordConstructor (TypeVariable n) fs)
      (L "{" ++ t1 ++ n ++ t2 ++ L "|" ++ t3 ++ w ++ t4 ++ L "}")
| GTy_record i t1 fs w t2 :
    olay i t1 -> GTyFields i fs w -> olay i t2 ->
    GTySimple i (TypeRecord fs) (L "{" ++ t1 ++ w ++ t2 ++ L "}")
| GTy_record_empty i t1 t2 :
    olay i t1 -> olay i t2 -> GTySimple i (TypeRecord []) (L "{" ++ t1 ++ t2 ++ L "}")
| GTy_tuple i t1 ts w t2 :
    olay i t1 -> GTyElems i ts w -> olay i t2 ->
    GTySimple i (TypeTuple ts) (L "(" ++ t1 ++ w ++ t2 ++ L ")")
| GTy_unit i t1 t2 :
    olay i t1 -> olay i t2 -> GTySimple i (TypeTuple []) (L "(" ++ t1 ++ t2 ++ L ")")
| GTy_parens i t1 a b w t2 :
    (* only function types: a parenthesised other type is a 1-tuple *)
    olay i t1 -> GAnn i (TypeApplication a b) w -> olay i t2 ->
    GTySimple i (TypeApplication a b) (L "(" ++ t1 ++ w ++ t2 ++ L ")")

with GParam : N -> type_ast -> str -> Prop :=
| GParam_constant i q : qualified q -> GParam i (TypeConstructor q []) (dotted q)
| GParam_simple i t w : GTySimple i t w -> GParam i t w

with GParams : N -> list type_ast -> str -> Prop :=
| GParams_nil i : GParams i [] []
| GParams_cons i lt j t w ts w' :
    lay_gt i lt j -> GParam j t w -> GParams i ts w' ->
    GParams i (t :: ts) (lt ++ w ++ w')

with GTyElems : N -> list type_ast -> str -> Prop :=
| GTyElems_one i t w : GTy i t w -> GTyElems i [t] w
| GTyElems_cons i t w t1 t2 ts w' :
    GTy i t w -> olay i t1 -> olay i t2 -> GTyElems i ts w' ->
    GTyElems i (t :: ts) (w ++ t1 ++ L "," ++ t2 ++ w')

with GTyFields : N -> list (str * type_ast) -> str -> Prop :=
| GTyFields_one i n t w : GTyField i n t w -> GTyFields i [(n, t)] w
| GTyFields_cons i n t w t1 t2 fs w' :
    GTyField i n t w -> olay i t1 -> olay i t2 -> GTyFields i fs w' ->
    GTyFields i ((n, t) :: fs) (w ++ t1 ++ L "," ++ t2 ++ w')

with GTyField : N -> str -> type_ast -> str -> Prop :=
| GTyField_intro i n t1 t2 t w :
    lower_name n -> olay i t1 -> olay i t2 -> GAnn i t w ->
    GTyField i n t (n ++ t1 ++ L ":" ++ t2 ++ w)

(* a type, possibly with arrows *)
with GAnn : N -> type_ast -> str -> Prop :=
| GAnn_one i t w : GTy i t w -> GAnn i t w
| GAnn_arrow i a w b1 b2 b w' :
    GTy i a w -> spnl1 b1 -> spnl1 b2 -> GAnn i b w' ->
    GAnn i (TypeApplication a b) (w ++ b1 ++ L "->" ++ b2 ++ w').

(** ** Expressions *)

Inductive GVar : expr -> str -> Prop :=
| GVar_lower n : lower_name n -> GVar (Variable_ [n]) n
| GVar_upper q : qualified q -> GVar (Variable_ q) (dotted q)
| GVar_operator o : operator_name o -> GVar (Variable_ [o]) (L "(" ++ o ++ L ")")
| GVar_commas o : o <> [] -> forallb (fun c => (c =? C ",")%N) o = true ->
                  GVar (Variable_ [o]) (L "(" ++ o ++ L ")").

(** the name of a definition *)
Inductive GName : str -> str -> Prop :=
| GName_lower n : lower_name n -> GName n n
| GName_operator o : operator_name o -> GName o (L "(" ++ o ++ L ")").

(** [{ a, b, c }]: a record of variables *)
Inductive GNames : list (str * expr) -> str -> Prop :=
| GNames_one b1 n b2 : blanks b1 -> lower_name n -> blanks b2 ->
    GNames [(n, Variable_ [n])] (b1 ++ n ++ b2)
| GNames_cons b1 n b2 fs w : blanks b1 -> lower_name n -> blanks b2 -> GNames fs w ->
    GNames ((n, Variable_ [n]) :: fs) (b1 ++ n ++ b2 ++ L "," ++ w).

Inductive GNameRecord : expr -> str -> Prop :=
| GNameRecord_empty : GNameRecord (Record_ []) (L "{}")
| GNameRecord_some fs w : GNames fs w -> GNameRecord (Record_ fs) (L "{" ++ w ++ L "}").

Inductive GSig : N -> function_signature_ast -> str -> Prop :=
| GSig_intro i n wn b t1 j t w :
    GName n wn -> spaces1 b -> lay_gt i t1 j -> GAnn j t w ->
    GSig i (mkSig n t) (wn ++ b ++ L ":" ++ t1 ++ w).

Inductive GE : N -> expr -> str -> Prop :=
| GE_app i e w : GApp i e w -> GE i e w
| GE_binop i a w t j o b e w' :
    GApp i a w -> lay_ge i t j -> infix_operator o -> blanks1 b -> GE i e w' ->
    GE i (BinOp (Variable_ [o]) a e) (w ++ t ++ o ++ b ++ w')
| GE_let i t1 m es w t2 j2 t3 j3 e w' :
    lay_ge i t1 m -> GEntries m es w -> lay_ge i t2 j2 -> lay_ge i t3 j3 -> GE i e w' ->
    GE i (Let_ es e) (L "let" ++ t1 ++ w ++ t2 ++ L "in" ++ t3 ++ w')
| GE_case i t1 j1 e w t2 j2 t3 m bs w' :
    lay_ge i t1 j1 -> GE i e w -> lay_ge i t2 j2 -> lay_ge i t3 m -> GBranches m bs w' ->
    GE i (Case_ e bs) (L "case" ++ t1 ++ w ++ t2 ++ L "of" ++ t3 ++ w')
| GE_if i t1 j1 c wc t2 j2 t3 j3 t wt t4 j4 t5 j5 e we :
    lay_ge i t1 j1 -> GE i c wc -> lay_ge i t2 j2 ->
    lay_ge i t3 j3 -> GE j3 t wt -> lay_ge i t4 j4 ->
    lay_ge i t5 j5 -> GE j5 e we ->
    GE i (If_ c t e) (L "if" ++ t1 ++ wc ++ t2 ++ L "then" ++ t3 ++ wt ++ t4
                      ++ L "else" ++ t5 ++ we)
| GE_lambda i args w t1 j1 t2 j2 e w' :
    GLamArgs i args w -> lay_ge i t1 j1 -> lay_ge i t2 j2 -> GE j2 e w' ->
    GE i (Lambda args e) (L "\" ++ w ++ t1 ++ L "->" ++ t2 ++ w')

(* a term applied to any number of arguments *)
with GApp : N -> expr -> str -> Prop :=
| GApp_term i e w : GTerm i e w -> GApp i e w
| GApp_app i f w t j x w' :
    GApp i f w -> lay_gt i t j -> GTerm i x w' ->
    GApp i (Application f x) (w ++ t ++ w')

with GTerm : N -> expr -> str -> Prop :=
| GTerm_var i e w : GVar e w -> GTerm i e w
| GTerm_access i e w fs :
    GVar e w -> fs <> [] -> Forall lower_name fs ->
    GTerm i (Access e fs) (w ++ flat_map (fun f => L "." ++ f) fs)
| GTerm_access_function i n : lower_name n -> GTerm i (AccessFunction n) (L "." ++ n)
| GTerm_multi_string i s : no_quote s ->
    GTerm i (String_ s) ([quote; quote; quote] ++ s ++ [quote; quote; quote])
| GTerm_string i s : string_content s -> GTerm i (String_ s) ([quote] ++ s ++ [quote])
| GTerm_float i s : float_text s -> GTerm i (Float s) s
| GTerm_integer i s : integer_text s -> GTerm i (Integer s) s
| GTerm_char i w c : char_content w c -> GTerm i (Character c) ([squote] ++ w ++ [squote])
| GTerm_parens i e w : GE i e w -> GTerm i e (L "(" ++ w ++ L ")")
| GTerm_list i e w : GList i e w -> GTerm i e w
| GTerm_tuple i e w : GTuple i e w -> GTerm i e w
| GTerm_update i t1 n t2 b fs w t3 j3 :
    olay i t1 -> lower_name n -> olay i t2 -> blanks b -> GUpdates i fs w -> lay_ge i t3 j3 ->
    GTerm i (RecordUpdate n fs)
      (L "{" ++ t1 ++ n ++ t2 ++ L "|" ++ b ++ w ++ t3 ++ L "}")
| GTerm_update_empty i t1 n t2 b t3 j3 :
    olay i t1 -> lower_name n -> olay i t2 -> blanks b -> lay_ge i t3 j3 ->
    GTerm i (RecordUpdate n [])
      (L "{" ++ t1 ++ n ++ t2 ++ L "|" ++ b ++ t3 ++ L "}")
| GTerm_record i t1 fs w t2 :
    olay i t1 -> GFields i fs w -> olay i t2 ->
    GTerm i (Record_ fs) (L "{" ++ t1 ++ w ++ t2 ++ L "}")
| GTerm_record_empty i t1 t2 :
    olay i t1 -> olay i t2 -> GTerm i (Record_ []) (L "{" ++ t1 ++ t2 ++ L "}")
| GTerm_names i e w : GNameRecord e w -> GTerm i e w

with GList : N -> expr -> str -> Prop :=
| GList_some i t1 es w t2 :
    olay i t1 -> GElems i es w -> olay i t2 ->
    GList i (List_ es) (L "[" ++ t1 ++ w ++ t2 ++ L "]")
| GList_empty i t1 t2 :
    olay i t1 -> olay i t2 -> GList i (List_ []) (L "[" ++ t1 ++ t2 ++ L "]")

with GElems : N -> list expr -> str -> Prop :=
| GElems_one i e w : GE i e w -> GElems i [e] w
| GElems_cons i e w t1 t2 es w' :
    GE i e w -> olay i t1 -> olay i t2 -> GElems i es w' ->
    GElems i (e :: es) (w ++ t1 ++ L "," ++ t2 ++ w')

with GTuple : N -> expr -> str -> Prop :=
| GTuple_some i es w : GTupleElems i es w -> GTuple i (Tuple es) (L "(" ++ w ++ L ")")
| GTuple_empty i : GTuple i (Tuple []) (L "()")

with GTupleElems : N -> list expr -> str -> Prop :=
| GTupleElems_one i b1 e w b2 :
    blanks b1 -> GE i e w -> blanks b2 -> GTupleElems i [e] (b1 ++ w ++ b2)
| GTupleElems_cons i b1 e w b2 es w' :
    blanks b1 -> GE i e w -> blanks b2 -> GTupleElems i es w' ->
    GTupleElems i (e :: es) (b1 ++ w ++ b2 ++ L "," ++ w')

with GFields : N -> list (str * expr) -> str -> Prop :=
| GFields_one i n e w : GField i n e w -> GFields i [(n, e)] w
| GFields_cons i n e w t1 t2 fs w' :
    GField i n e w -> olay i t1 -> olay i t2 -> GFields i fs w' ->
    GFields i ((n, e) :: fs) (w ++ t1 ++ L "," ++ t2 ++ w')

with GField : N -> str -> expr -> str -> Prop :=
| GField_intro i n t1 t2 e w :
    lower_name n -> olay i t1 -> olay i t2 -> GE i e w ->
    GField i n e (n ++ t1 ++ L "=" ++ t2 ++ w)

with GUpdates : N -> list (str * expr) -> str -> Prop :=
| GUpdates_one i n e w : GUpdate i n e w -> GUpdates i [(n, e)] w
| GUpdates_cons i n e w t1 t2 fs w' :
    GUpdate i n e w -> olay i t1 -> olay i t2 -> GUpdates i fs w' ->
    GUpdates i ((n, e) :: fs) (w ++ t1 ++ L "," ++ t2 ++ w')

with GUpdate : N -> str -> expr -> str -> Prop :=
| GUpdate_intro i n b1 b2 e w :
    lower_name n -> blanks b1 -> blanks b2 -> GE i e w ->
    GUpdate i n e (n ++ b1 ++ L "=" ++ b2 ++ w)

with GLamArgs : N -> list expr -> str -> Prop :=
| GLamArgs_one i e w : GTerm i e w -> GLamArgs i [e] w
| GLamArgs_cons i e w b es w' :
    GTerm i e w -> tabs1 b -> GLamArgs i es w' -> GLamArgs i (e :: es) (w ++ b ++ w')

(* the entries of a let, all starting at column m *)
with GEntries : N -> list let_entry -> str -> Prop :=
| GEntries_one m x w : GEntry m x w -> GEntries m [x] w
| GEntries_cons m x w t j xs w' :
    GEntry m x w -> lay_eq m t j -> GEntries m xs w' ->
    GEntries m (x :: xs) (w ++ t ++ w')

with GEntry : N -> let_entry -> str -> Prop :=
| GEntry_binding m x w t1 j1 t2 j e w' :
    GTarget m x w -> lay_ge m t1 j1 -> lay_ge m t2 j -> GE j e w' ->
    GEntry m (LetBinding x e) (w ++ t1 ++ L "=" ++ t2 ++ w')
| GEntry_function m n args e w :
    (* without parameters it would have been a binding *)
    args <> [] -> GDef m (mkDef n args e) w ->
    GEntry m (LetFunction (mkFunc None (mkDef n args e))) w
| GEntry_function_sig m sg d w :
    GFunc m (mkFunc (Some sg) d) w -> GEntry m (LetFunction (mkFunc (Some sg) d)) w

with GTarget : N -> expr -> str -> Prop :=
| GTarget_var i e w : GVar e w -> GTarget i e w
| GTarget_list i e w : GList i e w -> GTarget i e w
| GTarget_tuple i e w : GTuple i e w -> GTarget i e w
| GTarget_names i e w : GNameRecord e w -> GTarget i e w

with GFunc : N -> func -> str -> Prop :=
| GFunc_plain i d w : GDef i d w -> GFunc i (mkFunc None d) w
| GFunc_sig i sg ws b d w :
    GSig i sg ws -> all_spaces b = true -> (N.of_nat (length b) mod 2 ^ 32 = i)%N ->
    GDef i d w ->
    GFunc i (mkFunc (Some sg) d) (ws ++ [newline] ++ b ++ w)

with GDef : N -> func_def -> str -> Prop :=
| GDef_intro i n wn args wa b t j e w :
    GName n wn -> GDefArgs i args wa -> spaces1 b -> lay_gt i t j -> GE j e w ->
    GDef i (mkDef n args e) (wn ++ wa ++ b ++ L "=" ++ t ++ w)

with GDefArgs : N -> list expr -> str -> Prop :=
| GDefArgs_nil i : GDefArgs i [] []
| GDefArgs_cons i b e w es w' :
    spaces1 b -> GTerm i e w -> GDefArgs i es w' ->
    GDefArgs i (e :: es) (b ++ w ++ w')

(* the branches of a case, all starting at column m *)
with GBranches : N -> list (expr * expr) -> str -> Prop :=
| GBranches_one m p e w : GBranch m p e w -> GBranches m [(p, e)] w
| GBranches_cons m p e w t j bs w' :
    GBranch m p e w -> lay_eq m t j -> GBranches m bs w' ->
    GBranches m ((p, e) :: bs) (w ++ t ++ w')

with GBranch : N -> expr -> expr -> str -> Prop :=
| GBranch_intro m p w t1 j1 t2 j e w' :
    GE m p w -> lay_ge m t1 j1 -> lay_ge m t2 j -> GE j e w' ->
    GBranch m p e (w ++ t1 ++ L "->" ++ t2 ++ w').

(** ** Statements *)

(** a function or operator in an exposing list *)
Inductive GExportItem : export_set -> str -> Prop :=
| GExport_function n : lower_name n -> GExportItem (FunctionExport n) n
| GExport_operator o : operator_name o -> GExportItem (FunctionExport o) (L "(" ++ o ++ L ")")
| GExport_type n : upper_name n -> GExportItem (TypeExport n None) n
| GExport_type_all n : upper_name n ->
    GExportItem (TypeExport n (Some AllExport)) (n ++ L "(..)")
| GExport_type_some n cs : upper_name n -> qualified cs ->
    GExportItem (TypeExport n (Some (SubsetExport (map FunctionExport cs))))
      (n ++ L "(" ++ join (L ", ") cs ++ L ")").

Inductive GExportItems : list export_set -> str -> Prop :=
| GExportItems_one e w : GExportItem e w -> GExportItems [e] w
| GExportItems_cons e w b1 b2 es w' :
    GExportItem e w -> ospnl b1 -> ospnl b2 -> GExportItems es w' ->
    GExportItems (e :: es) (w ++ b1 ++ L "," ++ b2 ++ w').

Inductive GExports : export_set -> str -> Prop :=
| GExports_all t1 t2 : olay 0 t1 -> olay 0 t2 ->
    GExports AllExport (L "(" ++ t1 ++ L ".." ++ t2 ++ L ")")
| GExports_some t1 es w t2 : olay 0 t1 -> GExportItems es w -> olay 0 t2 ->
    GExports (SubsetExport es) (L "(" ++ t1 ++ w ++ t2 ++ L ")").

Definition lay0 (t : str) : Prop := exists j, lay_gt 0 t j.

Inductive GEffectField : str * str -> str -> Prop :=
| GEffectField_intro n b1 b2 u : lower_name n -> ospaces b1 -> ospaces b2 -> upper_name u ->
    GEffectField (n, u) (n ++ b1 ++ L "=" ++ b2 ++ u).

Inductive GEffectFields : list (str * str) -> str -> Prop :=
| GEffectFields_one f w : GEffectField f w -> GEffectFields [f] w
| GEffectFields_cons f w fs w' : GEffectField f w -> GEffectFields fs w' ->
    GEffectFields (f :: fs) (w ++ L ", " ++ w').

Inductive GAlias : option str -> str -> Prop :=
| GAlias_none : GAlias None []
| GAlias_some b1 b2 n : spaces1 b1 -> spaces1 b2 -> upper_name n ->
    GAlias (Some n) (b1 ++ L "as" ++ b2 ++ n).

Inductive GExposing : option export_set -> str -> Prop :=
| GExposing_none : GExposing None []
| GExposing_some b1 b2 e w : spaces1 b1 -> spaces1 b2 -> GExports e w ->
    GExposing (Some e) (b1 ++ L "exposing" ++ b2 ++ w).

(** the constructors of a type declaration *)
Inductive GConstructors : N -> list type_ast -> str -> Prop :=
| GConstructors_one m q args w :
    qualified q -> GParams m args w ->
    GConstructors m [TypeConstructor q args] (dotted q ++ w)
| GConstructors_cons m q args w t j b cs w' :
    qualified q -> GParams m args w -> lay_ge m t j -> spaces1 b -> GConstructors m cs w' ->
    GConstructors m (TypeConstructor q args :: cs)
      (dotted q ++ w ++ t ++ L "|" ++ b ++ w').

Inductive GPortArgs : list str -> str -> Prop :=
| GPortArgs_nil : GPortArgs [] []
| GPortArgs_cons b n ns w : spaces1 b -> lower_name n -> GPortArgs ns w ->
    GPortArgs (n :: ns) (b ++ n ++ w).

Definition assoc_word (a : assoc) : str :=
  match a with AssocL => L "infixl" | AssocR => L "infixr" | AssocN => L "infix" end.

Inductive GStmt : statement_ast -> str -> Prop :=
| GStmt_module t1 q t2 t3 e w :
    lay0 t1 -> qualified q -> lay0 t2 -> lay0 t3 -> GExports e w ->
    GStmt (ModuleDeclaration q e)
      (L "module" ++ t1 ++ dotted q ++ t2 ++ L "exposing" ++ t3 ++ w)
| GStmt_port_module t0 t1 q t2 t3 e w :
    lay0 t0 -> lay0 t1 -> qualified q -> lay0 t2 -> lay0 t3 -> GExports e w ->
    GStmt (PortModuleDeclaration q e)
      (L "port" ++ t0 ++ L "module" ++ t1 ++ dotted q ++ t2 ++ L "exposing" ++ t3 ++ w)
| GStmt_effect_module t0 t1 q t2 t3 fs wf t4 t5 e w :
    lay0 t0 -> lay0 t1 -> qualified q -> lay0 t2 -> lay0 t3 ->
    (fs = [] /\ wf = [] \/ GEffectFields fs wf) -> lay0 t4 -> lay0 t5 -> GExports e w ->
    GStmt (EffectModuleDeclaration q fs e)
      (L "effect" ++ t0 ++ L "module" ++ t1 ++ dotted q ++ t2 ++ L "where" ++ t3
       ++ L "{" ++ wf ++ L "}" ++ t4 ++ L "exposing" ++ t5 ++ w)
| GStmt_import b q al wa ex wx :
    spaces1 b -> qualified q -> GAlias al wa -> GExposing ex wx ->
    GStmt (ImportStatement q al ex) (L "import" ++ b ++ dotted q ++ wa ++ wx)
| GStmt_alias b1 b2 n wn b3 t j d w :
    spaces1 b1 -> spaces1 b2 -> GTy 0 n wn -> spaces1 b3 -> lay_ge 1 t j -> GAnn 1 d w ->
    GStmt (TypeAliasDeclaration n d)
      (L "type" ++ b1 ++ L "alias" ++ b2 ++ wn ++ b3 ++ L "=" ++ t ++ w)
| GStmt_type b n wn t1 m t2 j cs w :
    spaces1 b -> GTy 0 n wn -> lay_gt 0 t1 m -> lay_ge m t2 j -> GConstructors m cs w ->
    GStmt (TypeDeclaration n cs)
      (L "type" ++ b ++ wn ++ t1 ++ L "=" ++ t2 ++ w)
| GStmt_port_type b1 n b2 t j ty w :
    spaces1 b1 -> lower_name n -> spaces1 b2 -> lay_gt 0 t j -> GAnn j ty w ->
    GStmt (PortTypeDeclaration n ty) (L "port" ++ b1 ++ n ++ b2 ++ L ":" ++ t ++ w)
| GStmt_port b1 n args wa b2 t j e w :
    spaces1 b1 -> lower_name n -> GPortArgs args wa -> spaces1 b2 -> lay_gt 0 t j -> GE j e w ->
    GStmt (PortDeclaration n args e) (L "port" ++ b1 ++ n ++ wa ++ b2 ++ L "=" ++ t ++ w)
| GStmt_function f w : GFunc 0 f w -> GStmt (Function_ f) w
| GStmt_infix a b1 d b2 n :
    spaces1 b1 -> digits1 d -> (dec_value d <= 2 ^ 63 - 1)%N -> spaces1 b2 ->
    lower_name n \/ operator_name n ->
    GStmt (InfixDeclaration a (dec_value d) n) (assoc_word a ++ b1 ++ d ++ b2 ++ n)
| GStmt_line_comment c : forallb not_newline c = true -> GStmt (Comment c) (L "--" ++ c)
| GStmt_block_comment c : ~ (exists a b, c = a ++ L "-}" ++ b) ->
    GStmt (Comment c) (L "{-" ++ c ++ L "-}").

Inductive GStmts : list statement_ast -> str -> Prop :=
| GStmts_one st w : GStmt st w -> GStmts [st] w
| GStmts_cons st w b sts w' :
    GStmt st w -> blanks1 b -> GStmts sts w' -> GStmts (st :: sts) (w ++ b ++ w').

Inductive GFile : list statement_ast -> str -> Prop :=
| GFile_intro b1 sts w b2 :
    blanks b1 -> GStmts sts w -> blanks b2 -> GFile sts (b1 ++ w ++ b2).

(** The keyword of an infix declaration *)
Inductive infix_word : assoc -> str -> Prop :=
| iw_l : infix_word AssocL (L "infixl")
| iw_r : infix_word AssocR (L "infixr")
| iw_n : infix_word AssocN (L "infix").
