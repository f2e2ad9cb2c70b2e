(** * Writing syntax trees as text

    [RX a s r]: the text [s] is a rendering of [a] followed by the text [r].
    The relations leave all freedom of layout that the parser supports and say
    what may follow each phrase (Follow.v); they do not refer to the parser.
    Complete.v proves that the parser reads every such text as intended. *)
From Verif Require Import Base Ast Spec Grammar Follow.

(** ** Types *)

Inductive RTy : N -> type_ast -> str -> str -> Prop :=
| RTy_constructor i q args s r :
    qualified q -> ends_dotted s -> RParams i args s r ->
    RTy i (TypeConstructor q args) (dotted q ++ s) r
| RTy_simple i t s r : RTySimple i t s r -> RTy i t s r

with RTySimple : N -> type_ast -> str -> str -> Prop :=
| RTy_variable i n r : type_var_name n -> ends is_tyvar_char r ->
    RTySimple i (TypeVariable n) (n ++ r) r
| RTy_extension i t1 j1 n t2 j2 t3 j3 fs s t4 j4 r :
    lay_ge i t1 j1 -> type_var_name n -> lay_ge i t2 j2 -> lay_ge i t3 j3 ->
    RTyFields i fs s (t4 ++ L "}" ++ r) -> lay_ge i t4 j4 ->
    RTySimple i (TypeRecordConstructor (TypeVariable n) fs)
      (L "{" ++ t1 ++ n ++ t2 ++ L "|" ++ t3 ++ s) r
| RTy_record i t1 fs s t2 r :
    olay i t1 -> RTyFields i fs s (t2 ++ L "}" ++ r) -> olay i t2 ->
    RTySimple i (TypeRecord fs) (L "{" ++ t1 ++ s) r
| RTy_record_empty i t1 r :
    olay i t1 -> RTySimple i (TypeRecord []) (L "{" ++ t1 ++ L "}" ++ r) r
| RTy_tuple i t1 ts s t2 r :
    olay i t1 -> RTyElems i ts s (t2 ++ L ")" ++ r) -> olay i t2 ->
    RTySimple i (TypeTuple ts) (L "(" ++ t1 ++ s) r
| RTy_unit i t1 r :
    olay i t1 -> RTySimple i (TypeTuple []) (L "(" ++ t1 ++ L ")" ++ r) r
| RTy_parens i t1 a s b1 b2 b s' t2 r :
    (* only function types: a parenthesised other type is a 1-tuple *)
    olay i t1 -> RTy i a s (b1 ++ L "->" ++ b2 ++ s') -> spnl1 b1 -> spnl1 b2 ->
    RAnn i b s' (t2 ++ L ")" ++ r) -> olay i t2 ->
    RTySimple i (TypeApplication a b) (L "(" ++ t1 ++ s) r

with RParam : N -> type_ast -> str -> str -> Prop :=
| RParam_constant i q r : qualified q -> ends_dotted r ->
    RParam i (TypeConstructor q []) (dotted q ++ r) r
| RParam_simple i t s r : RTySimple i t s r -> RParam i t s r

with RParams : N -> list type_ast -> str -> str -> Prop :=
| RParams_nil i r : no_type_param i r -> RParams i [] r r
| RParams_cons i t j x s s' xs r :
    lay_gt i t j -> RParam j x s s' -> RParams i xs s' r ->
    RParams i (x :: xs) (t ++ s) r

with RTyElems : N -> list type_ast -> str -> str -> Prop :=
| RTyElems_one i t s r : RTy i t s r -> RTyElems i [t] s r
| RTyElems_cons i t s t1 t2 ts s' r :
    RTy i t s (t1 ++ L "," ++ t2 ++ s') -> olay i t1 -> olay i t2 -> RTyElems i ts s' r ->
    RTyElems i (t :: ts) s r

with RTyFields : N -> list (str * type_ast) -> str -> str -> Prop :=
| RTyFields_one i n t s r : RTyField i n t s r -> RTyFields i [(n, t)] s r
| RTyFields_cons i n t s t1 t2 fs s' r :
    RTyField i n t s (t1 ++ L "," ++ t2 ++ s') -> olay i t1 -> olay i t2 -> RTyFields i fs s' r ->
    RTyFields i ((n, t) :: fs) s r

with RTyField : N -> str -> type_ast -> str -> str -> Prop :=
| RTyField_intro i n t1 t2 t s r :
    lower_name n -> olay i t1 -> olay i t2 -> RAnn i t s r ->
    RTyField i n t (n ++ t1 ++ L ":" ++ t2 ++ s) r

with RAnn : N -> type_ast -> str -> str -> Prop :=
| RAnn_one i t s r : RTy i t s r -> no_arrow r -> RAnn i t s r
| RAnn_arrow i a s b1 b2 b s' r :
    RTy i a s (b1 ++ L "->" ++ b2 ++ s') -> spnl1 b1 -> spnl1 b2 -> RAnn i b s' r ->
    RAnn i (TypeApplication a b) s r.

(** ** Expressions *)

Inductive RVar : expr -> str -> str -> Prop :=
| RVar_lower n r : lower_name n -> ends_lower n r -> RVar (Variable_ [n]) (n ++ r) r
| RVar_upper q r : qualified q -> ends_dotted r -> RVar (Variable_ q) (dotted q ++ r) r
| RVar_operator o r : operator_name o -> RVar (Variable_ [o]) (L "(" ++ o ++ L ")" ++ r) r
| RVar_commas o r : o <> [] -> forallb (fun c => (c =? C ",")%N) o = true ->
    RVar (Variable_ [o]) (L "(" ++ o ++ L ")" ++ r) r.

(** [.f.g.h] *)
Inductive RAccess : list str -> str -> str -> Prop :=
| RAccess_one f r : lower_name f -> ends_lower f r -> no_access r -> RAccess [f] (L "." ++ f ++ r) r
| RAccess_cons f fs s r : lower_name f -> RAccess fs s r -> RAccess (f :: fs) (L "." ++ f ++ s) r.

Inductive RName : str -> str -> str -> Prop :=
| RName_lower n r : lower_name n -> ends_lower n r -> RName n (n ++ r) r
| RName_operator o r : operator_name o -> RName o (L "(" ++ o ++ L ")" ++ r) r.

(** the names between braces *)
Inductive RNames : list (str * expr) -> str -> str -> Prop :=
| RNames_one b1 n b2 r : blanks b1 -> lower_name n -> blanks b2 ->
    RNames [(n, Variable_ [n])] (b1 ++ n ++ b2 ++ L "}" ++ r) r
| RNames_cons b1 n b2 fs s r : blanks b1 -> lower_name n -> blanks b2 -> RNames fs s r ->
    RNames ((n, Variable_ [n]) :: fs) (b1 ++ n ++ b2 ++ L "," ++ s) r.

Inductive RSig : N -> function_signature_ast -> str -> str -> Prop :=
| RSig_intro i n sn b t1 j t s r :
    RName n sn (b ++ L ":" ++ t1 ++ s) -> spaces1 b -> lay_gt i t1 j -> RAnn j t s r ->
    RSig i (mkSig n t) sn r.

Inductive RE : N -> expr -> str -> str -> Prop :=
| RE_app i e s r : RApp i e s r -> no_arg i r -> no_infix i r -> RE i e s r
| RE_binop i a s t j o b e s' r :
    RApp i a s (t ++ o ++ b ++ s') -> lay_ge i t j -> infix_operator o -> blanks1 b ->
    RE i e s' r -> RE i (BinOp (Variable_ [o]) a e) s r
| RE_let i t1 m es s t2 j2 t3 j3 e s' r :
    lay_ge i t1 m -> REntries m es s (t2 ++ L "in" ++ t3 ++ s') ->
    lay_ge i t2 j2 -> lay_ge i t3 j3 -> RE i e s' r ->
    RE i (Let_ es e) (L "let" ++ t1 ++ s) r
| RE_case i t1 j1 e s t2 j2 t3 m bs s' r :
    lay_ge i t1 j1 -> RE i e s (t2 ++ L "of" ++ t3 ++ s') -> lay_ge i t2 j2 -> lay_ge i t3 m ->
    RBranches m bs s' r ->
    RE i (Case_ e bs) (L "case" ++ t1 ++ s) r
| RE_if i t1 j1 c s1 t2 j2 t3 j3 t s2 t4 j4 t5 j5 e s3 r :
    lay_ge i t1 j1 -> RE i c s1 (t2 ++ L "then" ++ t3 ++ s2) -> lay_ge i t2 j2 ->
    lay_ge i t3 j3 -> RE j3 t s2 (t4 ++ L "else" ++ t5 ++ s3) -> lay_ge i t4 j4 ->
    lay_ge i t5 j5 -> RE j5 e s3 r ->
    RE i (If_ c t e) (L "if" ++ t1 ++ s1) r
| RE_lambda i args s t1 j1 t2 j2 e s' r :
    RLamArgs i args s (t1 ++ L "->" ++ t2 ++ s') -> lay_ge i t1 j1 -> lay_ge i t2 j2 ->
    RE j2 e s' r ->
    RE i (Lambda args e) (L "\" ++ s) r

with RApp : N -> expr -> str -> str -> Prop :=
| RApp_term i e s r : RTerm i e s r -> RApp i e s r
| RApp_app i f s t j x s' r :
    RApp i f s (t ++ s') -> lay_gt i t j -> RTerm i x s' r ->
    RApp i (Application f x) s r

with RTerm : N -> expr -> str -> str -> Prop :=
| RTerm_var i e s r : RVar e s r -> no_access r -> RTerm i e s r
| RTerm_access i e s fs s' r : RVar e s s' -> RAccess fs s' r -> RTerm i (Access e fs) s r
| RTerm_access_function i n r : lower_name n -> ends_lower n r ->
    RTerm i (AccessFunction n) (L "." ++ n ++ r) r
| RTerm_multi_string i c r : no_quote c ->
    RTerm i (String_ c) (quotes3 ++ c ++ quotes3 ++ r) r
| RTerm_string i c r : string_content c -> no_multi (quote :: c ++ quote :: r) ->
    RTerm i (String_ c) (quote :: c ++ quote :: r) r
| RTerm_float i n r : float_text n -> ends is_dec r -> RTerm i (Float n) (n ++ r) r
| RTerm_integer i n r : integer_text n -> ends_integer r -> RTerm i (Integer n) (n ++ r) r
| RTerm_char i w c r : char_content w c -> RTerm i (Character c) (squote :: w ++ squote :: r) r
| RTerm_parens i e s r : RE i e s (L ")" ++ r) -> RTerm i e (L "(" ++ s) r
| RTerm_list i e s r : RList i e s r -> RTerm i e s r
| RTerm_tuple i es s r : RTupleElems i es s (L ")" ++ r) -> length es <> 1 ->
    RTerm i (Tuple es) (L "(" ++ s) r
| RTerm_tuple_one i b1 e s b2 r :
    (* without any blank these are parentheses *)
    blanks b1 -> RE i e s (b2 ++ L ")" ++ r) -> blanks b2 -> b1 ++ b2 <> [] ->
    RTerm i (Tuple [e]) (L "(" ++ b1 ++ s) r
| RTerm_update i t1 n t2 b fs s t3 j3 r :
    olay i t1 -> lower_name n -> olay i t2 -> blanks b ->
    RUpdates i fs s (t3 ++ L "}" ++ r) -> lay_ge i t3 j3 ->
    RTerm i (RecordUpdate n fs) (L "{" ++ t1 ++ n ++ t2 ++ L "|" ++ b ++ s) r
| RTerm_update_empty i t1 n t2 b t3 j3 r :
    (* some layout that is not taken as blanks is needed: a comment *)
    olay i t1 -> lower_name n -> olay i t2 -> blanks b ->
    lay_ge i (L "--" ++ t3) j3 ->
    RTerm i (RecordUpdate n [])
      (L "{" ++ t1 ++ n ++ t2 ++ L "|" ++ b ++ L "--" ++ t3 ++ L "}" ++ r) r
| RTerm_record i t1 fs s t2 r :
    olay i t1 -> RFields i fs s (t2 ++ L "}" ++ r) -> olay i t2 ->
    RTerm i (Record_ fs) (L "{" ++ t1 ++ s) r
| RTerm_record_empty i t1 r :
    olay i t1 -> RTerm i (Record_ []) (L "{" ++ t1 ++ L "}" ++ r) r
| RTerm_names i fs s r : RNames fs s r -> RTerm i (Record_ fs) (L "{" ++ s) r

with RList : N -> expr -> str -> str -> Prop :=
| RList_some i t1 es s t2 r :
    olay i t1 -> RElems i es s (t2 ++ L "]" ++ r) -> olay i t2 ->
    RList i (List_ es) (L "[" ++ t1 ++ s) r
| RList_empty i t1 r : olay i t1 -> RList i (List_ []) (L "[" ++ t1 ++ L "]" ++ r) r

with RElems : N -> list expr -> str -> str -> Prop :=
| RElems_one i e s r : RE i e s r -> RElems i [e] s r
| RElems_cons i e s t1 t2 es s' r :
    RE i e s (t1 ++ L "," ++ t2 ++ s') -> olay i t1 -> olay i t2 -> RElems i es s' r ->
    RElems i (e :: es) s r

(* what stands between the parentheses of a tuple *)
with RTupleElems : N -> list expr -> str -> str -> Prop :=
| RTupleElems_nil i r : RTupleElems i [] (L ")" ++ r) (L ")" ++ r)
| RTupleElems_one i b1 e s b2 r :
    blanks b1 -> RE i e s (b2 ++ L ")" ++ r) -> blanks b2 ->
    RTupleElems i [e] (b1 ++ s) (L ")" ++ r)
| RTupleElems_cons i b1 e s b2 es s' r :
    blanks b1 -> RE i e s (b2 ++ L "," ++ s') -> blanks b2 -> es <> [] -> RTupleElems i es s' r ->
    RTupleElems i (e :: es) (b1 ++ s) r

with RFields : N -> list (str * expr) -> str -> str -> Prop :=
| RFields_one i n e s r : RField i n e s r -> RFields i [(n, e)] s r
| RFields_cons i n e s t1 t2 fs s' r :
    RField i n e s (t1 ++ L "," ++ t2 ++ s') -> olay i t1 -> olay i t2 -> RFields i fs s' r ->
    RFields i ((n, e) :: fs) s r

with RField : N -> str -> expr -> str -> str -> Prop :=
| RField_intro i n t1 t2 e s r :
    lower_name n -> olay i t1 -> olay i t2 -> RE i e s r ->
    RField i n e (n ++ t1 ++ L "=" ++ t2 ++ s) r

with RUpdates : N -> list (str * expr) -> str -> str -> Prop :=
| RUpdates_one i n e s r : RUpdate i n e s r -> RUpdates i [(n, e)] s r
| RUpdates_cons i n e s t1 t2 fs s' r :
    RUpdate i n e s (t1 ++ L "," ++ t2 ++ s') -> olay i t1 -> olay i t2 -> RUpdates i fs s' r ->
    RUpdates i ((n, e) :: fs) s r

with RUpdate : N -> str -> expr -> str -> str -> Prop :=
| RUpdate_intro i n b1 b2 e s r :
    lower_name n -> blanks b1 -> blanks b2 -> RE i e s r ->
    RUpdate i n e (n ++ b1 ++ L "=" ++ b2 ++ s) r

with RLamArgs : N -> list expr -> str -> str -> Prop :=
| RLamArgs_one i e s r : RTerm i e s r -> RLamArgs i [e] s r
| RLamArgs_cons i e s b es s' r :
    RTerm i e s (b ++ s') -> tabs1 b -> RLamArgs i es s' r -> RLamArgs i (e :: es) s r

with REntries : N -> list let_entry -> str -> str -> Prop :=
| REntries_one m x s r : REntry m x s r -> REntries m [x] s r
| REntries_cons m x s t j xs s' r :
    REntry m x s (t ++ s') -> lay_eq m t j -> REntries m xs s' r ->
    REntries m (x :: xs) s r

with REntry : N -> let_entry -> str -> str -> Prop :=
| REntry_binding m x s t1 j1 t2 j e s' r :
    RTarget m x s (t1 ++ L "=" ++ t2 ++ s') -> lay_ge m t1 j1 -> lay_ge m t2 j -> RE j e s' r ->
    REntry m (LetBinding x e) s r
| REntry_function m n args e s r :
    args <> [] -> RDef m (mkDef n args e) s r ->
    REntry m (LetFunction (mkFunc None (mkDef n args e))) s r
| REntry_function_sig m sg d s r :
    RFunc m (mkFunc (Some sg) d) s r -> REntry m (LetFunction (mkFunc (Some sg) d)) s r

with RTarget : N -> expr -> str -> str -> Prop :=
| RTarget_var i e s r : RVar e s r -> RTarget i e s r
| RTarget_list i e s r : RList i e s r -> RTarget i e s r
| RTarget_tuple i es s r : RTupleElems i es s (L ")" ++ r) -> RTarget i (Tuple es) (L "(" ++ s) r
| RTarget_names i fs s r : RNames fs s r -> RTarget i (Record_ fs) (L "{" ++ s) r
| RTarget_no_names i r : RTarget i (Record_ []) (L "{}" ++ r) r

with RFunc : N -> func -> str -> str -> Prop :=
| RFunc_plain i d s r : RDef i d s r -> RFunc i (mkFunc None d) s r
| RFunc_sig i sg s b d s' r :
    RSig i sg s ([newline] ++ b ++ s') -> all_spaces b = true ->
    (N.of_nat (length b) mod 2 ^ 32 = i)%N -> RDef i d s' r ->
    RFunc i (mkFunc (Some sg) d) s r

with RDef : N -> func_def -> str -> str -> Prop :=
| RDef_intro i n sn args s1 b t j e s r :
    RName n sn s1 -> RDefArgs i args s1 (b ++ L "=" ++ t ++ s) -> spaces1 b -> lay_gt i t j ->
    RE j e s r ->
    RDef i (mkDef n args e) sn r

with RDefArgs : N -> list expr -> str -> str -> Prop :=
| RDefArgs_nil i r : RDefArgs i [] r r
| RDefArgs_cons i b e s s' es r :
    spaces1 b -> RTerm i e s s' -> RDefArgs i es s' r -> RDefArgs i (e :: es) (b ++ s) r

with RBranches : N -> list (expr * expr) -> str -> str -> Prop :=
| RBranches_one m p e s r : RBranch m p e s r -> RNoBranch m r -> RBranches m [(p, e)] s r
| RBranches_cons m p e s t j bs s' r :
    RBranch m p e s (t ++ s') -> lay_eq m t j -> RBranches m bs s' r ->
    RBranches m ((p, e) :: bs) s r

with RBranch : N -> expr -> expr -> str -> str -> Prop :=
| RBranch_intro m p s t1 j1 t2 j e s' r :
    RE m p s (t1 ++ L "->" ++ t2 ++ s') -> lay_ge m t1 j1 -> lay_ge m t2 j -> RE j e s' r ->
    RBranch m p e s r

(* the branches of a case end here: no layout that leads to column [m], or no
   expression follows, or one that is not followed by an arrow *)
with RNoBranch : N -> str -> Prop :=
| RNoBranch_layout m r t r' : trivia_run r t r' ->
    t = [] \/ (has_newline t = true /\ width m t <> m) -> RNoBranch m r
| RNoBranch_expr m r t r' : trivia_run r t r' -> no_expr r' -> RNoBranch m r
| RNoBranch_arrow m r t r' p r2 t2 r3 :
    trivia_run r t r' -> RE m p r' r2 -> trivia_run r2 t2 r3 ->
    t2 = [] \/ (has_newline t2 = true /\ (width m t2 < m)%N) \/ ~ (exists x, r3 = L "->" ++ x) ->
    RNoBranch m r.

(** ** Statements *)

(** [r] does not go on, on the same line, with anything but spaces *)
Definition line_blank (r : str) : Prop :=
  exists b r', r = b ++ r' /\ all_spaces b = true /\
    match r' with [] => True | c :: _ => c = newline \/ c = 13%N \/ c = 9%N end.

Inductive RExportItem : export_set -> str -> str -> Prop :=
| RExport_function n r : lower_name n -> ends_lower n r -> RExportItem (FunctionExport n) (n ++ r) r
| RExport_operator o r : operator_name o ->
    RExportItem (FunctionExport o) (L "(" ++ o ++ L ")" ++ r) r
| RExport_type n r : upper_name n -> ends (fun c => is_name_char c || (c =? C "(")%N) r ->
    RExportItem (TypeExport n None) (n ++ r) r
| RExport_type_all n r : upper_name n ->
    RExportItem (TypeExport n (Some AllExport)) (n ++ L "(..)" ++ r) r
| RExport_type_some n cs r : upper_name n -> qualified cs ->
    RExportItem (TypeExport n (Some (SubsetExport (map FunctionExport cs))))
      (n ++ L "(" ++ join (L ", ") cs ++ L ")" ++ r) r.

Inductive RExportItems : list export_set -> str -> str -> Prop :=
| RExportItems_one e s r : RExportItem e s r -> RExportItems [e] s r
| RExportItems_cons e s b1 b2 es s' r :
    RExportItem e s (b1 ++ L "," ++ b2 ++ s') -> ospnl b1 -> ospnl b2 -> RExportItems es s' r ->
    RExportItems (e :: es) s r.

Inductive RExports : export_set -> str -> str -> Prop :=
| RExports_all t1 t2 r : olay 0 t1 -> olay 0 t2 ->
    RExports AllExport (L "(" ++ t1 ++ L ".." ++ t2 ++ L ")" ++ r) r
| RExports_some t1 es s t2 r :
    olay 0 t1 -> RExportItems es s (t2 ++ L ")" ++ r) -> olay 0 t2 ->
    RExports (SubsetExport es) (L "(" ++ t1 ++ s) r.

Inductive REffectField : str * str -> str -> str -> Prop :=
| REffectField_intro n b1 b2 u r :
    lower_name n -> ospaces b1 -> ospaces b2 -> upper_name u -> ends is_name_char r ->
    REffectField (n, u) (n ++ b1 ++ L "=" ++ b2 ++ u ++ r) r.

Inductive REffectFields : list (str * str) -> str -> str -> Prop :=
| REffectFields_nil r : REffectFields [] (L "}" ++ r) (L "}" ++ r)
| REffectFields_one f s r : REffectField f s (L "}" ++ r) -> REffectFields [f] s (L "}" ++ r)
| REffectFields_cons f s fs s' r :
    REffectField f s (L ", " ++ s') -> fs <> [] -> REffectFields fs s' r ->
    REffectFields (f :: fs) s r.

Inductive RAlias : option str -> str -> str -> Prop :=
| RAlias_none s : (line_blank s \/ exists b x, s = b ++ L "exposing" ++ x /\ spaces1 b) -> RAlias None s s
| RAlias_some b1 b2 n r : spaces1 b1 -> spaces1 b2 -> upper_name n -> ends is_name_char r ->
    RAlias (Some n) (b1 ++ L "as" ++ b2 ++ n ++ r) r.

Inductive RExposing : option export_set -> str -> str -> Prop :=
| RExposing_none r : line_blank r -> RExposing None r r
| RExposing_some b1 b2 e s r : spaces1 b1 -> spaces1 b2 -> RExports e s r ->
    RExposing (Some e) (b1 ++ L "exposing" ++ b2 ++ s) r.

(** the constructors end here *)
Definition no_bar (m : N) (r : str) : Prop :=
  exists t r', trivia_run r t r' /\
    (t = [] \/ (has_newline t = true /\ (width m t < m)%N) \/ ends (fun c => (c =? C "|")%N) r').

Inductive RConstructors : N -> list type_ast -> str -> str -> Prop :=
| RConstructors_one m q args s r :
    qualified q -> ends_dotted s -> RParams m args s r -> no_bar m r ->
    RConstructors m [TypeConstructor q args] (dotted q ++ s) r
| RConstructors_cons m q args s t j b cs s' r :
    qualified q -> ends_dotted s -> RParams m args s (t ++ L "|" ++ b ++ s') ->
    lay_ge m t j -> spaces1 b -> RConstructors m cs s' r ->
    RConstructors m (TypeConstructor q args :: cs) (dotted q ++ s) r.

Inductive RPortArgs : list str -> str -> str -> Prop :=
| RPortArgs_nil r : RPortArgs [] r r
| RPortArgs_cons b n ns s r : spaces1 b -> lower_name n -> ends_lower n s -> RPortArgs ns s r ->
    RPortArgs (n :: ns) (b ++ n ++ s) r.

(** the text ends or goes on with a blank *)
Definition blank_next (r : str) : Prop :=
  match r with [] => True | c :: _ => is_blank c = true end.

(** after an infix declaration of an operator: the line ends, and the operator
    cannot be taken for [=] and a comment that leads to a definition *)
Definition no_definition (o r : str) : Prop :=
  forall o', o = L "=" ++ o' ->
    forall t r', trivia_run (o' ++ r) t r' ->
      t = [] \/ (has_newline t = true /\ width 0 t = 0%N) \/ no_expr r'.

Inductive RStmt : statement_ast -> str -> str -> Prop :=
| RStmt_module t1 q t2 t3 e s r :
    lay0 t1 -> qualified q -> lay0 t2 -> lay0 t3 -> RExports e s r ->
    RStmt (ModuleDeclaration q e)
      (L "module" ++ t1 ++ dotted q ++ t2 ++ L "exposing" ++ t3 ++ s) r
| RStmt_port_module t0 t1 q t2 t3 e s r :
    lay0 t0 -> lay0 t1 -> qualified q -> lay0 t2 -> lay0 t3 -> RExports e s r ->
    RStmt (PortModuleDeclaration q e)
      (L "port" ++ t0 ++ L "module" ++ t1 ++ dotted q ++ t2 ++ L "exposing" ++ t3 ++ s) r
| RStmt_effect_module t0 t1 q t2 t3 fs sf t4 t5 e s r :
    lay0 t0 -> lay0 t1 -> qualified q -> lay0 t2 -> lay0 t3 ->
    REffectFields fs sf (L "}" ++ t4 ++ L "exposing" ++ t5 ++ s) -> lay0 t4 -> lay0 t5 ->
    RExports e s r ->
    RStmt (EffectModuleDeclaration q fs e)
      (L "effect" ++ t0 ++ L "module" ++ t1 ++ dotted q ++ t2 ++ L "where" ++ t3 ++ L "{" ++ sf) r
| RStmt_import b q al sa ex sx r :
    spaces1 b -> qualified q -> ends_dotted sa -> RAlias al sa sx -> RExposing ex sx r ->
    RStmt (ImportStatement q al ex) (L "import" ++ b ++ dotted q ++ sa) r
| RStmt_alias b1 b2 n sn b3 t j d s r :
    spaces1 b1 -> spaces1 b2 -> RTy 0 n sn (b3 ++ L "=" ++ t ++ s) -> spaces1 b3 ->
    lay_ge 1 t j -> RAnn 1 d s r ->
    RStmt (TypeAliasDeclaration n d) (L "type" ++ b1 ++ L "alias" ++ b2 ++ sn) r
| RStmt_type b n sn t1 m t2 j cs s r :
    spaces1 b -> RTy 0 n sn (t1 ++ L "=" ++ t2 ++ s) -> lay_gt 0 t1 m -> lay_ge m t2 j ->
    RConstructors m cs s r ->
    RStmt (TypeDeclaration n cs) (L "type" ++ b ++ sn) r
| RStmt_port_type b1 n b2 t j ty s r :
    spaces1 b1 -> lower_name n -> spaces1 b2 -> lay_gt 0 t j -> RAnn j ty s r ->
    RStmt (PortTypeDeclaration n ty) (L "port" ++ b1 ++ n ++ b2 ++ L ":" ++ t ++ s) r
| RStmt_port b1 n args sa b2 t j e s r :
    spaces1 b1 -> lower_name n -> ends_lower n sa ->
    RPortArgs args sa (b2 ++ L "=" ++ t ++ s) -> spaces1 b2 ->
    lay_gt 0 t j -> RE j e s r ->
    RStmt (PortDeclaration n args e) (L "port" ++ b1 ++ n ++ sa) r
| RStmt_function f s r : RFunc 0 f s r -> RStmt (Function_ f) s r
| RStmt_infix_name a b1 d b2 n r :
    spaces1 b1 -> digits1 d -> (dec_value d <= 2 ^ 63 - 1)%N -> spaces1 b2 -> lower_name n ->
    line_blank r ->
    RStmt (InfixDeclaration a (dec_value d) n) (assoc_word a ++ b1 ++ d ++ b2 ++ n ++ r) r
| RStmt_infix_operator a b1 d b2 o r :
    spaces1 b1 -> digits1 d -> (dec_value d <= 2 ^ 63 - 1)%N -> spaces1 b2 -> operator_name o ->
    blank_next r -> no_definition o r ->
    RStmt (InfixDeclaration a (dec_value d) o) (assoc_word a ++ b1 ++ d ++ b2 ++ o ++ r) r
| RStmt_line_comment c r : forallb not_newline c = true -> line_end r ->
    RStmt (Comment c) (L "--" ++ c ++ r) r
| RStmt_block_comment c r : ~ (exists a b, c = a ++ L "-}" ++ b) ->
    RStmt (Comment c) (L "{-" ++ c ++ L "-}" ++ r) r.

Inductive RStmts : list statement_ast -> str -> str -> Prop :=
| RStmts_one st s r : RStmt st s r -> RStmts [st] s r
| RStmts_cons st s b sts s' r :
    RStmt st s (b ++ s') -> blanks1 b -> RStmts sts s' r -> RStmts (st :: sts) s r.

Inductive RFile : list statement_ast -> str -> Prop :=
| RFile_intro b1 sts s b2 : blanks b1 -> RStmts sts s b2 -> blanks b2 -> RFile sts (b1 ++ s).
