(** * Well-formed abstract syntax

    The invariants that every AST produced by the parser satisfies; the second
    half derives them from the grammar.  Round.v proves the converse: every
    well-formed AST is produced for some text. *)
From Verif Require Import Base Ast Spec Grammar.

(** ** Types *)

(** a type constructor with arguments is an argument only inside a tuple *)
Definition is_param (t : type_ast) : Prop :=
  match t with TypeConstructor _ (_ :: _) => False | _ => True end.

Inductive wf_type : type_ast -> Prop :=
| wf_constructor q args : qualified q -> wf_types args -> Forall is_param args ->
    wf_type (TypeConstructor q args)
| wf_variable n : type_var_name n -> wf_type (TypeVariable n)
| wf_extension n fs : type_var_name n -> fs <> [] -> wf_tfields fs ->
    wf_type (TypeRecordConstructor (TypeVariable n) fs)
| wf_record fs : wf_tfields fs -> wf_type (TypeRecord fs)
| wf_tuple ts : wf_types ts -> wf_type (TypeTuple ts)
| wf_arrow a b : wf_type a -> wf_type b -> wf_type (TypeApplication a b)
with wf_types : list type_ast -> Prop :=
| wf_types_nil : wf_types []
| wf_types_cons t ts : wf_type t -> wf_types ts -> wf_types (t :: ts)
with wf_tfields : list (str * type_ast) -> Prop :=
| wf_tfields_nil : wf_tfields []
| wf_tfields_cons n t fs : lower_name n -> wf_type t -> wf_tfields fs ->
    wf_tfields ((n, t) :: fs).

(** ** Expressions *)

Definition commas (o : str) : Prop := o <> [] /\ forallb (fun c => (c =? C ",")%N) o = true.

(** a variable: a lower-case name, a qualified upper-case name, or one operator
    or run of commas (written in parentheses) *)
Definition wf_var (e : expr) : Prop :=
  (exists n, e = Variable_ [n] /\ (lower_name n \/ operator_name n \/ commas n)) \/
  (exists q, e = Variable_ q /\ qualified q).

(** the name of a definition *)
Definition def_name (n : str) : Prop := lower_name n \/ operator_name n.

Definition name_field (f : str * expr) : Prop :=
  lower_name (fst f) /\ snd f = Variable_ [fst f].

(** what may stand left of = in a let entry *)
Definition is_target (e : expr) : Prop :=
  wf_var e \/ (exists es, e = List_ es) \/ (exists es, e = Tuple es) \/
  (exists fs, e = Record_ fs /\ Forall name_field fs).

Definition wf_sig (s : function_signature_ast) : Prop :=
  def_name (sig_name s) /\ wf_type (sig_type s).
Definition wf_osig (s : option function_signature_ast) : Prop :=
  match s with None => True | Some s => wf_sig s end.

Inductive wf_expr : expr -> Prop :=
| wf_char c : wf_expr (Character c)
| wf_string s : no_quote s \/ string_content s -> wf_expr (String_ s)
| wf_integer s : integer_text s -> wf_expr (Integer s)
| wf_float s : float_text s -> wf_expr (Float s)
| wf_variable_ e : wf_var e -> wf_expr e
| wf_list es : wf_exprs es -> wf_expr (List_ es)
| wf_etuple es : wf_exprs es -> wf_expr (Tuple es)
| wf_access e fs : wf_var e -> fs <> [] -> Forall lower_name fs -> wf_expr (Access e fs)
| wf_access_function n : lower_name n -> wf_expr (AccessFunction n)
| wf_erecord fs : wf_fields fs -> wf_expr (Record_ fs)
| wf_update n fs : lower_name n -> wf_fields fs -> wf_expr (RecordUpdate n fs)
| wf_if c t e : wf_expr c -> wf_expr t -> wf_expr e -> wf_expr (If_ c t e)
| wf_let es e : es <> [] -> wf_entries es -> wf_expr e -> wf_expr (Let_ es e)
| wf_case e bs : wf_expr e -> bs <> [] -> wf_branches bs -> wf_expr (Case_ e bs)
| wf_lambda args e : args <> [] -> wf_exprs args -> wf_expr e -> wf_expr (Lambda args e)
| wf_application f x : wf_expr f -> wf_expr x -> wf_expr (Application f x)
| wf_binop o a b : infix_operator o -> wf_expr a -> wf_expr b ->
    wf_expr (BinOp (Variable_ [o]) a b)
with wf_exprs : list expr -> Prop :=
| wf_exprs_nil : wf_exprs []
| wf_exprs_cons e es : wf_expr e -> wf_exprs es -> wf_exprs (e :: es)
with wf_fields : list (str * expr) -> Prop :=
| wf_fields_nil : wf_fields []
| wf_fields_cons n e fs : lower_name n -> wf_expr e -> wf_fields fs -> wf_fields ((n, e) :: fs)
with wf_branches : list (expr * expr) -> Prop :=
| wf_branches_nil : wf_branches []
| wf_branches_cons p e bs : wf_expr p -> wf_expr e -> wf_branches bs ->
    wf_branches ((p, e) :: bs)
with wf_entries : list let_entry -> Prop :=
| wf_entries_nil : wf_entries []
| wf_entries_cons x xs : wf_entry x -> wf_entries xs -> wf_entries (x :: xs)
with wf_entry : let_entry -> Prop :=
| wf_binding x e : is_target x -> wf_expr x -> wf_expr e -> wf_entry (LetBinding x e)
| wf_let_function sg n args e :
    (* without signature and parameters it would be a binding *)
    sg <> None \/ args <> [] -> wf_func (mkFunc sg (mkDef n args e)) ->
    wf_entry (LetFunction (mkFunc sg (mkDef n args e)))
with wf_func : func -> Prop :=
| wf_func_intro sg n args e : wf_osig sg -> def_name n -> wf_exprs args -> wf_expr e ->
    wf_func (mkFunc sg (mkDef n args e)).

(** ** Statements *)

Inductive wf_item : export_set -> Prop :=
| wf_item_function n : def_name n -> wf_item (FunctionExport n)
| wf_item_type n : upper_name n -> wf_item (TypeExport n None)
| wf_item_type_all n : upper_name n -> wf_item (TypeExport n (Some AllExport))
| wf_item_type_some n cs : upper_name n -> qualified cs ->
    wf_item (TypeExport n (Some (SubsetExport (map FunctionExport cs)))).

Inductive wf_exports : export_set -> Prop :=
| wf_exports_all : wf_exports AllExport
| wf_exports_some es : es <> [] -> Forall wf_item es -> wf_exports (SubsetExport es).

Inductive wf_statement : statement_ast -> Prop :=
| wf_module q e : qualified q -> wf_exports e -> wf_statement (ModuleDeclaration q e)
| wf_port_module q e : qualified q -> wf_exports e -> wf_statement (PortModuleDeclaration q e)
| wf_effect_module q fs e : qualified q ->
    Forall (fun f => lower_name (fst f) /\ upper_name (snd f)) fs -> wf_exports e ->
    wf_statement (EffectModuleDeclaration q fs e)
| wf_import q al ex : qualified q ->
    match al with None => True | Some a => upper_name a end ->
    match ex with None => True | Some e => wf_exports e end ->
    wf_statement (ImportStatement q al ex)
| wf_alias n t : wf_type n -> wf_type t -> wf_statement (TypeAliasDeclaration n t)
| wf_type_decl n cs : wf_type n -> cs <> [] -> wf_types cs ->
    Forall (fun c => exists q args, c = TypeConstructor q args) cs ->
    wf_statement (TypeDeclaration n cs)
| wf_port_type n t : lower_name n -> wf_type t -> wf_statement (PortTypeDeclaration n t)
| wf_port n args e : lower_name n -> Forall lower_name args -> wf_expr e ->
    wf_statement (PortDeclaration n args e)
| wf_function f : wf_func f -> wf_statement (Function_ f)
| wf_infix a p n : (p <= 2 ^ 63 - 1)%N -> def_name n -> wf_statement (InfixDeclaration a p n)
| wf_comment c : forallb not_newline c = true \/ ~ (exists a b, c = a ++ L "-}" ++ b) ->
    wf_statement (Comment c).

Definition wf_file (sts : list statement_ast) : Prop := sts <> [] /\ Forall wf_statement sts.

(** ** The grammar only derives well-formed syntax *)

Scheme GTy_mut := Induction for GTy Sort Prop
  with GTySimple_mut := Induction for GTySimple Sort Prop
  with GParam_mut := Induction for GParam Sort Prop
  with GParams_mut := Induction for GParams Sort Prop
  with GTyElems_mut := Induction for GTyElems Sort Prop
  with GTyFields_mut := Induction for GTyFields Sort Prop
  with GTyField_mut := Induction for GTyField Sort Prop
  with GAnn_mut := Induction for GAnn Sort Prop.
Combined Scheme GType_ind from GTy_mut, GTySimple_mut, GParam_mut, GParams_mut,
  GTyElems_mut, GTyFields_mut, GTyField_mut, GAnn_mut.

Create HintDb wf discriminated.
#[local] Hint Constructors wf_type wf_types wf_tfields wf_expr wf_exprs wf_fields wf_branches
  wf_entries wf_entry wf_func wf_item wf_exports wf_statement Forall : wf.

Lemma wf_G_types :
  (forall i t w, GTy i t w -> wf_type t) /\
  (forall i t w, GTySimple i t w -> wf_type t /\ is_param t) /\
  (forall i t w, GParam i t w -> wf_type t /\ is_param t) /\
  (forall i ts w, GParams i ts w -> wf_types ts /\ Forall is_param ts) /\
  (forall i ts w, GTyElems i ts w -> wf_types ts) /\
  (forall i fs w, GTyFields i fs w -> wf_tfields fs /\ fs <> []) /\
  (forall i n t w, GTyField i n t w -> lower_name n /\ wf_type t) /\
  (forall i t w, GAnn i t w -> wf_type t).
Proof.
  apply (GType_ind
    (fun _ t _ _ => wf_type t) (fun _ t _ _ => wf_type t /\ is_param t)
    (fun _ t _ _ => wf_type t /\ is_param t) (fun _ ts _ _ => wf_types ts /\ Forall is_param ts)
    (fun _ ts _ _ => wf_types ts) (fun _ fs _ _ => wf_tfields fs /\ fs <> [])
    (fun _ n t _ _ => lower_name n /\ wf_type t) (fun _ t _ _ => wf_type t));
    intros;
    repeat match goal with H : _ /\ _ |- _ => destruct H end;
    repeat match goal with |- _ /\ _ => split end;
    try exact I; try discriminate; auto with wf nocore.
Qed.

Lemma wf_GTy i t w : GTy i t w -> wf_type t.
Proof. apply (proj1 wf_G_types). Qed.
Lemma wf_GAnn i t w : GAnn i t w -> wf_type t.
Proof. apply wf_G_types. Qed.
Lemma wf_GParams i ts w : GParams i ts w -> wf_types ts /\ Forall is_param ts.
Proof. apply wf_G_types. Qed.

Lemma wf_GVar e w : GVar e w -> wf_var e.
Proof. intros H; destruct H; [left|right|left|left]; eexists; split; eauto; right; right; split; auto. Qed.
Lemma wf_GName n w : GName n w -> def_name n.
Proof. intros H; destruct H; [left|right]; assumption. Qed.
Lemma wf_GNames fs w : GNames fs w -> Forall name_field fs.
Proof. induction 1; constructor; auto; split; auto. Qed.
Lemma wf_GSig i s w : GSig i s w -> wf_sig s.
Proof.
  intros H; destruct H; split; simpl; [eapply wf_GName|eapply wf_GAnn]; eassumption.
Qed.

Lemma wf_name_fields fs : Forall name_field fs -> wf_fields fs.
Proof.
  induction 1 as [|[n e] fs [Hn He] _ IH]; constructor; auto. simpl in *. subst e.
  apply wf_variable_. left. eauto.
Qed.
Lemma wf_GNameRecord e w : GNameRecord e w -> is_target e /\ wf_expr e.
Proof.
  intros H; destruct H as [|fs w H].
  - split; [right; right; right; exists []; auto|]. apply wf_erecord. constructor.
  - apply wf_GNames in H. split; [right; right; right; eauto|].
    apply wf_erecord, wf_name_fields, H.
Qed.
#[local] Hint Resolve wf_GTy wf_GAnn wf_GVar wf_GName wf_GSig : wf.

Scheme GE_mut := Induction for GE Sort Prop
  with GApp_mut := Induction for GApp Sort Prop
  with GTerm_mut := Induction for GTerm Sort Prop
  with GList_mut := Induction for GList Sort Prop
  with GElems_mut := Induction for GElems Sort Prop
  with GTuple_mut := Induction for GTuple Sort Prop
  with GTupleElems_mut := Induction for GTupleElems Sort Prop
  with GFields_mut := Induction for GFields Sort Prop
  with GField_mut := Induction for GField Sort Prop
  with GUpdates_mut := Induction for GUpdates Sort Prop
  with GUpdate_mut := Induction for GUpdate Sort Prop
  with GLamArgs_mut := Induction for GLamArgs Sort Prop
  with GEntries_mut := Induction for GEntries Sort Prop
  with GEntry_mut := Induction for GEntry Sort Prop
  with GTarget_mut := Induction for GTarget Sort Prop
  with GFunc_mut := Induction for GFunc Sort Prop
  with GDef_mut := Induction for GDef Sort Prop
  with GDefArgs_mut := Induction for GDefArgs Sort Prop
  with GBranches_mut := Induction for GBranches Sort Prop
  with GBranch_mut := Induction for GBranch Sort Prop.
Combined Scheme GExpr_ind from GE_mut, GApp_mut, GTerm_mut, GList_mut, GElems_mut, GTuple_mut,
  GTupleElems_mut, GFields_mut, GField_mut, GUpdates_mut, GUpdate_mut, GLamArgs_mut,
  GEntries_mut, GEntry_mut, GTarget_mut, GFunc_mut, GDef_mut, GDefArgs_mut, GBranches_mut,
  GBranch_mut.

Definition wf_def (d : func_def) : Prop :=
  match d with mkDef n args e => def_name n /\ wf_exprs args /\ wf_expr e end.

Lemma wf_G_exprs :
  (forall i e w, GE i e w -> wf_expr e) /\
  (forall i e w, GApp i e w -> wf_expr e) /\
  (forall i e w, GTerm i e w -> wf_expr e) /\
  (forall i e w, GList i e w -> is_target e /\ wf_expr e) /\
  (forall i es w, GElems i es w -> wf_exprs es) /\
  (forall i e w, GTuple i e w -> is_target e /\ wf_expr e) /\
  (forall i es w, GTupleElems i es w -> wf_exprs es) /\
  (forall i fs w, GFields i fs w -> wf_fields fs) /\
  (forall i n e w, GField i n e w -> lower_name n /\ wf_expr e) /\
  (forall i fs w, GUpdates i fs w -> wf_fields fs) /\
  (forall i n e w, GUpdate i n e w -> lower_name n /\ wf_expr e) /\
  (forall i es w, GLamArgs i es w -> es <> [] /\ wf_exprs es) /\
  (forall i es w, GEntries i es w -> es <> [] /\ wf_entries es) /\
  (forall i x w, GEntry i x w -> wf_entry x) /\
  (forall i e w, GTarget i e w -> is_target e /\ wf_expr e) /\
  (forall i f w, GFunc i f w -> wf_func f) /\
  (forall i d w, GDef i d w -> wf_def d) /\
  (forall i es w, GDefArgs i es w -> wf_exprs es) /\
  (forall i bs w, GBranches i bs w -> bs <> [] /\ wf_branches bs) /\
  (forall i p e w, GBranch i p e w -> wf_expr p /\ wf_expr e).
Proof.
  apply (GExpr_ind
    (fun _ e _ _ => wf_expr e) (fun _ e _ _ => wf_expr e) (fun _ e _ _ => wf_expr e)
    (fun _ e _ _ => is_target e /\ wf_expr e) (fun _ es _ _ => wf_exprs es)
    (fun _ e _ _ => is_target e /\ wf_expr e) (fun _ es _ _ => wf_exprs es)
    (fun _ fs _ _ => wf_fields fs) (fun _ n e _ _ => lower_name n /\ wf_expr e)
    (fun _ fs _ _ => wf_fields fs) (fun _ n e _ _ => lower_name n /\ wf_expr e)
    (fun _ es _ _ => es <> [] /\ wf_exprs es) (fun _ es _ _ => es <> [] /\ wf_entries es)
    (fun _ x _ _ => wf_entry x) (fun _ e _ _ => is_target e /\ wf_expr e)
    (fun _ f _ _ => wf_func f) (fun _ d _ _ => wf_def d) (fun _ es _ _ => wf_exprs es)
    (fun _ bs _ _ => bs <> [] /\ wf_branches bs) (fun _ p e _ _ => wf_expr p /\ wf_expr e));
    intros;
    repeat match goal with
      | H : _ /\ _ |- _ => destruct H
      | H : wf_def ?d |- _ => is_var d; destruct d
      | H : wf_def (mkDef _ _ _) |- _ => destruct H as (? & ? & ?)
      | H : GNameRecord _ _ |- _ => apply wf_GNameRecord in H
    end;
    repeat match goal with |- _ /\ _ => split end;
    try discriminate; eauto 4 with wf nocore.
  all: try solve [unfold is_target; eauto 6 with wf].
  - apply wf_let_function; [auto|]. constructor; auto. exact I.
  - destruct d. apply wf_let_function; [left; discriminate|assumption].
  - constructor; auto. exact I.
  - constructor; eauto with wf nocore. simpl. eauto with wf nocore.
  - repeat split; eauto with wf nocore.
Qed.

Lemma wf_GE i e w : GE i e w -> wf_expr e.
Proof. apply (proj1 wf_G_exprs). Qed.
Lemma wf_GFunc i f w : GFunc i f w -> wf_func f.
Proof. apply wf_G_exprs. Qed.

Lemma wf_GExportItem e w : GExportItem e w -> wf_item e.
Proof. intros H; destruct H; try (constructor; auto; fail); apply wf_item_function; [left|right]; auto. Qed.
Lemma wf_GExportItems es w : GExportItems es w -> es <> [] /\ Forall wf_item es.
Proof.
  induction 1 as [e w H|e w b1 b2 es w' H _ _ _ [_ IH]]; (split; [discriminate|]);
    apply wf_GExportItem in H; auto.
Qed.
Lemma wf_GExports e w : GExports e w -> wf_exports e.
Proof.
  intros H; destruct H as [|t1 es w t2 _ H _]; [constructor|].
  apply wf_GExportItems in H as [H1 H2]. constructor; assumption.
Qed.

Lemma wf_GConstructors m cs w : GConstructors m cs w ->
  cs <> [] /\ wf_types cs /\ Forall (fun c => exists q args, c = TypeConstructor q args) cs.
Proof.
  induction 1 as [m q args w Hq Ha|m q args w t j b cs w' Hq Ha _ _ _ (_ & IH1 & IH2)];
    apply wf_GParams in Ha as [Ha Hp]; (split; [discriminate|]); split;
    eauto 8 with wf.
Qed.

Lemma wf_GPortArgs ns w : GPortArgs ns w -> Forall lower_name ns.
Proof. induction 1; auto. Qed.

Lemma wf_GEffectFields fs w : GEffectFields fs w ->
  Forall (fun f => lower_name (fst f) /\ upper_name (snd f)) fs.
Proof.
  induction 1 as [f w H|f w fs w' H _ IH]; destruct H; constructor; auto.
Qed.

Lemma wf_GStmt st w : GStmt st w -> wf_statement st.
Proof.
  intros H; destruct H;
    repeat match goal with H : GExports _ _ |- _ => apply wf_GExports in H end;
    try solve [constructor; eauto using wf_GExports, wf_GTy, wf_GAnn, wf_GE, wf_GPortArgs, wf_GFunc].
  - constructor; auto. destruct H4 as [[-> _]|H4]; [constructor|].
    eapply wf_GEffectFields; eassumption.
  - constructor; auto.
    + destruct H1; auto.
    + destruct H2; eauto using wf_GExports.
  - apply wf_GConstructors in H3 as (? & ? & ?). constructor; eauto using wf_GTy.
Qed.

Lemma wf_GStmts sts w : GStmts sts w -> wf_file sts.
Proof.
  induction 1 as [st w H|st w b sts w' H _ _ [_ IH]]; (split; [discriminate|]);
    apply wf_GStmt in H; auto.
Qed.

Lemma wf_GFile sts w : GFile sts w -> wf_file sts.
Proof. intros H; destruct H. eapply wf_GStmts; eassumption. Qed.
