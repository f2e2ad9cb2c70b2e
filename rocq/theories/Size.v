(** * The size of a syntax tree

    How many nodes a tree has and how many characters it stores: the memory
    the result of a parse needs.  The definitions count; they do not refer to
    the parser.  The second half bounds them by the length of the text. *)
From Verif Require Import Base Ast Spec Grammar Wf.

Definition sum {A} (f : A -> nat) (l : list A) : nat := list_sum (map f l).
Lemma sum_cons {A} (f : A -> nat) a l : sum f (a :: l) = f a + sum f l.
Proof. reflexivity. Qed.
Lemma sum_nil {A} (f : A -> nat) : sum f [] = 0.
Proof. reflexivity. Qed.

(** ** Nodes: one for every constructor of a syntax type *)

Fixpoint type_nodes (t : type_ast) : nat :=
  match t with
  | TypeConstructor _ args => S (sum type_nodes args)
  | TypeVariable _ => 1
  | TypeRecordConstructor v fs => S (type_nodes v + sum (fun f => type_nodes (snd f)) fs)
  | TypeRecord fs => S (sum (fun f => type_nodes (snd f)) fs)
  | TypeTuple ts => S (sum type_nodes ts)
  | TypeApplication a b => S (type_nodes a + type_nodes b)
  end.

Definition sig_nodes (s : function_signature_ast) : nat := S (type_nodes (sig_type s)).
Definition opt_nodes {A} (f : A -> nat) (o : option A) : nat :=
  match o with None => 0 | Some a => f a end.

Fixpoint expr_nodes (e : expr) : nat :=
  match e with
  | Character _ | String_ _ | Integer _ | Float _ | Variable_ _ | AccessFunction _ => 1
  | List_ es => S (sum expr_nodes es)
  | Tuple es => S (sum expr_nodes es)
  | Access e _ => S (expr_nodes e)
  | Record_ fs => S (sum (fun f => expr_nodes (snd f)) fs)
  | RecordUpdate _ fs => S (sum (fun f => expr_nodes (snd f)) fs)
  | If_ c t e => S (expr_nodes c + expr_nodes t + expr_nodes e)
  | Let_ es e => S (sum entry_nodes es + expr_nodes e)
  | Case_ e bs => S (expr_nodes e + sum (fun b => expr_nodes (fst b) + expr_nodes (snd b)) bs)
  | Lambda args e => S (sum expr_nodes args + expr_nodes e)
  | Application f x => S (expr_nodes f + expr_nodes x)
  | BinOp o a b => S (expr_nodes o + expr_nodes a + expr_nodes b)
  end
with entry_nodes (x : let_entry) : nat :=
  match x with
  | LetFunction f => S (func_nodes f)
  | LetBinding t e => S (expr_nodes t + expr_nodes e)
  end
with func_nodes (f : func) : nat :=
  match f with mkFunc sg d => S (opt_nodes sig_nodes sg + def_nodes d) end
with def_nodes (d : func_def) : nat :=
  match d with mkDef _ args e => S (sum expr_nodes args + expr_nodes e) end.

Fixpoint export_nodes (e : export_set) : nat :=
  match e with
  | AllExport => 1
  | SubsetExport es => S (sum export_nodes es)
  | FunctionExport _ => 1
  | TypeExport _ None => 1
  | TypeExport _ (Some c) => S (export_nodes c)
  end.

Definition statement_nodes (s : statement_ast) : nat :=
  match s with
  | ModuleDeclaration _ e | PortModuleDeclaration _ e => S (export_nodes e)
  | EffectModuleDeclaration _ _ e => S (export_nodes e)
  | ImportStatement _ _ e => S (opt_nodes export_nodes e)
  | TypeAliasDeclaration n t => S (type_nodes n + type_nodes t)
  | TypeDeclaration n cs => S (type_nodes n + sum type_nodes cs)
  | PortTypeDeclaration _ t => S (type_nodes t)
  | PortDeclaration _ _ e => S (expr_nodes e)
  | Function_ f => S (func_nodes f)
  | InfixDeclaration _ _ _ | Comment _ => 1
  end.
Definition file_nodes (l : list statement_ast) : nat := sum statement_nodes l.

(** ** Characters: the total length of the stored names and literals *)

Definition chars (q : list str) : nat := sum (@length char) q.

Fixpoint type_chars (t : type_ast) : nat :=
  match t with
  | TypeConstructor q args => chars q + sum type_chars args
  | TypeVariable n => length n
  | TypeRecordConstructor v fs =>
      type_chars v + sum (fun f => length (fst f) + type_chars (snd f)) fs
  | TypeRecord fs => sum (fun f => length (fst f) + type_chars (snd f)) fs
  | TypeTuple ts => sum type_chars ts
  | TypeApplication a b => type_chars a + type_chars b
  end.

Definition sig_chars (s : function_signature_ast) : nat :=
  length (sig_name s) + type_chars (sig_type s).

Fixpoint expr_chars (e : expr) : nat :=
  match e with
  | Character _ => 1
  | String_ s | Integer s | Float s | AccessFunction s => length s
  | Variable_ q => chars q
  | List_ es => sum expr_chars es
  | Tuple es => sum expr_chars es
  | Access e fs => expr_chars e + chars fs
  | Record_ fs => sum (fun f => length (fst f) + expr_chars (snd f)) fs
  | RecordUpdate n fs => length n + sum (fun f => length (fst f) + expr_chars (snd f)) fs
  | If_ c t e => expr_chars c + expr_chars t + expr_chars e
  | Let_ es e => sum entry_chars es + expr_chars e
  | Case_ e bs => expr_chars e + sum (fun b => expr_chars (fst b) + expr_chars (snd b)) bs
  | Lambda args e => sum expr_chars args + expr_chars e
  | Application f x => expr_chars f + expr_chars x
  | BinOp o a b => expr_chars o + expr_chars a + expr_chars b
  end
with entry_chars (x : let_entry) : nat :=
  match x with
  | LetFunction f => func_chars f
  | LetBinding t e => expr_chars t + expr_chars e
  end
with func_chars (f : func) : nat :=
  match f with mkFunc sg d => opt_nodes sig_chars sg + def_chars d end
with def_chars (d : func_def) : nat :=
  match d with mkDef n args e => length n + sum expr_chars args + expr_chars e end.

Fixpoint export_chars (e : export_set) : nat :=
  match e with
  | AllExport => 0
  | SubsetExport es => sum export_chars es
  | FunctionExport n => length n
  | TypeExport n None => length n
  | TypeExport n (Some c) => length n + export_chars c
  end.

Definition statement_chars (s : statement_ast) : nat :=
  match s with
  | ModuleDeclaration q e | PortModuleDeclaration q e => chars q + export_chars e
  | EffectModuleDeclaration q fs e =>
      chars q + sum (fun f => length (fst f) + length (snd f)) fs + export_chars e
  | ImportStatement q a e => chars q + opt_nodes (@length char) a + opt_nodes export_chars e
  | TypeAliasDeclaration n t => type_chars n + type_chars t
  | TypeDeclaration n cs => type_chars n + sum type_chars cs
  | PortTypeDeclaration n t => length n + type_chars t
  | PortDeclaration n args e => length n + chars args + expr_chars e
  | Function_ f => func_chars f
  | InfixDeclaration _ _ n => length n
  | Comment s => length s
  end.
Definition file_chars (l : list statement_ast) : nat := sum statement_chars l.

(** ** Bounds *)

Lemma len1 {A} (w : list A) : w <> [] -> 1 <= length w.
Proof. destruct w; [congruence|cbn; lia]. Qed.
Lemma len_lower n : lower_name n -> 1 <= length n.
Proof. intros [->|[(c & t & -> & _) _]]; cbn; lia. Qed.
Lemma len_upper n : upper_name n -> 1 <= length n.
Proof. intros (c & t & -> & _); cbn; lia. Qed.
Lemma len_var n : type_var_name n -> 1 <= length n.
Proof. intros (c & t & -> & _); cbn; lia. Qed.
Lemma len_operator n : operator_name n -> 1 <= length n.
Proof. intros (H & _). apply len1, H. Qed.
Lemma len_infix n : infix_operator n -> 1 <= length n.
Proof. intros [->|[H _]]; [cbn; lia|apply len_operator, H]. Qed.
Lemma len_lay R i t j : lay R i t j -> 1 <= length t.
Proof. intros (_ & _ & H & _). apply len1, H. Qed.
Lemma len_join sep q : q <> [] -> Forall upper_name q -> chars q <= length (join sep q) /\ 1 <= length (join sep q).
Proof.
  intros Hq H. induction H as [|x q Hx H IH]; [congruence|]. apply len_upper in Hx.
  destruct q as [|y q]; [cbn; lia|].
  destruct (IH ltac:(discriminate)) as [IH1 IH2].
  change (join sep (x :: y :: q)) with (x ++ sep ++ join sep (y :: q)).
  change (chars (x :: y :: q)) with (length x + chars (y :: q)).
  rewrite !app_length. lia.
Qed.
Lemma len_dotted q : qualified q -> chars q <= length (dotted q) /\ 1 <= length (dotted q).
Proof. intros [H1 H2]. apply len_join; assumption. Qed.
Lemma len_digits d : digits1 d -> 1 <= length d.
Proof. intros [H _]. apply len1, H. Qed.
Lemma len_blanks1 d : blanks1 d -> 1 <= length d.
Proof. intros [H _]. apply len1, H. Qed.
Lemma len_spaces1 d : spaces1 d -> 1 <= length d.
Proof. intros [H _]. apply len1, H. Qed.
Lemma len_spnl1 d : spnl1 d -> 1 <= length d.
Proof. intros [H _]. apply len1, H. Qed.
Lemma len_tabs1 d : tabs1 d -> 1 <= length d.
Proof. intros [H _]. apply len1, H. Qed.
Lemma len_integer s : integer_text s -> 1 <= length s.
Proof. intros (sg & d & -> & _ & H). apply len_digits in H. rewrite app_length. lia. Qed.
Lemma len_float s : float_text s -> 1 <= length s.
Proof. intros (sg & d & e & -> & _ & H & _). apply len_digits in H. rewrite !app_length. lia. Qed.
Lemma len_char w c : char_content w c -> 1 <= length w.
Proof. intros []; cbn; lia. Qed.
Lemma len_fields fs : length (flat_map (fun f => L "." ++ f) fs) = length fs + chars fs.
Proof.
  induction fs as [|f fs IH]; [reflexivity|].
  cbn [flat_map]. rewrite app_length, IH. change (chars (f :: fs)) with (length f + chars fs).
  change (length (L "." ++ f)) with (S (length f)). cbn [length]. lia.
Qed.

Ltac lens :=
  repeat match goal with
  | H : _ /\ _ |- _ => destruct H
  | H : qualified _ |- _ => apply len_dotted in H
  | H : lower_name _ |- _ => apply len_lower in H
  | H : upper_name _ |- _ => apply len_upper in H
  | H : type_var_name _ |- _ => apply len_var in H
  | H : operator_name _ |- _ => apply len_operator in H
  | H : infix_operator _ |- _ => apply len_infix in H
  | H : lay_ge _ _ _ |- _ => apply len_lay in H
  | H : lay_gt _ _ _ |- _ => apply len_lay in H
  | H : lay_eq _ _ _ |- _ => apply len_lay in H
  | H : blanks1 _ |- _ => apply len_blanks1 in H
  | H : spaces1 _ |- _ => apply len_spaces1 in H
  | H : spnl1 _ |- _ => apply len_spnl1 in H
  | H : tabs1 _ |- _ => apply len_tabs1 in H
  | H : integer_text _ |- _ => apply len_integer in H
  | H : float_text _ |- _ => apply len_float in H
  | H : char_content _ _ |- _ => apply len_char in H
  | H : digits1 _ |- _ => apply len_digits in H
  end;
  repeat (rewrite ?len_fields, ?app_length; cbn [length]);
  unfold chars in *;
  cbn [type_nodes type_chars expr_nodes expr_chars entry_nodes entry_chars func_nodes func_chars
       def_nodes def_chars opt_nodes fst snd length export_nodes
       export_chars statement_nodes statement_chars] in *;
  repeat rewrite ?sum_cons, ?sum_nil in *;
  cbn [type_nodes type_chars expr_nodes expr_chars entry_nodes entry_chars func_nodes func_chars
       def_nodes def_chars opt_nodes fst snd length export_nodes
       export_chars statement_nodes statement_chars] in *;
  unfold chars in *;
  repeat rewrite ?sum_cons, ?sum_nil in *;
  cbn [length] in *.

Lemma size_types :
  (forall i t w, GTy i t w -> type_nodes t <= length w /\ type_chars t <= length w) /\
  (forall i t w, GTySimple i t w -> type_nodes t <= length w /\ type_chars t <= length w) /\
  (forall i t w, GParam i t w -> type_nodes t <= length w /\ type_chars t <= length w) /\
  (forall i ts w, GParams i ts w -> sum type_nodes ts <= length w /\ sum type_chars ts <= length w) /\
  (forall i ts w, GTyElems i ts w -> sum type_nodes ts <= length w /\ sum type_chars ts <= length w) /\
  (forall i fs w, GTyFields i fs w -> sum (fun f => type_nodes (snd f)) fs <= length w /\
     sum (fun f => length (fst f) + type_chars (snd f)) fs <= length w) /\
  (forall i n t w, GTyField i n t w -> type_nodes t <= length w /\ length n + type_chars t <= length w) /\
  (forall i t w, GAnn i t w -> type_nodes t <= length w /\ type_chars t <= length w).
Proof.
  apply (GType_ind
    (fun _ t w _ => type_nodes t <= length w /\ type_chars t <= length w)
    (fun _ t w _ => type_nodes t <= length w /\ type_chars t <= length w)
    (fun _ t w _ => type_nodes t <= length w /\ type_chars t <= length w)
    (fun _ ts w _ => sum type_nodes ts <= length w /\ sum type_chars ts <= length w)
    (fun _ ts w _ => sum type_nodes ts <= length w /\ sum type_chars ts <= length w)
    (fun _ fs w _ => sum (fun f => type_nodes (snd f)) fs <= length w /\
       sum (fun f => length (fst f) + type_chars (snd f)) fs <= length w)
    (fun _ n t w _ => type_nodes t <= length w /\ length n + type_chars t <= length w)
    (fun _ t w _ => type_nodes t <= length w /\ type_chars t <= length w));
    intros; lens; split; lia.
Qed.

Lemma size_ann i t w : GAnn i t w -> type_nodes t <= length w /\ type_chars t <= length w.
Proof. apply size_types. Qed.
Lemma size_ty i t w : GTy i t w -> type_nodes t <= length w /\ type_chars t <= length w.
Proof. apply size_types. Qed.
Lemma size_params i ts w : GParams i ts w -> sum type_nodes ts <= length w /\ sum type_chars ts <= length w.
Proof. apply size_types. Qed.

Lemma size_GVar e w : GVar e w -> expr_nodes e <= length w /\ expr_chars e <= length w.
Proof.
  intros H; destruct H; lens; try (split; lia).
Qed.
Lemma size_GName n w : GName n w -> 1 <= length n <= length w.
Proof. intros H; destruct H; lens; lia. Qed.
(** A name in [{ a, b }] is stored twice: as label and as variable. *)
Lemma size_GNames fs w : GNames fs w ->
  sum (fun f => expr_nodes (snd f)) fs <= length w /\
  sum (fun f => length (fst f) + expr_chars (snd f)) fs <= 2 * length w.
Proof. induction 1; lens; split; lia. Qed.
Lemma size_GNameRecord e w : GNameRecord e w ->
  expr_nodes e <= length w /\ expr_chars e <= 2 * length w.
Proof.
  intros H; destruct H; [cbn; lia|]. apply size_GNames in H. lens. split; lia.
Qed.
Lemma size_GSig i s w : GSig i s w -> 3 + sig_nodes s <= length w /\ sig_chars s <= length w.
Proof.
  intros H; destruct H. apply size_GName in H. apply size_ann in H2. unfold sig_nodes, sig_chars. cbn [sig_name sig_type].
  lens. split; lia.
Qed.

Lemma size_exprs :
  (forall i e w, GE i e w -> expr_nodes e <= length w /\ expr_chars e <= 2 * length w) /\
  (forall i e w, GApp i e w -> expr_nodes e <= length w /\ expr_chars e <= 2 * length w) /\
  (forall i e w, GTerm i e w -> expr_nodes e <= length w /\ expr_chars e <= 2 * length w) /\
  (forall i e w, GList i e w -> expr_nodes e <= length w /\ expr_chars e <= 2 * length w) /\
  (forall i es w, GElems i es w -> sum expr_nodes es <= length w /\ sum expr_chars es <= 2 * length w) /\
  (forall i e w, GTuple i e w -> expr_nodes e <= length w /\ expr_chars e <= 2 * length w) /\
  (forall i es w, GTupleElems i es w -> sum expr_nodes es <= length w /\ sum expr_chars es <= 2 * length w) /\
  (forall i fs w, GFields i fs w -> sum (fun f => expr_nodes (snd f)) fs <= length w /\
     sum (fun f => length (fst f) + expr_chars (snd f)) fs <= 2 * length w) /\
  (forall i n e w, GField i n e w -> expr_nodes e <= length w /\ length n + expr_chars e <= 2 * length w) /\
  (forall i fs w, GUpdates i fs w -> sum (fun f => expr_nodes (snd f)) fs <= length w /\
     sum (fun f => length (fst f) + expr_chars (snd f)) fs <= 2 * length w) /\
  (forall i n e w, GUpdate i n e w -> expr_nodes e <= length w /\ length n + expr_chars e <= 2 * length w) /\
  (forall i es w, GLamArgs i es w -> sum expr_nodes es <= length w /\ sum expr_chars es <= 2 * length w) /\
  (forall i es w, GEntries i es w -> sum entry_nodes es <= length w /\ sum entry_chars es <= 2 * length w) /\
  (forall i x w, GEntry i x w -> entry_nodes x <= length w /\ entry_chars x <= 2 * length w) /\
  (forall i e w, GTarget i e w -> expr_nodes e <= length w /\ expr_chars e <= 2 * length w) /\
  (forall i f w, GFunc i f w -> S (func_nodes f) <= length w /\ func_chars f <= 2 * length w) /\
  (forall i d w, GDef i d w -> 2 + def_nodes d <= length w /\ def_chars d <= 2 * length w) /\
  (forall i es w, GDefArgs i es w -> sum expr_nodes es <= length w /\ sum expr_chars es <= 2 * length w) /\
  (forall i bs w, GBranches i bs w ->
     sum (fun b => expr_nodes (fst b) + expr_nodes (snd b)) bs <= length w /\
     sum (fun b => expr_chars (fst b) + expr_chars (snd b)) bs <= 2 * length w) /\
  (forall i p e w, GBranch i p e w -> expr_nodes p + expr_nodes e <= length w /\
     expr_chars p + expr_chars e <= 2 * length w).
Proof.
  apply (GExpr_ind
    (fun _ e w _ => expr_nodes e <= length w /\ expr_chars e <= 2 * length w)
    (fun _ e w _ => expr_nodes e <= length w /\ expr_chars e <= 2 * length w)
    (fun _ e w _ => expr_nodes e <= length w /\ expr_chars e <= 2 * length w)
    (fun _ e w _ => expr_nodes e <= length w /\ expr_chars e <= 2 * length w)
    (fun _ es w _ => sum expr_nodes es <= length w /\ sum expr_chars es <= 2 * length w)
    (fun _ e w _ => expr_nodes e <= length w /\ expr_chars e <= 2 * length w)
    (fun _ es w _ => sum expr_nodes es <= length w /\ sum expr_chars es <= 2 * length w)
    (fun _ fs w _ => sum (fun f => expr_nodes (snd f)) fs <= length w /\
       sum (fun f => length (fst f) + expr_chars (snd f)) fs <= 2 * length w)
    (fun _ n e w _ => expr_nodes e <= length w /\ length n + expr_chars e <= 2 * length w)
    (fun _ fs w _ => sum (fun f => expr_nodes (snd f)) fs <= length w /\
       sum (fun f => length (fst f) + expr_chars (snd f)) fs <= 2 * length w)
    (fun _ n e w _ => expr_nodes e <= length w /\ length n + expr_chars e <= 2 * length w)
    (fun _ es w _ => sum expr_nodes es <= length w /\ sum expr_chars es <= 2 * length w)
    (fun _ es w _ => sum entry_nodes es <= length w /\ sum entry_chars es <= 2 * length w)
    (fun _ x w _ => entry_nodes x <= length w /\ entry_chars x <= 2 * length w)
    (fun _ e w _ => expr_nodes e <= length w /\ expr_chars e <= 2 * length w)
    (fun _ f w _ => S (func_nodes f) <= length w /\ func_chars f <= 2 * length w)
    (fun _ d w _ => 2 + def_nodes d <= length w /\ def_chars d <= 2 * length w)
    (fun _ es w _ => sum expr_nodes es <= length w /\ sum expr_chars es <= 2 * length w)
    (fun _ bs w _ => sum (fun b => expr_nodes (fst b) + expr_nodes (snd b)) bs <= length w /\
       sum (fun b => expr_chars (fst b) + expr_chars (snd b)) bs <= 2 * length w)
    (fun _ p e w _ => expr_nodes p + expr_nodes e <= length w /\
       expr_chars p + expr_chars e <= 2 * length w));
    intros;
    repeat match goal with
      | H : GVar _ _ |- _ => apply size_GVar in H
      | H : GName _ _ |- _ => apply size_GName in H
      | H : GSig _ _ _ |- _ => apply size_GSig in H
      | H : GNameRecord _ _ |- _ => apply size_GNameRecord in H
    end; lens; try (split; lia).
  apply len1 in n. split; lia.
Qed.

Lemma size_GE i e w : GE i e w -> expr_nodes e <= length w /\ expr_chars e <= 2 * length w.
Proof. apply (proj1 size_exprs). Qed.
Lemma size_GFunc i f w : GFunc i f w -> S (func_nodes f) <= length w /\ func_chars f <= 2 * length w.
Proof. apply size_exprs. Qed.

Lemma sum_map {A B} (f : B -> nat) (g : A -> B) l : sum f (map g l) = sum (fun a => f (g a)) l.
Proof. unfold sum. rewrite map_map. reflexivity. Qed.
Lemma sum_one {A} (l : list A) : sum (fun _ => 1) l = length l.
Proof. induction l as [|a l IH]; [reflexivity|]. rewrite sum_cons, IH. reflexivity. Qed.
Lemma chars_count q : Forall upper_name q -> length q <= chars q.
Proof.
  induction 1 as [|x q Hx _ IH]; [cbn; lia|]. apply len_upper in Hx.
  change (chars (x :: q)) with (length x + chars q). cbn [length]. lia.
Qed.
Lemma size_GExportItem e w : GExportItem e w -> export_nodes e <= length w /\ export_chars e <= length w.
Proof.
  intros H; destruct H; try solve [lens; split; lia].
  pose proof (len_join (L ", ") cs (proj1 H0) (proj2 H0)) as [H1 H2].
  pose proof (chars_count cs (proj2 H0)) as H3. clear H0.
  cbn [export_nodes export_chars]. rewrite !sum_map. cbn [export_nodes export_chars].
  rewrite sum_one. change (sum (fun a : str => length a) cs) with (chars cs). lens. split; lia.
Qed.
Lemma size_GExportItems es w : GExportItems es w ->
  sum export_nodes es <= length w /\ sum export_chars es <= length w.
Proof.
  induction 1; apply size_GExportItem in H; lens; split; lia.
Qed.
Lemma size_GExports e w : GExports e w -> export_nodes e <= length w /\ export_chars e <= length w.
Proof. intros H; destruct H; [|apply size_GExportItems in H0]; lens; split; lia. Qed.
Lemma size_GEffectFields fs w : GEffectFields fs w ->
  sum (fun f => length (fst f) + length (snd f)) fs <= length w.
Proof. induction 1; destruct H; lens; lia. Qed.
Lemma size_GConstructors m cs w : GConstructors m cs w ->
  sum type_nodes cs <= length w /\ sum type_chars cs <= length w.
Proof. induction 1; apply size_params in H0; lens; split; lia. Qed.
Lemma size_GPortArgs ns w : GPortArgs ns w -> chars ns <= length w.
Proof. induction 1; lens; lia. Qed.
Lemma size_GExposing e w : GExposing e w ->
  opt_nodes export_nodes e <= length w /\ opt_nodes export_chars e <= length w.
Proof. intros H; destruct H; [cbn; lia|]. apply size_GExports in H1. lens. split; lia. Qed.
Lemma size_GAlias a w : GAlias a w -> opt_nodes (@length char) a <= length w.
Proof. intros H; destruct H; [cbn; lia|]. lens. lia. Qed.

Lemma size_GStmt st w : GStmt st w ->
  statement_nodes st <= length w /\ statement_chars st <= 2 * length w.
Proof.
  intros H; destruct H;
    repeat match goal with
      | H : GExports _ _ |- _ => apply size_GExports in H
      | H : GExposing _ _ |- _ => apply size_GExposing in H
      | H : GAlias _ _ |- _ => apply size_GAlias in H
      | H : GTy _ _ _ |- _ => apply size_ty in H
      | H : GAnn _ _ _ |- _ => apply size_ann in H
      | H : GE _ _ _ |- _ => apply size_GE in H
      | H : GFunc _ _ _ |- _ => apply size_GFunc in H
      | H : GConstructors _ _ _ |- _ => apply size_GConstructors in H
      | H : GPortArgs _ _ |- _ => apply size_GPortArgs in H
    end; try solve [lens; split; lia].
  - assert (sum (fun f => length (fst f) + length (snd f)) fs <= length wf).
    { destruct H4 as [[-> ->]|H4]; [cbn; lia|apply size_GEffectFields, H4]. }
    lens; split; lia.
Qed.
Lemma size_GStmts sts w : GStmts sts w -> file_nodes sts <= length w /\ file_chars sts <= 2 * length w.
Proof. unfold file_nodes, file_chars. induction 1; apply size_GStmt in H; lens; split; lia. Qed.
Theorem size_GFile sts w : GFile sts w -> file_nodes sts <= length w /\ file_chars sts <= 2 * length w.
Proof. intros H; destruct H. apply size_GStmts in H0. rewrite !app_length. lia. Qed.
