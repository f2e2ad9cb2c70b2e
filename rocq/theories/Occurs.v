(** * Occurrences of expressions in a file

    [child]: direct sub-expressions; [sub]: sub-expressions at any depth.  The
    second half shows that every occurrence in a well-formed file is well
    formed. *)
From Verif Require Import Base Ast Spec Grammar Wf.

(** the expressions of a function: its parameters and its body *)
Inductive func_part : expr -> func -> Prop :=
| fp_arg e sg n args b : In e args -> func_part e (mkFunc sg (mkDef n args b))
| fp_body sg n args b : func_part b (mkFunc sg (mkDef n args b)).

Inductive entry_part : expr -> let_entry -> Prop :=
| ep_target t e : entry_part t (LetBinding t e)
| ep_value t e : entry_part e (LetBinding t e)
| ep_function e f : func_part e f -> entry_part e (LetFunction f).

Inductive child : expr -> expr -> Prop :=
| ch_list e es : In e es -> child e (List_ es)
| ch_tuple e es : In e es -> child e (Tuple es)
| ch_access e fs : child e (Access e fs)
| ch_record n e fs : In (n, e) fs -> child e (Record_ fs)
| ch_update n m e fs : In (n, e) fs -> child e (RecordUpdate m fs)
| ch_if1 a b c : child a (If_ a b c)
| ch_if2 a b c : child b (If_ a b c)
| ch_if3 a b c : child c (If_ a b c)
| ch_let e x xs b : In x xs -> entry_part e x -> child e (Let_ xs b)
| ch_let_body xs b : child b (Let_ xs b)
| ch_case e bs : child e (Case_ e bs)
| ch_pattern p v e bs : In (p, v) bs -> child p (Case_ e bs)
| ch_branch p v e bs : In (p, v) bs -> child v (Case_ e bs)
| ch_lambda_arg e args b : In e args -> child e (Lambda args b)
| ch_lambda_body args b : child b (Lambda args b)
| ch_function f x : child f (Application f x)
| ch_argument f x : child x (Application f x)
| ch_left o a b : child a (BinOp o a b)
| ch_right o a b : child b (BinOp o a b).

Inductive sub : expr -> expr -> Prop :=
| sub_refl e : sub e e
| sub_child x y z : sub x y -> child y z -> sub x z.

(** [e] is one of the expressions a statement is made of *)
Inductive root : expr -> statement_ast -> Prop :=
| root_function e f : func_part e f -> root e (Function_ f)
| root_port n args e : root e (PortDeclaration n args e).

Definition occurs (e : expr) (sts : list statement_ast) : Prop :=
  exists st e', In st sts /\ root e' st /\ sub e e'.

Lemma wf_exprs_In es : wf_exprs es -> forall e, In e es -> wf_expr e.
Proof. induction 1; intros x []; subst; auto. Qed.
Lemma wf_fields_In fs : wf_fields fs -> forall n e, In (n, e) fs -> lower_name n /\ wf_expr e.
Proof. induction 1; intros x y Hin; [destruct Hin|]. destruct Hin as [Hin|Hin]; [|eauto]. injection Hin as <- <-. auto. Qed.
Lemma wf_branches_In bs : wf_branches bs -> forall p e, In (p, e) bs -> wf_expr p /\ wf_expr e.
Proof. induction 1; intros x y Hin; [destruct Hin|]. destruct Hin as [Hin|Hin]; [|eauto]. injection Hin as <- <-. auto. Qed.
Lemma wf_entries_In xs : wf_entries xs -> forall x, In x xs -> wf_entry x.
Proof. induction 1; intros y []; subst; auto. Qed.
Lemma wf_func_part f e : wf_func f -> func_part e f -> wf_expr e.
Proof.
  intros H P. destruct P; inversion H; subst; [|assumption].
  eapply wf_exprs_In; eassumption.
Qed.
Lemma wf_entry_part x e : wf_entry x -> entry_part e x -> wf_expr e.
Proof.
  intros H P. destruct P; inversion H; subst; try assumption.
  eapply wf_func_part; eassumption.
Qed.
Lemma wf_var_expr e : wf_var e -> wf_expr e.
Proof. apply wf_variable_. Qed.

Lemma wf_child e e' : wf_expr e' -> child e e' -> wf_expr e.
Proof.
  intros H P. destruct P; inversion H; subst;
    try assumption; try (match goal with V : wf_var _ |- _ =>
      destruct V as [(? & ? & _)|(? & ? & _)]; discriminate end);
    eauto using wf_exprs_In, wf_var_expr, wf_entry_part, wf_entries_In.
  all: first [ eapply wf_fields_In; eassumption
             | eapply (fun H p e X => proj1 (wf_branches_In _ H p e X)); eassumption
             | eapply (fun H p e X => proj2 (wf_branches_In _ H p e X)); eassumption ].
Qed.

Lemma wf_sub e e' : sub e e' -> wf_expr e' -> wf_expr e.
Proof. induction 1; eauto using wf_child. Qed.

Lemma wf_root e st : wf_statement st -> root e st -> wf_expr e.
Proof. intros H P. destruct P; inversion H; subst; eauto using wf_func_part. Qed.

Lemma wf_occurs e sts : wf_file sts -> occurs e sts -> wf_expr e.
Proof.
  intros [_ H] (st & e' & Hin & Hr & Hs). rewrite Forall_forall in H.
  eauto using wf_sub, wf_root.
Qed.

(** a let entry is a function only if it has a signature or a parameter *)
Definition entry_kind (x : let_entry) : Prop :=
  match x with
  | LetFunction (mkFunc sg (mkDef _ args _)) => sg <> None \/ args <> []
  | LetBinding t _ => is_target t
  end.

Lemma occurs_entry xs b sts x : wf_file sts -> occurs (Let_ xs b) sts -> In x xs -> entry_kind x.
Proof.
  intros H Ho Hx. apply (wf_occurs _ _ H) in Ho. inversion Ho; subst.
  { match goal with V : wf_var _ |- _ => destruct V as [(? & ? & _)|(? & ? & _)]; discriminate end. }
  assert (Hw : wf_entry x) by (eapply wf_entries_In; eassumption).
  destruct Hw; assumption.
Qed.

Lemma occurs_binop o a b sts : wf_file sts -> occurs (BinOp o a b) sts ->
  exists n, o = Variable_ [n] /\ infix_operator n.
Proof.
  intros H Ho. apply (wf_occurs _ _ H) in Ho. inversion Ho; subst; [|eauto].
  match goal with V : wf_var _ |- _ => destruct V as [(? & ? & _)|(? & ? & _)]; discriminate end.
Qed.
