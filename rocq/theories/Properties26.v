(** * C67: operators are interchangeable *)
From Verif Require Import Base Nom Regex Ast Spec Helpers Types Expr Stmt Good Total TwoRuns Whole CommentSpec LiteralSpec Literals LiteralsAll LiteralCheck Properties24.

(** ** C67: an operator is an operator

    [relit (operators R) after_other s s'] (LiteralSpec.v): [s'] is [s] with other
    operators, each of which [R] allows; everything else is the same.
    [same_stmt (operators R)]: the same statement with other operators.  Then one text
    is a file if and only if the other one is, and the trees differ in the operators
    only.  So no operator is special: there is no precedence, no [infix] declaration
    changes how an expression is read, and whether an operator is defined, exported or
    imported does not matter. *)
Definition operators (R : str -> str -> Prop) : kinds := mkKinds eq eq eq eq R (fun _ _ => False) (fun _ _ => False) (fun _ _ => False).
Theorem C67_operators : forall R s s' l, relit (operators R) after_other s s' -> file s = Ok [] l ->
  exists l', file s' = Ok [] l' /\ Forall2 (same_stmt (operators R)) l l'.
Proof. intros R s s' l. apply C65_literals; [reflexivity|exact (fun _ _ F => F)|exact (fun _ _ F => F)|exact (fun _ _ F => F)]. Qed.
Print Assumptions C67_operators.
Theorem C67_rejected : forall R s s', relit (operators R) after_other s s' -> (file s = Err <-> file s' = Err).
Proof. intros R s s'. apply C65_rejected; [reflexivity|exact (fun _ _ F => F)|exact (fun _ _ F => F)|exact (fun _ _ F => F)]. Qed.
Print Assumptions C67_rejected.

(** *** The tree with [+] for every operator *)
Definition hide (n : str) : str :=
  match n with c :: _ => if is_op_char c then L "+" else n | [] => n end.
Definition hide_signature (g : function_signature_ast) : function_signature_ast := match g with mkSig n t => mkSig (hide n) t end.
Fixpoint hide_export (e : export_set) : export_set :=
  match e with
  | SubsetExport l => SubsetExport (map hide_export l)
  | FunctionExport n => FunctionExport (hide n)
  | e => e
  end.
Fixpoint hidden (e : expr) : expr :=
  match e with
  | Variable_ q => Variable_ (map hide q)
  | List_ l => List_ (map hidden l)
  | Tuple l => Tuple (map hidden l)
  | Access e f => Access (hidden e) f
  | Record_ l => Record_ (map (fun '(n, e) => (n, hidden e)) l)
  | RecordUpdate n l => RecordUpdate n (map (fun '(n, e) => (n, hidden e)) l)
  | If_ a b c => If_ (hidden a) (hidden b) (hidden c)
  | Let_ l e => Let_ (map hidden_entry l) (hidden e)
  | Case_ e l => Case_ (hidden e) (map (fun '(p, e) => (hidden p, hidden e)) l)
  | Lambda l e => Lambda (map hidden l) (hidden e)
  | Application f x => Application (hidden f) (hidden x)
  | BinOp o a b => BinOp (hidden o) (hidden a) (hidden b)
  | e => e
  end
with hidden_entry (x : let_entry) : let_entry :=
  match x with LetFunction f => LetFunction (hidden_func f) | LetBinding t e => LetBinding (hidden t) (hidden e) end
with hidden_func (f : func) : func :=
  match f with mkFunc g (mkDef n l e) => mkFunc (option_map hide_signature g) (mkDef (hide n) (map hidden l) (hidden e)) end.
Definition hidden_statement (st : statement_ast) : statement_ast :=
  match st with
  | Function_ f => Function_ (hidden_func f)
  | PortDeclaration n a e => PortDeclaration n a (hidden e)
  | ModuleDeclaration n e => ModuleDeclaration n (hide_export e)
  | PortModuleDeclaration n e => PortModuleDeclaration n (hide_export e)
  | EffectModuleDeclaration n w e => EffectModuleDeclaration n w (hide_export e)
  | ImportStatement n a e => ImportStatement n a (option_map hide_export e)
  | InfixDeclaration a p n => InfixDeclaration a p (hide n)
  | st => st
  end.
(** [any_operator]: every operator may stand for every operator *)
Definition any_operator : kinds := operators (fun o o' => operator_name o /\ operator_name o').
Lemma hide_operator o : operator_name o -> hide o = L "+".
Proof.
  intros (Hne & Ho & _). destruct o as [|c o]; [congruence|]. apply andb_true_iff in Ho as [Ho _]. unfold hide. rewrite Ho. reflexivity.
Qed.
Lemma hide_two o o' : on_operator any_operator o o' -> hide o = hide o'.
Proof. intros [H H']. rewrite !hide_operator by assumption. reflexivity. Qed.
Lemma hide_same n n' : same_name any_operator n n' -> hide n = hide n'.
Proof. intros [->|H]; [reflexivity|apply hide_two, H]. Qed.
Fixpoint same_hide_export e e' (H : same_export any_operator e e') {struct H} : hide_export e = hide_export e'.
Proof.
  destruct H; try reflexivity; cbn [hide_export]; f_equal; [exact (maps _ hide_export same_hide_export _ _ H)|apply hide_same; assumption].
Qed.
Fixpoint same_hidden e e' (H : same_expr any_operator e e') {struct H} : hidden e = hidden e'
with entry_hidden x x' (H : same_entry any_operator x x') {struct H} : hidden_entry x = hidden_entry x'
with func_hidden f f' (H : same_func any_operator f f') {struct H} : hidden_func f = hidden_func f'.
Proof.
  - destruct H; try reflexivity; cbn [hidden].
    + destruct H. reflexivity.
    + destruct H. reflexivity.
    + destruct H0. reflexivity.
    + destruct H0, H1. reflexivity.
    + cbn [map]. f_equal. f_equal. apply hide_two, H.
    + destruct H.
    + destruct H.
    + destruct H.
    + f_equal. exact (maps _ hidden same_hidden _ _ H).
    + f_equal. exact (maps _ hidden same_hidden _ _ H).
    + f_equal. exact (same_hidden _ _ H).
    + f_equal. refine (maps _ _ _ _ _ H). intros [n e] [n' e'] [H1 H2]. cbn in *. subst n'. f_equal. exact (same_hidden _ _ H2).
    + f_equal. refine (maps _ _ _ _ _ H). intros [m e] [m' e'] [H1 H2]. cbn in *. subst m'. f_equal. exact (same_hidden _ _ H2).
    + f_equal; [exact (same_hidden _ _ H)|exact (same_hidden _ _ H0)|exact (same_hidden _ _ H1)].
    + f_equal; [exact (maps _ hidden_entry entry_hidden _ _ H)|exact (same_hidden _ _ H0)].
    + f_equal; [exact (same_hidden _ _ H)|]. refine (maps _ _ _ _ _ H0). intros [p x] [p' x'] [H1 H2]. cbn in *. f_equal; [exact (same_hidden _ _ H1)|exact (same_hidden _ _ H2)].
    + f_equal; [exact (maps _ hidden same_hidden _ _ H)|exact (same_hidden _ _ H0)].
    + f_equal; [exact (same_hidden _ _ H)|exact (same_hidden _ _ H0)].
    + f_equal; [exact (same_hidden _ _ H)|exact (same_hidden _ _ H0)|exact (same_hidden _ _ H1)].
  - destruct H; cbn [hidden_entry]; f_equal; [exact (func_hidden _ _ H)|exact (same_hidden _ _ H)|exact (same_hidden _ _ H0)].
  - destruct H as [g g' n n' l l' e e' Hg Hn Hl He]; cbn [hidden_func]. f_equal.
    + destruct g as [g|], g' as [g'|]; try destruct Hg as []; [|reflexivity]. cbn. f_equal. f_equal. apply hide_same. assumption.
    + f_equal; [apply hide_same, Hn|exact (maps _ hidden same_hidden _ _ Hl)|exact (same_hidden _ _ He)].
Qed.
Theorem C67_shape : forall s s' l, relit (operators (fun _ _ => True)) after_other s s' -> file s = Ok [] l ->
  exists l', file s' = Ok [] l' /\ map hidden_statement l' = map hidden_statement l.
Proof.
  intros s s' l Hs H.
  assert (Hs' : relit any_operator after_other s s').
  { clear H. induction Hs as [b|b c c' s s'|b c c' s s'|b t t' c c' s s'|b t t' c c' s s'|b d d' s s'|b o o' s s' H1 H2|b t t' e e' s s' Hl|b t t' e e' s s' Hl|b t t' e e' s s' Hl|b c s s'].
    - apply rl_nil.
    - apply rl_line; auto.
    - apply rl_block; auto.
    - eapply rl_string; eauto.
    - eapply rl_literal; eauto.
    - apply rl_digits; auto.
    - apply rl_operator; auto. split; [apply H1|apply H2].
    - destruct Hl.
    - destruct Hl.
    - destruct Hl.
    - apply rl_other; auto. }
  destruct (C67_operators _ s s' l Hs' H) as (l' & H' & Hl). exists l'. split; [exact H'|]. clear - Hl.
  symmetry. refine (maps _ _ _ _ _ Hl). intros a b Hab.
  destruct Hab as [f f' Hf|n x e e' He|c c' Hc|n e e' He|n e e' He|n w e e' He|n x e e' He|x p n n' Hn|n t|n t|n t]; cbn; try reflexivity; f_equal.
  - apply func_hidden, Hf.
  - apply same_hidden, He.
  - exact Hc.
  - apply same_hide_export, He.
  - apply same_hide_export, He.
  - apply same_hide_export, He.
  - destruct e as [e|], e' as [e'|]; [|destruct He|destruct He|reflexivity]. cbn. f_equal. apply same_hide_export, He.
  - apply hide_same, Hn.
Qed.
Print Assumptions C67_shape.

(** *** Instances *)
Definition sums (o1 o2 o3 o4 : str) : str :=
  L "module Sums exposing (f, (" ++ o1 ++ L "))" ++ nl ++
  L "import Ops exposing ((" ++ o2 ++ L "))" ++ nl ++
  L "infixl 5 " ++ o1 ++ nl ++
  L "(" ++ o1 ++ L ") : Int -> Int" ++ nl ++
  L "(" ++ o1 ++ L ") a = a " ++ o2 ++ L " 1 " ++ o3 ++ L " -2" ++ nl ++
  L "f x =" ++ nl ++
  L "  let" ++ nl ++
  L "    g = (" ++ o4 ++ L ")" ++ nl ++
  L "    { b } = { x | y = x.y " ++ o3 ++ L " x" ++ nl ++
  L "                           " ++ o1 ++ L " 3.5 }" ++ nl ++
  L "  in case x of" ++ nl ++
  L "    -1 -> a " ++ o1 ++ L " b " ++ o2 ++ L " c " ++ o3 ++ L " d" ++ nl ++
  L "    _ -> \y -> [ y " ++ o4 ++ L " y, .z " ++ o1 ++ L " z ]".
Definition sums1 : str := sums (L "+") (L "*") (L "-") (L "==").
Definition sums2 : str := sums (L ">>=") (L "|:") (L "<|") (L "...").
Definition only_operators : tests := mkTests str_eqb N.eqb str_eqb str_eqb yes [] [] [].
Lemma relit_operators b s s' : relit (kinds_of only_operators) b s s' -> relit (operators (fun _ _ => True)) b s s'.
Proof.
  induction 1 as [b|b c c' s s'|b c c' s s'|b t t' c c' s s'|b t t' c c' s s'|b d d' s s'|b o o' s s'|b t t' e e' s s' Hl|b t t' e e' s s' Hl|b t t' e e' s s' Hl|b c s s'].
  - apply rl_nil.
  - apply rl_line; auto. apply str_eqb_eq. assumption.
  - apply rl_block; auto. apply str_eqb_eq. assumption.
  - eapply rl_string; eauto. apply str_eqb_eq. assumption.
  - eapply rl_literal; eauto. apply N.eqb_eq. assumption.
  - apply rl_digits; auto. apply str_eqb_eq. assumption.
  - apply rl_operator; auto. exact I.
  - destruct Hl.
  - destruct Hl.
  - destruct Hl.
  - apply rl_other; auto.
Qed.
Example C67_instance : relit (operators (fun _ _ => True)) after_other sums1 sums2 /\
  (exists l, file sums1 = Ok [] l /\ length l = 5) /\ file sums1 <> file sums2.
Proof.
  split; [apply relit_operators, (rl_check_relit _ 600); vm_compute; reflexivity|].
  split; [eexists; split; [vm_compute; reflexivity|reflexivity]|vm_compute; discriminate].
Qed.
(** no operator binds closer than another one *)
Example C67_precedence :
  relit (operators (fun _ _ => True)) after_other (L "x = a * b + c") (L "x = a + b * c") /\
  file (L "x = a * b + c") = Ok [] [Function_ (mkFunc None (mkDef (L "x") []
    (BinOp (Variable_ [L "*"]) (Variable_ [L "a"]) (BinOp (Variable_ [L "+"]) (Variable_ [L "b"]) (Variable_ [L "c"])))))].
Proof. split; [apply relit_operators, (rl_check_relit _ 600); vm_compute; reflexivity|vm_compute; reflexivity]. Qed.
Example C67_rejected_instance :
  relit (operators (fun _ _ => True)) after_other (L "x = [ a * b") (L "x = [ a == b") /\ file (L "x = [ a * b") = Err.
Proof. split; [apply relit_operators, (rl_check_relit _ 600); vm_compute; reflexivity|vm_compute; reflexivity]. Qed.

(** The conditions are needed: the reserved symbols, the sign of a number, [\] and the
    symbols after the [=] of a field are no operators, and a comment may begin in one. *)
Example C67_reserved_needed : file (L "x = case a of b -> c") <> Err /\ file (L "x = case a of b + c") = Err.
Proof. split; vm_compute; [discriminate|reflexivity]. Qed.
Example C67_sign_needed : file (L "x = f -1") <> Err /\ file (L "x = f *1") = Err.
Proof. split; vm_compute; [discriminate|reflexivity]. Qed.
Example C67_backslash_needed : file (L "x = \y -> z") <> Err /\ file (L "x = +y -> z") = Err.
Proof. split; vm_compute; [discriminate|reflexivity]. Qed.
Example C67_field_needed : file (L "x = {a=-1}") <> Err /\ file (L "x = {a=*1}") = Err.
Proof. split; vm_compute; [discriminate|reflexivity]. Qed.
Example C67_comment_needed : file (L "x = \y ->--" ++ nl ++ L " z") <> Err /\ file (L "x = \y ->+-" ++ nl ++ L " z") = Err.
Proof. split; vm_compute; [discriminate|reflexivity]. Qed.
