(** * C85: where a tab may stand *)
From Verif Require Import Base Nom Regex Ast Spec Helpers Types Expr Stmt Grammar SoundS Fail Errors Nest Params Clean Properties41 Tabs.

(** [opens a], [closes a], [after_operator a] as in C84, here in Tabs.v.  [among_parameters a]: since
    some backslash in [a] all brackets are closed again and every arrow is inside brackets, so [a] ends
    among the parameters of a lambda.  In the text of a declaration, a tab stands only inside
    parentheses or braces, right after an operator, or among the parameters of a lambda. *)
Theorem C85_statement : forall s r st w, statement s = Ok r st -> s = w ++ r -> no_comment_or_quote w ->
  forall a b, w = a ++ tab :: b -> closes a < opens a \/ after_operator a \/ among_parameters a.
Proof.
  intros s r st w H E Hno a b Ew. apply sound_statement in H as (w' & E' & H). rewrite E in E'. apply app_inv_tail in E'. subst w'.
  destruct (scan_fine 0 w 0 (scan_GStmt _ _ _ H) Hno) as [_ K]. exact (K a b Ew).
Qed.
Print Assumptions C85_statement.

(** In all of a file: [divided] (Properties41.v) divides it into the texts of its statements and blanks. *)
Theorem C85_file : forall s sts, file s = Ok [] sts -> no_comment_or_quote s ->
  exists ws, divided s ws /\ map snd ws = sts /\
    Forall (fun p => forall a b, fst p = a ++ tab :: b -> closes a < opens a \/ after_operator a \/ among_parameters a) ws.
Proof.
  intros s sts H Hno. apply file_reads in H as (b0 & s1 & r & -> & Hb & Hs & H & Hr).
  destruct (reads_divided s1 sts r H Hs Hr b0 Hb) as (ws & Hd & Hl). exists ws. split; [exact Hd|]. split; [exact Hl|].
  clear Hl H Hr Hs Hb. revert Hno Hd. generalize (b0 ++ s1). clear. intros s Hno Hd.
  induction Hd as [b Hb|b w s st l Hb Hn H Hd IH]; constructor.
  - cbn [fst]. apply no_cq_suffix, no_cq_prefix in Hno. exact (C85_statement _ _ _ w H eq_refl Hno).
  - apply IH. apply no_cq_suffix, no_cq_suffix in Hno. exact Hno.
Qed.
Print Assumptions C85_file.

(** A declaration without expressions (a module line, an import, a type, an alias, the type of a port, an
    infix declaration) has no tabs and no carriage returns at all. *)
Theorem C85_declaration : forall s r st w, statement s = Ok r st -> s = w ++ r -> no_comment_or_quote w ->
  (forall f, st <> Function_ f) -> (forall n args e, st <> PortDeclaration n args e) ->
  ~ In tab w /\ ~ In 13%N w.
Proof.
  intros s r st w H E Hno H1 H2. apply sound_statement in H as (w' & E' & H). rewrite E in E'. apply app_inv_tail in E'. subst w'.
  assert (Hs : has_expression st = false) by (destruct st; try reflexivity; exfalso; [eapply H2|eapply H1]; reflexivity).
  pose proof (clean_GStmt st w H Hs Hno) as K. rewrite forallb_forall in K. split; intros Hi; apply K in Hi; discriminate Hi.
Qed.
Print Assumptions C85_declaration.

(** *** Instances *)
Definition ht : str := [tab].
Example C85_instance :
  let s := L "f = (" ++ ht ++ L "1," ++ ht ++ L "2) +" ++ ht ++ L "\x" ++ ht ++ L "[a]" ++ ht ++ L "y -> {" ++ ht ++ L "a" ++ ht ++ L "}" in
  (exists st, statement s = Ok [] st) /\ no_comment_or_quote s /\ length (filter (fun c => (c =? tab)%N) s) = 7.
Proof. split; [eexists; vm_compute; reflexivity|]. split; [apply quiet_check; reflexivity|reflexivity]. Qed.
Example C85_file_instance : let s := L "import A" ++ ht ++ [newline] ++ L "f = a ++" ++ ht ++ L "b" ++ [newline] ++ ht ++ [newline] ++ L "g = 1" ++ ht in
  (exists sts, file s = Ok [] sts /\ length sts = 3) /\ no_comment_or_quote s.
Proof. split; [eexists; split; [vm_compute; reflexivity|reflexivity]|apply quiet_check; reflexivity]. Qed.
Example C85_declaration_instance : let s := L "type T a = A (List a) | B" in
  exists n cs, statement s = Ok [] (TypeDeclaration n cs) /\ no_comment_or_quote s.
Proof. do 2 eexists. split; [vm_compute; reflexivity|apply quiet_check; reflexivity]. Qed.
(** Each of these is accepted with a space in place of the tab. *)
Example C85_refused : Forall (fun p =>
    (forall sts, file (fst p ++ ht ++ snd p) <> Ok [] sts) /\ exists sts, file (fst p ++ L " " ++ snd p) = Ok [] sts)
  [ (L "f =", L "1"); (L "f = g", L "1"); (L "f = [ 1,", L "2 ]"); (L "f = a", L "+ b"); (L "f = case", L "x of _ -> 1"); (L "f = \x", L "-> x"); (L "f = \x -> g", L "x");
    (L "import", L "A"); (L "type T =", L "A"); (L "f x", L "y = 1") ].
Proof.
  repeat (apply Forall_cons; [split; [intros sts; vm_compute; discriminate|eexists; vm_compute; reflexivity]|]). apply Forall_nil.
Qed.
(** [among_parameters] tells the parameters from the body. *)
Example C85_body : ~ among_parameters (L "f = \x -> g") /\ among_parameters (L "f = \[y]") /\ ~ among_parameters (L "f = \").
Proof.
  assert (N : forall a' h s, s = a' ++ 92%N :: h -> forall p q, s = p ++ 92%N :: q -> ~ In 92%N p -> ~ In 92%N q -> a' = p /\ h = q).
  { intros a' h s -> p. revert a'. induction p as [|c p IH]; intros a' q E Hp Hq.
    - destruct a' as [|z a']; injection E as E; [auto|]. subst q. exfalso. apply Hq, in_or_app. right. left. reflexivity.
    - destruct a' as [|z a']; injection E as E1 E; [exfalso; apply Hp; left; congruence|]. subst z.
      destruct (IH a' q E) as [-> ->]; auto. intros K. apply Hp. right. exact K. }
  split; [|split].
  - intros (a' & h & E & _ & _ & H). destruct (N a' h _ E (L "f = ") (L "x -> g")) as [_ ->]; [reflexivity|cbn; intuition discriminate|cbn; intuition discriminate|].
    specialize (H (L "x ") (L " g") eq_refl). cbn in H. lia.
  - exists (L "f = "), (L "[y]"). split; [reflexivity|]. split; [discriminate|]. split; [reflexivity|]. apply arrows_none. cbn. intuition discriminate.
  - intros (a' & h & E & Hn & _). destruct (N a' h _ E (L "f = ") []) as [_ ->]; [reflexivity|cbn; intuition discriminate|cbn; intuition discriminate|]. congruence.
Qed.
