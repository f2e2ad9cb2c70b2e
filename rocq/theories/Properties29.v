(** * C71: an expression is the same alone and in brackets *)
From Verif Require Import Base Nom Regex Ast Good Spec Helpers Types Expr Stmt Total Follow Render Keywords Language Brackets Errors CutFile Heads TwoRuns Whole Steps Indep Inside InsideAll InsideCheck Alone AloneAll Decls Properties13 Properties27.

(** [complete u]: strings, character literals and comments in [u] are complete, each
    bracket in [u] has its partner, and no comment follows a symbol or a [(] directly:
    [(u)] is one phrase in brackets, see [bracketed] in Properties27.v. *)
Definition complete (u : str) : Prop := bracketed (L "(" ++ u ++ L ")").
(** [before z x y]: both runs fail, or they give the same result, where [y] leaves
    [z] behind what [x] leaves. *)
Definition before {A} (z : str) (x y : res A) : Prop :=
  (exists w a, x = Ok w a /\ y = Ok (w ++ z) a) \/ (x = Err /\ y = Err).

Lemma complete_closes u : complete u -> closes 1 (u ++ [C ")"]) /\ ~ dashes (u ++ [C ")"]).
Proof. intros (c & w & E & _ & Hd & Hw). injection E as <- <-. auto. Qed.
Lemma annotation_no_abort i s m : type_annotation i s <> Abort m.
Proof. apply (no_abort 1). intros n. apply ok_type_annotation. Qed.
Lemma before_step {A} (p : parser A) u k v : is_close k = true -> complete u ->
  (forall s m, p s <> Abort m) -> step (apart on 0 [] (k :: v)) (apart on 0 [] (k :: v)) p p -> before (k :: v) (p u) (p (u ++ k :: v)).
Proof.
  intros Hk Hu Ha Hp. specialize (Hp u (u ++ k :: v)).
  assert (H : apart on 0 [] (k :: v) u (u ++ k :: v)) by (exists u, (C ")"); rewrite app_nil_r; repeat split; auto; apply complete_closes, Hu).
  apply Hp in H. destruct (p u) as [r a| |m] eqn:E1, (p (u ++ k :: v)) as [r' a'| |m'] eqn:E2; cbn in H; try tauto;
    try (destruct (Ha _ _ E1)); try (destruct (Ha _ _ E2)).
  - destruct H as (-> & (w & _ & _ & _ & _ & -> & ->) & _). left. exists w, a'. rewrite app_nil_r. auto.
  - right. auto.
Qed.

(** Before a closing bracket, with any text behind it, an expression or a type is
    read exactly as at the end of the text. *)
Theorem C71_expression : forall i u k v, is_close k = true -> complete u ->
  before (k :: v) (expression i u) (expression i (u ++ k :: v)).
Proof.
  intros i u k v Hk Hu. apply before_step; auto; [intros; apply expression_no_abort|]. apply in_expression; [exact I|exact Hk].
Qed.
Print Assumptions C71_expression.
Theorem C71_type : forall i u k v, is_close k = true -> complete u ->
  before (k :: v) (type_annotation i u) (type_annotation i (u ++ k :: v)).
Proof.
  intros i u k v Hk Hu. apply before_step; auto; [intros; apply annotation_no_abort|]. apply in_annotation; [exact I|exact Hk].
Qed.
Print Assumptions C71_type.
Theorem C71_whole : forall i u k v e, is_close k = true -> complete u ->
  (expression i u = Ok [] e <-> expression i (u ++ k :: v) = Ok (k :: v) e) /\
  (expression i u = Err <-> expression i (u ++ k :: v) = Err).
Proof.
  intros i u k v e Hk Hu. destruct (C71_expression i u k v Hk Hu) as [(w & a & H1 & H2)|[H1 H2]]; rewrite H1, H2; split; split; try congruence.
  1: intros H; injection H as -> ->; reflexivity.
  intros H. injection H as H ->. apply (f_equal (@length N)) in H. rewrite app_length in H. destruct w; [reflexivity|cbn in H; lia].
Qed.
Print Assumptions C71_whole.

(** Any expression can be put in parentheses: the parentheses leave no trace. *)
Theorem C71_parentheses : forall i u v e, complete u -> expression i u = Ok [] e ->
  term i (L "(" ++ u ++ L ")" ++ v) = Ok v e.
Proof.
  intros i u v e Hu H. apply paren_iff. right. left. apply (C71_whole i u (C ")") v e eq_refl Hu). exact H.
Qed.
Print Assumptions C71_parentheses.
(** and in square brackets, as the only element of a list *)
Theorem C71_list : forall i u v e, complete u -> expression i u = Ok [] e ->
  term i (L "[" ++ u ++ L "]" ++ v) = Ok v (List_ [e]).
Proof.
  intros i u v e Hu H. apply list_iff. right. exists [], (u ++ L "]" ++ v), e, (L "]" ++ v), [], [].
  split; [reflexivity|]. split; [left; reflexivity|]. split; [apply (C71_whole i u (C "]") v e eq_refl Hu), H|].
  split; [apply items_nil|]. split; [left; reflexivity|reflexivity].
Qed.
Print Assumptions C71_list.
(** What stands in parentheses is an operator, a tuple, or an expression that can be
    taken out of them. *)
Theorem C71_inside : forall i u v e, complete u -> term i (L "(" ++ u ++ L ")" ++ v) = Ok v e ->
  operator_or_commas u \/ (exists l, e = Tuple l) \/ expression i u = Ok [] e.
Proof.
  intros i u v e Hu H. apply paren_iff in H as [(o & s1 & fs & E & Ho & _)|[H|[[_ H]|(x & s1 & xs & _ & _ & _ & H)]]]; [left|right; right|right; left; eauto..].
  - assert (Hno : ~ In (C ")") o).
    { intros Hi. destruct Ho as [(_ & Ho & _)|[_ Ho]]; rewrite forallb_forall in Ho; specialize (Ho _ Hi); discriminate Ho. }
    symmetry in E. destruct (before_last o (L ")" ++ s1) u v (C ")") E Hno) as (u2 & -> & E2).
    destruct u2 as [|c u2]; [rewrite app_nil_r; exact Ho|]. injection E2 as <- _. exfalso.
    destruct (complete_closes _ Hu) as [Hw Hd]. rewrite <- app_assoc in Hw, Hd.
    assert (Hc : closes 1 ((C ")" :: u2) ++ [C ")"])).
    { destruct Ho as [(_ & Ho & _)|[_ Ho]]; [exact (proj1 (shut_ops 1 o _ Ho Hd Hw))|]. revert Hw. apply shut_plains.
      intros c Hi. rewrite forallb_forall in Ho. apply Ho, N.eqb_eq in Hi. subst c. right. reflexivity. }
    cbn [app] in Hc. apply shut_close in Hc as (d & Ed & Hc); [|reflexivity]. injection Ed as <-. inversion Hc; destruct u2; discriminate.
  - apply (C71_whole i u (C ")") v e eq_refl Hu). exact H.
Qed.
Print Assumptions C71_inside.

Lemma term_alone i c s e : term i (c :: s) = Ok [] e -> expression i (c :: s) = Ok [] e.
Proof.
  intros H. rewrite expression_eq. unfold term in H. unfold expression_f, binary_f, application_or_var_f, operator_exp_f, alt, bind, map_res, separated_list.
  rewrite H. cbn -[spaces_or_new_lines_and_indent].
  assert (K : forall ir, spaces_or_new_lines_and_indent i ir [] = Err) by (intros ir; destruct ir; reflexivity).
  rewrite !K. cbn -[spaces_or_new_lines_and_indent]. unfold opt. rewrite K. reflexivity.
Qed.
(** So the body of a definition can be put in parentheses. *)
Theorem C71_definition : forall n u e, lower_name n -> complete u -> expression 0 u = Ok [] e ->
  file (n ++ L " = " ++ u) = Ok [] [Function_ (mkFunc None (mkDef n [] e))] /\
  file (n ++ L " = (" ++ u ++ L ")") = Ok [] [Function_ (mkFunc None (mkDef n [] e))].
Proof.
  intros n u e Hn Hu He.
  assert (K : forall b, expression 0 b = Ok [] e -> file (n ++ L " = " ++ b) = Ok [] [Function_ (mkFunc None (mkDef n [] e))]).
  { intros b H. apply file_one.
    - destruct (lower_not_newline _ Hn) as (_ & Hne & Hc). destruct n as [|c n]; [congruence|]. cbn in Hc. change (is_blank c = false). apply andb_true_iff in Hc as [Hc _].
      destruct (is_blank c) eqn:E; [|reflexivity]. apply class_name in Hc. apply class_blank in E. congruence.
    - apply statement_function_iff, function_iff. left. eexists. split; [|reflexivity]. apply definition_iff.
      exists n, (L " = " ++ b), [], (L " "), (L " "), 0%N, b, e.
      split; [apply RName_lower; [exact Hn|right; reflexivity]|]. split; [apply items_nil|]. split; [split; [discriminate|reflexivity]|].
      split; [|split; [exact H|reflexivity]]. split; [apply trivia_space, trivia_nil|]. repeat split; discriminate. }
  split; [apply K, He|]. apply (K (L "(" ++ u ++ L ")")). apply term_alone.
  pose proof (C71_parentheses 0 u [] e Hu He) as H. rewrite app_nil_r in H. exact H.
Qed.
Print Assumptions C71_definition.

(** *** Concrete instances *)
(** a [case] over three lines with a comment, a string and a lambda *)
Definition body : str :=
  L "case f x of -- )" ++ [newline] ++ L "    [] -> a.b + g " ++ [quote] ++ L ")]" ++ [quote] ++ [newline] ++ L "    _ -> \y -> (y, 1)".
Lemma complete_check u : closes_check (S (length (u ++ L ")"))) 1 (u ++ L ")") = true -> WholeCheck.dashes_check (u ++ L ")") = false -> complete u.
Proof.
  intros H1 H2. exists (C "("), (u ++ L ")"). split; [reflexivity|]. split; [reflexivity|]. split; [|eapply closes_check_closes, H1].
  intros _ K. apply WholeCheck.dashes_dashes_check in K. congruence.
Qed.
Theorem C71_instance : complete body /\ exists e, expression 0 body = Ok [] e /\
  (forall v, term 0 (L "(" ++ body ++ L ")" ++ v) = Ok v e) /\ (forall v, term 0 (L "[" ++ body ++ L "]" ++ v) = Ok v (List_ [e])) /\
  file (L "main = " ++ body) = Ok [] [Function_ (mkFunc None (mkDef (L "main") [] e))] /\
  file (L "main = (" ++ body ++ L ")") = Ok [] [Function_ (mkFunc None (mkDef (L "main") [] e))].
Proof.
  assert (H : complete body) by (apply complete_check; vm_compute; reflexivity). split; [exact H|].
  destruct (expression 0 body) as [r e| |] eqn:E; [|vm_compute in E; discriminate E..].
  assert (r = []) as -> by (vm_compute in E; injection E as <- _; reflexivity).
  exists e. split; [reflexivity|]. split; [intros v; apply C71_parentheses; assumption|]. split; [intros v; apply C71_list; assumption|].
  apply (C71_definition (L "main") body e); [|exact H|exact E]. right. split.
  - exists (C "m"), (L "ain"). repeat split.
  - cbn. intros K. repeat destruct K as [K|K]; try discriminate K; try destruct K.
Qed.
Theorem C71_type_instance : complete (L "List { a : Int } -> (b -> ())") /\ exists t,
  type_annotation 0 (L "List { a : Int } -> (b -> ())") = Ok [] t /\
  forall v, type_annotation 0 (L "List { a : Int } -> (b -> ())" ++ C ")" :: v) = Ok (C ")" :: v) t.
Proof.
  assert (H : complete (L "List { a : Int } -> (b -> ())")) by (apply complete_check; vm_compute; reflexivity). split; [exact H|].
  eexists. split; [vm_compute; reflexivity|]. intros v. destruct (C71_type 0 _ (C ")") v eq_refl H) as [(w & a & H1 & H2)|[H1 _]].
  - vm_compute in H1. injection H1 as <- <-. exact H2.
  - vm_compute in H1. discriminate H1.
Qed.
(** a tuple that is not an expression without its parentheses *)
Theorem C71_inside_instance : complete (L "a, b") /\ (exists l, term 0 (L "(a, b)") = Ok [] (Tuple l)) /\
  expression 0 (L "a, b") = Ok (L ", b") (Variable_ [L "a"]).
Proof. split; [apply complete_check; vm_compute; reflexivity|]. split; [eexists|]; vm_compute; reflexivity. Qed.

(** *** The condition is needed *)
(** With an incomplete string, what follows decides. *)
Theorem C71_complete_needed :
  expression 0 (L "f " ++ [quote]) = Ok (L " " ++ [quote]) (Variable_ [L "f"]) /\
  expression 0 ((L "f " ++ [quote]) ++ C ")" :: [quote]) = Ok [] (Application (Variable_ [L "f"]) (String_ (L ")"))).
Proof. vm_compute. auto. Qed.
(** Before anything else than a closing bracket an expression may go on. *)
Theorem C71_bracket_needed : complete (L "f x") /\ expression 0 (L "f x") = Ok [] (Application (Variable_ [L "f"]) (Variable_ [L "x"])) /\
  expression 0 (L "f x" ++ L "y") = Ok [] (Application (Variable_ [L "f"]) (Variable_ [L "xy"])).
Proof. split; [apply complete_check; vm_compute; reflexivity|]. vm_compute. auto. Qed.
