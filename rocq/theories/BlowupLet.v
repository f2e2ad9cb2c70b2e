(** * The number of recursive calls on unfinished nested [let]s *)
From Verif Require Import Base Nom Regex Ast Helpers Types Expr Stmt Spec Lexers Trace TraceProps Blowup.

(** [let a = let a = let a = ...], with nothing after the last equals sign *)
Fixpoint lets (n : nat) : str :=
  match n with O => [] | S n' => L "let a = " ++ lets n' end.
Fixpoint lets_trace (n : nat) : list event :=
  match n with
  | O => [CalledExpression; CallEnds]
  | S n' => CalledExpression :: (lets_trace n' ++ lets_trace n') ++ [CallEnds]
  end.

Lemma lets_length n : length (lets n) = 8 * n.
Proof. induction n as [|n IH]; [reflexivity|]. cbn [lets]. rewrite app_length, IH. cbn [length]. lia. Qed.
Lemma lets_calls n : expression_calls (lets_trace n) + 1 = 2 ^ S n.
Proof.
  induction n as [|n IH]; [reflexivity|]. cbn [lets_trace].
  change (CalledExpression :: (lets_trace n ++ lets_trace n) ++ [CallEnds]) with
    ([CalledExpression] ++ (lets_trace n ++ lets_trace n) ++ [CallEnds]).
  rewrite !calls_app. change (expression_calls [CalledExpression]) with 1. change (expression_calls [CallEnds]) with 0.
  cbn [Nat.pow] in IH |- *. lia.
Qed.

Lemma lo_name_let s : lo_name (L "let " ++ s) = Err.
Proof. rewrite lo_name_eq. reflexivity. Qed.
Lemma variable_let s : variable (L "let " ++ s) = Err.
Proof.
  unfold variable, alt, lower_case, upper_with_dots, op, map_, separated_nonempty_list.
  rewrite lo_name_let. cbn [app]. rewrite up_name_eq. reflexivity.
Qed.
Lemma term_let E i s : term_f_t E i (L "let " ++ s) = (Err, []).
Proof.
  unfold term_f_t.
  rewrite alt_err by (unfold access, bind; rewrite variable_let; reflexivity).
  rewrite alt_err by apply variable_let. reflexivity.
Qed.
Lemma term_nil E i : term_f_t E i [] = (Err, []).
Proof. reflexivity. Qed.
Lemma term_equals E i r : term_f_t E i (C "=" :: r) = (Err, []).
Proof.
  unfold term_f_t.
  assert (Hv : variable (C "=" :: r) = Err).
  { unfold variable, alt, lower_case, upper_with_dots, op, map_, separated_nonempty_list.
    rewrite lo_name_eq, up_name_eq. reflexivity. }
  rewrite alt_err by (unfold access, bind; rewrite Hv; reflexivity).
  rewrite alt_err by exact Hv. reflexivity.
Qed.
Lemma binary_no E i s : term_f_t E i s = (Err, []) -> binary_f_t E i s = (Err, []).
Proof.
  intros H. unfold binary_f_t, bind_t, application_or_var_f_t, map_res_t, separated_list_t. rewrite H. reflexivity.
Qed.
Lemma sp_blank i ir n : spaces_or_new_lines_and_indent i ir (L " " ++ lets n) = Ok (lets n) i.
Proof. destruct ir, n; reflexivity. Qed.
Lemma sp_equals i ir r : spaces_or_new_lines_and_indent i ir (L " = " ++ r) = Ok (L "= " ++ r) i.
Proof. destruct ir; reflexivity. Qed.
Lemma sp_a i ir r : spaces_or_new_lines_and_indent i ir (L " a = " ++ r) = Ok (L "a = " ++ r) i.
Proof. destruct ir; reflexivity. Qed.

(** An entry of the [let]: the body is read twice. *)
Lemma definition_lets E i n t x : (x = C "a" \/ x = C "x") -> E i (lets n) = (Err, t) ->
  function_definition_f_t E i (x :: L " = " ++ lets n) = (Err, t).
Proof.
  intros Hx HE. unfold function_definition_f_t. unfold bind_t at 1, quiet at 1.
  assert (Hn : binding_name (x :: L " = " ++ lets n) = Ok (L " = " ++ lets n) [x]).
  { destruct Hx; subst x; unfold binding_name, alt; rewrite lo_name_eq; reflexivity. }
  rewrite Hn.
  assert (Hsp : spaces (L " = " ++ lets n) = Ok (L "= " ++ lets n) (L " ")) by reflexivity.
  assert (Hm : many0_t (preceded_t spaces (term_f_t E i)) (L " = " ++ lets n) = (Ok (L " = " ++ lets n) [], [])).
  { unfold many0_t. change (length (L " = " ++ lets n)) with (S (length (L "= " ++ lets n))). cbn [many0_loop_t].
    unfold preceded_t, bind_t, quiet at 1. rewrite Hsp. cbn [app]. rewrite term_equals. reflexivity. }
  unfold bind_t at 1. rewrite Hm. unfold bind_t at 1, quiet at 1. rewrite Hsp.
  unfold bind_t at 1, quiet at 1.
  change (char_ (C "=") (L "= " ++ lets n)) with (Ok (L " " ++ lets n) (C "=")). cbv iota beta.
  unfold bind_t at 1, quiet at 1. rewrite sp_blank. unfold bind_t at 1. rewrite HE. reflexivity.
Qed.
Lemma signature_lets i n x : (x = C "a" \/ x = C "x") ->
  opt_t (terminated_t (function_signature_t i) (new_line_and_same_indent i)) (x :: L " = " ++ lets n) =
  (Ok (x :: L " = " ++ lets n) None, []).
Proof.
  intros Hx. unfold opt_t, terminated_t, function_signature_t. unfold bind_t at 1, bind_t at 1, quiet at 1.
  assert (Hn : binding_name (x :: L " = " ++ lets n) = Ok (L " = " ++ lets n) [x]).
  { destruct Hx; subst x; unfold binding_name, alt; rewrite lo_name_eq; reflexivity. }
  rewrite Hn. reflexivity.
Qed.
Lemma function_lets E i n t x : (x = C "a" \/ x = C "x") -> E i (lets n) = (Err, t) ->
  function_f_t E i (x :: L " = " ++ lets n) = (Err, t).
Proof.
  intros Hx HE. unfold function_f_t. unfold bind_t at 1. rewrite signature_lets by exact Hx.
  unfold bind_t at 1. rewrite (definition_lets E i n t x Hx HE). reflexivity.
Qed.
Lemma binding_lets E i n t : E i (lets n) = (Err, t) -> let_binding_f_t E i (L "a = " ++ lets n) = (Err, t).
Proof.
  intros HE. unfold let_binding_f_t, let_binding_target_f_t.
  assert (Hv : variable (L "a = " ++ lets n) = Ok (L " = " ++ lets n) (Variable_ [L "a"])).
  { unfold variable, alt, lower_case, map_. rewrite lo_name_eq. reflexivity. }
  unfold bind_t at 1, alt_t at 1, quiet at 1. rewrite Hv. unfold bind_t at 1, quiet at 1. rewrite sp_equals.
  unfold bind_t at 1, quiet at 1.
  change (char_ (C "=") (L "= " ++ lets n)) with (Ok (L " " ++ lets n) (C "=")). cbv iota beta.
  unfold bind_t at 1, quiet at 1. rewrite sp_blank. unfold bind_t at 1. rewrite HE. reflexivity.
Qed.
Lemma let_lets E i n t : E i (lets n) = (Err, t) -> let_expression_f_t E i (L "let a = " ++ lets n) = (Err, t ++ t).
Proof.
  intros HE. unfold let_expression_f_t. unfold bind_t at 1, quiet at 1.
  change (tag (L "let") (L "let a = " ++ lets n)) with (Ok (L " a = " ++ lets n) (L "let")). cbv iota beta.
  unfold bind_t at 1, quiet at 1. rewrite sp_a. unfold bind_t at 1, let_bindings_f_t, separated_nonempty_list_t.
  rewrite (alt_err_t (let_binding_f_t E i) _ _ t (binding_lets E i n t HE)).
  unfold map_t. change (L "a = " ++ lets n) with (C "a" :: L " = " ++ lets n).
  rewrite (function_lets E i n t (C "a") (or_introl eq_refl) HE). reflexivity.
Qed.
Theorem lets_run k : forall n i, k < n -> expression_n_t n i (lets k) = (Err, lets_trace k).
Proof.
  induction k as [|k IH]; intros n i Hn; (destruct n as [|n]; [lia|]).
  - reflexivity.
  - cbn [expression_n_t lets lets_trace]. unfold expression_f_t.
    rewrite (alt_err_t (binary_f_t _ i) _ _ []) by (apply binary_no; exact (term_let _ i (L "a = " ++ lets k))).
    rewrite (alt_err_t (let_expression_f_t _ i) _ _ _ (let_lets _ i k _ (IH n i ltac:(lia)))).
    rewrite (alt_err_t (case_expression_f_t _ i) _ _ []) by reflexivity.
    rewrite (alt_err_t (if_expression_f_t _ i) _ _ []) by reflexivity.
    assert (Hl : forall E, lambda_f_t E i (L "let a = " ++ lets k) = (Err, [])) by reflexivity.
    rewrite Hl. cbn [app]. rewrite app_nil_r. reflexivity.
Qed.

Theorem file_lets k : file_t (L "x = " ++ lets k) = (Err, lets_trace k).
Proof.
  assert (He : expression_t 0 (lets k) = (Err, lets_trace k)).
  { unfold expression_t. apply lets_run. rewrite lets_length. lia. }
  assert (Hfun : function_t 0 (L "x = " ++ lets k) = (Err, lets_trace k)).
  { apply (function_lets expression_t 0%N k _ (C "x")); [right; reflexivity|exact He]. }
  assert (Hst : statement_t (L "x = " ++ lets k) = (Err, lets_trace k)).
  { unfold statement_t.
    do 4 rewrite alt_err by reflexivity.
    rewrite (alt_err_t type_alias_declaration_t _ _ []) by reflexivity.
    rewrite (alt_err_t (type_declaration_t 0) _ _ []) by reflexivity.
    rewrite (alt_err_t port_type_declaration_t _ _ []) by reflexivity.
    rewrite (alt_err_t port_declaration_t _ _ []) by reflexivity.
    unfold alt_t at 1, map_t. rewrite Hfun. cbn. rewrite app_nil_r. reflexivity. }
  unfold file_t, terminated_t, statements_t, delimited_t.
  unfold bind_t at 1, bind_t at 1, quiet at 1.
  assert (Hm : multispace0 (L "x = " ++ lets k) = Ok (L "x = " ++ lets k) []) by reflexivity.
  rewrite Hm. unfold bind_t at 1, separated_nonempty_list_t. rewrite Hst. reflexivity.
Qed.
