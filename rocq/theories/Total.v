(** * Totality, progress and recursion equations for all parsers *)
From Verif Require Import Base Nom Regex Ast Good Spec Helpers Types Expr Stmt Lexers.

Lemma ok_self {A} k n (p : parser A) : (forall s, ok_res k s (p s)) -> ok k n p p.
Proof. intros H s _. split; [reflexivity|apply H]. Qed.

(** ** Lexical parsers *)

Lemma span_len P s a b : span P s = (a, b) -> length a + length b = length s.
Proof. intros H. apply span_app in H. subst s. rewrite app_length; lia. Qed.

Lemma ok_lo_name n : ok 1 n lo_name lo_name.
Proof.
  apply ok_self. intros s. rewrite lo_name_eq. destruct s as [|c s]; [exact I|].
  destruct (c =? 95)%N; [simpl; lia|]. destruct (is_lower c); [|exact I].
  destruct (span is_name_char s) as [a b] eqn:Hs. apply span_len in Hs.
  destruct (mem_str (c :: a) reserved_words); [exact I|]. cbn [ok_res length]. lia.
Qed.

Lemma ok_up_name n : ok 1 n up_name up_name.
Proof.
  apply ok_self. intros s. rewrite up_name_eq. destruct s as [|c s]; simpl; auto.
  destruct (is_upper c); simpl; auto.
  destruct (span is_name_char s) as [a b] eqn:Hs. apply span_len in Hs. simpl; lia.
Qed.

Lemma ok_type_variable n : ok 1 n type_variable type_variable.
Proof.
  apply ok_self. intros s. rewrite type_variable_eq. destruct s as [|c s]; simpl; auto.
  destruct (is_lower c); simpl; auto.
  destruct (span is_tyvar_char s) as [a b] eqn:Hs. apply span_len in Hs. simpl; lia.
Qed.

Lemma ok_operator n : ok 1 n operator operator.
Proof.
  apply ok_self. intros s. rewrite operator_eq.
  destruct (span is_op_char s) as [a b] eqn:Hs. apply span_len in Hs.
  destruct a as [|c a]; [exact I|]. cbn [length] in Hs.
  destruct (mem_str (c :: a) reserved_operators); simpl; auto; lia.
Qed.

Lemma ok_comment_line n : ok 1 n single_line_comment single_line_comment.
Proof.
  apply ok_self. intros s. rewrite single_line_comment_eq.
  destruct (strip (L "--") s) as [s'|] eqn:Ht; simpl; auto.
  apply strip_app in Ht. subst s. destruct (span not_newline s') as [a b] eqn:Hs.
  apply span_len in Hs. simpl; lia.
Qed.

Lemma ok_single_string n : ok 1 n single_string single_string.
Proof.
  apply ok_self. intros s. rewrite single_string_eq. destruct s as [|c s]; simpl; auto.
  destruct (c =? quote)%N; simpl; auto.
  destruct (str_span s) as [a b] eqn:Hs. apply str_span_app in Hs. subst s.
  destruct b as [|d b]; simpl; auto. destruct (d =? quote)%N; simpl; auto.
  rewrite app_length; simpl; lia.
Qed.

Lemma ok_multi_string n : ok 1 n multi_string multi_string.
Proof.
  apply ok_self. intros s. rewrite multi_string_eq.
  destruct (strip [quote; quote; quote] s) as [s'|] eqn:Ht; [|exact I].
  apply strip_app in Ht. subst s. destruct (span not_quote s') as [a b] eqn:Hs.
  apply span_app in Hs. subst s'.
  destruct (strip [quote; quote; quote] b) as [r|] eqn:Ht; [|exact I].
  apply strip_app in Ht. subst b. cbn [ok_res]. rewrite !app_length; simpl; lia.
Qed.

Lemma ok_is_a n cs : ok 1 n (is_a cs) (is_a cs).
Proof. apply ok_take_while1. Qed.
Lemma ok_digit n : ok 1 n digit digit.
Proof. apply ok_take_while1. Qed.
Lemma ok_space1 n : ok 1 n space1 space1.
Proof. apply ok_take_while1. Qed.
Lemma ok_multispace0 n : ok 0 n multispace0 multispace0.
Proof. apply ok_take_while0. Qed.
Lemma ok_multispace n : ok 1 n multispace multispace.
Proof. apply ok_take_while1. Qed.
Lemma ok_tag1 n c t : ok 1 n (tag (c :: t)) (tag (c :: t)).
Proof. apply ok_tag. simpl; lia. Qed.

(** A list of at least one element made progress. *)
Lemma ok_map_res_separated_list {A B D} n (f : list A -> option D)
  (sep sep' : parser B) (p p' : parser A) :
  f [] = None -> ok 0 n sep sep' -> ok 0 n p p' ->
  ok 1 n (map_res f (separated_list sep p)) (map_res f (separated_list sep' p')).
Proof.
  intros Hf Hsep Hp s Hs.
  destruct (ok_separated_list n sep sep' p p' Hsep Hp s Hs) as [He _].
  destruct (ok_separated_nonempty_list n sep sep' p p' Hsep Hp s Hs) as [_ Ho].
  unfold map_res. rewrite <- He. split; [reflexivity|].
  unfold separated_list, separated_nonempty_list in *.
  destruct (p s) as [r a| |w]; [|rewrite Hf; exact I|exact Ho].
  destruct (length r =? length s); [exact I|].
  destruct (sep_loop (S (length r)) sep p r) as [r' l| |w]; [|exact Ho|exact Ho].
  destruct (f (a :: l)); [exact Ho|exact I].
Qed.

(** ** Automation *)

Create HintDb okdb discriminated.
#[export] Hint Resolve ok_lo_name ok_up_name ok_type_variable ok_operator ok_comment_line
  ok_single_string ok_multi_string ok_is_a ok_digit ok_space1 ok_multispace0
  ok_multispace ok_tag1 ok_char ok_anychar ok_take ok_take_until ok_eof ok_ret : okdb.

Ltac oks :=
  intros;
  lazymatch goal with
  | |- ok _ _ (bind _ _) (bind _ _) =>
      first [ apply ok_bind1; [solve [oks] | intros; oks]
            | apply ok_bind0; [solve [oks] | intros; oks] ]
  | |- ok _ _ (preceded _ _) _ =>
      first [ apply ok_preceded1; [solve [oks] | oks]
            | apply ok_preceded0; [solve [oks] | oks] ]
  | |- ok _ _ (terminated _ _) _ =>
      first [ apply ok_terminated1; [solve [oks] | oks]
            | apply ok_terminated0; [solve [oks] | oks] ]
  | |- ok _ _ (delimited _ _ _) _ =>
      first [ apply ok_delimited1; [solve [oks] | oks | oks]
            | apply ok_delimited_mid; [solve [oks] | oks | oks]
            | apply ok_delimited0; [solve [oks] | oks | oks] ]
  | |- ok _ _ (separated_pair _ _ _) _ =>
      first [ apply ok_separated_pair1; [solve [oks] | oks | oks]
            | apply ok_separated_pair0; [solve [oks] | oks | oks] ]
  | |- ok _ _ (alt _ _) _ => apply ok_alt; oks
  | |- ok _ _ (opt _) _ => apply ok_opt; oks
  | |- ok _ _ (map_ _ _) _ => apply ok_map; oks
  | |- ok _ _ (value _ _) _ => apply ok_value; oks
  | |- ok _ _ (map_res _ _) _ => apply ok_map_res; oks
  | |- ok _ _ (many0 _) _ => apply ok_many0; oks
  | |- ok _ _ (many1 _) _ => apply ok_many1; oks
  | |- ok _ _ (separated_list _ _) _ => apply ok_separated_list; oks
  | |- ok 0 _ (separated_nonempty_list _ _) _ =>
      apply ok_0; apply ok_separated_nonempty_list; oks
  | |- ok 1 _ (separated_nonempty_list _ _) _ => apply ok_separated_nonempty_list; oks
  | |- ok 1 _ _ _ =>
      first [ solve [eauto 3 with okdb nocore] | solve [eauto 3 using ok_down with okdb nocore] ]
  | |- ok 0 _ _ _ =>
      first [ solve [eauto 3 with okdb nocore]
            | apply ok_0; first [ solve [eauto 3 with okdb nocore]
                                | solve [eauto 3 using ok_down with okdb nocore] ] ]
  end.

(** ** src/ast/helpers.rs *)

Lemma ok_spaces n : ok 1 n spaces spaces.
Proof. unfold spaces; oks. Qed.
Lemma ok_spaces0 n : ok 0 n spaces0 spaces0.
Proof. unfold spaces0; oks. Qed.
Lemma ok_spaces_and_newlines n : ok 1 n spaces_and_newlines spaces_and_newlines.
Proof. unfold spaces_and_newlines; oks. Qed.
#[export] Hint Resolve ok_spaces ok_spaces0 ok_spaces_and_newlines : okdb.

Lemma ok_spaces_item n i : ok 1 n (spaces_item i) (spaces_item i).
Proof. destruct n; [intros s Hs; lia|]. unfold spaces_item; oks. Qed.
#[export] Hint Resolve ok_spaces_item : okdb.
Lemma ok_sp n i ir :
  ok 1 n (spaces_or_new_lines_and_indent i ir) (spaces_or_new_lines_and_indent i ir).
Proof. unfold spaces_or_new_lines_and_indent; oks. Qed.
#[export] Hint Resolve ok_sp : okdb.
Lemma ok_opt_sp n i : ok 0 n (opt_sp i) (opt_sp i).
Proof. unfold opt_sp; oks. Qed.
Lemma ok_opt_sp' n i ir :
  ok 0 n (opt_spaces_or_new_lines_and_indent i ir) (opt_spaces_or_new_lines_and_indent i ir).
Proof. unfold opt_spaces_or_new_lines_and_indent; oks. Qed.
#[export] Hint Resolve ok_opt_sp ok_opt_sp' : okdb.
Lemma ok_comma_sep n i : ok 1 n (comma_sep i) (comma_sep i).
Proof. destruct n; [intros s Hs; lia|]. unfold comma_sep; oks. Qed.
Lemma ok_new_line n i : ok 1 n (new_line_and_same_indent i) (new_line_and_same_indent i).
Proof. destruct n; [intros s Hs; lia|]. unfold new_line_and_same_indent; oks. Qed.
#[export] Hint Resolve ok_comma_sep ok_new_line : okdb.

Lemma ok_dotted n : ok 1 n (separated_nonempty_list (char_ (C ".")) up_name)
                           (separated_nonempty_list (char_ (C ".")) up_name).
Proof. oks. Qed.
Lemma ok_module_name n : ok 1 n module_name module_name.
Proof. apply ok_dotted. Qed.
Lemma ok_type_constant n : ok 1 n type_constant type_constant.
Proof. unfold type_constant; oks. Qed.
#[export] Hint Resolve ok_dotted ok_module_name ok_type_constant : okdb.

(** ** Types *)

Section OkTypes.
  Variables (n : nat) (T T' : N -> parser type_ast).
  Hypothesis HT : forall i, ok 1 n (T i) (T' i).
  Hint Resolve HT : okdb.

  Lemma ok_type_annotation_f i : ok 1 n (type_annotation_f T i) (type_annotation_f T' i).
  Proof. unfold type_annotation_f; oks. Qed.
  Hint Resolve ok_type_annotation_f : okdb.
  Lemma ok_type_tuple_f i : ok 1 (S n) (type_tuple_f T i) (type_tuple_f T' i).
  Proof. unfold type_tuple_f; oks. Qed.
  Lemma ok_type_record_pair_f i : ok 0 n (type_record_pair_f T i) (type_record_pair_f T' i).
  Proof. unfold type_record_pair_f; oks. Qed.
  Hint Resolve ok_type_record_pair_f : okdb.
  Lemma ok_type_record_pairs_f i : ok 0 n (type_record_pairs_f T i) (type_record_pairs_f T' i).
  Proof. unfold type_record_pairs_f; oks. Qed.
  Hint Resolve ok_type_record_pairs_f : okdb.
  Lemma ok_type_record_constructor_f i :
    ok 1 (S n) (type_record_constructor_f T i) (type_record_constructor_f T' i).
  Proof. unfold type_record_constructor_f; oks. Qed.
  Lemma ok_type_record_f i : ok 1 (S n) (type_record_f T i) (type_record_f T' i).
  Proof. unfold type_record_f; oks. Qed.
  Lemma ok_type_parens_f i : ok 1 (S n) (type_parens_f T i) (type_parens_f T' i).
  Proof. unfold type_parens_f; oks. Qed.
  Hint Resolve ok_type_tuple_f ok_type_record_constructor_f ok_type_record_f
    ok_type_parens_f : okdb.
  Lemma ok_type_parameter_f i : ok 1 (S n) (type_parameter_f T i) (type_parameter_f T' i).
  Proof. unfold type_parameter_f; oks. Qed.
  Hint Resolve ok_type_parameter_f : okdb.
  Lemma ok_type_constructor_f i :
    ok 1 (S n) (type_constructor_f T i) (type_constructor_f T' i).
  Proof. unfold type_constructor_f; oks. Qed.
  Hint Resolve ok_type_constructor_f : okdb.
  Lemma ok_type_f i : ok 1 (S n) (type_f T i) (type_f T' i).
  Proof. unfold type_f; oks. Qed.
End OkTypes.

(** With enough fuel the answer does not depend on the fuel. *)
Lemma ok_type_n n : forall m i, n <= m -> ok 1 n (type_n n i) (type_n m i).
Proof.
  induction n as [|n IH]; intros m i Hm; [intros s Hs; lia|].
  destruct m as [|m]; [lia|].
  apply (ok_type_f n (type_n n) (type_n m)). intros j. apply IH. lia.
Qed.

Lemma type_n_type n i s : length s < n -> type_n n i s = type_ i s.
Proof.
  intros H. unfold type_. symmetry.
  apply (ok_type_n (S (length s)) n i); [lia|lia].
Qed.

Lemma ok_type n i : ok 1 n (type_ i) (type_ i).
Proof.
  intros s Hs. split; [reflexivity|]. unfold type_.
  apply (ok_type_n (S (length s)) (S (length s)) i); lia.
Qed.

(** The recursion equation of src/ast/type_/mod.rs:124-137. *)
Lemma type_eq i s : type_ i s = type_f type_ i s.
Proof.
  unfold type_ at 1. change (type_n (S (length s)) i s) with (type_f (type_n (length s)) i s).
  apply (ok_type_f (length s) (type_n (length s)) type_); [|lia].
  intros j s' Hs'. split; [apply type_n_type; exact Hs'|].
  rewrite (type_n_type (length s) j s' Hs'). apply (ok_type (length s) j s' Hs').
Qed.

#[export] Hint Resolve ok_type : okdb.
Lemma ok_type_annotation n i : ok 1 n (type_annotation i) (type_annotation i).
Proof. apply ok_type_annotation_f. intros; apply ok_type. Qed.
Lemma ok_type_constructor n i : ok 1 n (type_constructor i) (type_constructor i).
Proof.
  apply ok_down. apply ok_type_constructor_f. intros; apply ok_type.
Qed.
#[export] Hint Resolve ok_type_annotation ok_type_constructor : okdb.

(** ** Expressions without recursion *)

Lemma ok_lower_case n : ok 1 n lower_case lower_case.
Proof. unfold lower_case; oks. Qed.
Lemma ok_upper_with_dots n : ok 1 n upper_with_dots upper_with_dots.
Proof. unfold upper_with_dots; oks. Qed.
Lemma ok_op n : ok 1 n op op.
Proof. destruct n; [intros s Hs; lia|]. unfold op; oks. Qed.
#[export] Hint Resolve ok_lower_case ok_upper_with_dots ok_op : okdb.
Lemma ok_variable n : ok 1 n variable variable.
Proof. unfold variable; oks. Qed.
#[export] Hint Resolve ok_variable : okdb.
Lemma ok_access n : ok 1 n access access.
Proof. destruct n; [intros s Hs; lia|]. unfold access; oks. Qed.
Lemma ok_access_function n : ok 1 n access_function access_function.
Proof. destruct n; [intros s Hs; lia|]. unfold access_function; oks. Qed.
Lemma ok_string n : ok 1 n string_ string_.
Proof. unfold string_; oks. Qed.
Lemma ok_sign n : ok 0 n sign sign.
Proof. unfold sign; oks. Qed.
#[export] Hint Resolve ok_sign : okdb.
Lemma ok_float n : ok 1 n float float.
Proof. destruct n; [intros s Hs; lia|]. unfold float; oks. Qed.
Lemma ok_integer n : ok 1 n integer integer.
Proof. destruct n; [intros s Hs; lia|]. unfold integer; oks. Qed.
Lemma ok_character_content n : ok 1 n character_content character_content.
Proof. destruct n; [intros s Hs; lia|]. unfold character_content; oks. Qed.
#[export] Hint Resolve ok_character_content : okdb.
Lemma ok_character n : ok 1 n character character.
Proof. destruct n; [intros s Hs; lia|]. unfold character; oks. Qed.
Lemma ok_operator_or_as n : ok 1 n operator_or_as operator_or_as.
Proof. unfold operator_or_as; oks. Qed.
Lemma ok_binding_name n : ok 1 n binding_name binding_name.
Proof. destruct n; [intros s Hs; lia|]. unfold binding_name; oks. Qed.
#[export] Hint Resolve ok_access ok_access_function ok_string ok_float ok_integer
  ok_character ok_operator_or_as ok_binding_name : okdb.
Lemma ok_function_signature n i : ok 1 n (function_signature i) (function_signature i).
Proof. destruct n; [intros s Hs; lia|]. unfold function_signature; oks. Qed.
#[export] Hint Resolve ok_function_signature : okdb.
Lemma ok_simplified_field n : ok 1 n simplified_field simplified_field.
Proof. destruct n; [intros s Hs; lia|]. unfold simplified_field; oks. Qed.
#[export] Hint Resolve ok_simplified_field : okdb.
Lemma ok_simplified_record n : ok 1 n simplified_record simplified_record.
Proof. destruct n; [intros s Hs; lia|]. unfold simplified_record; oks. Qed.
#[export] Hint Resolve ok_simplified_record : okdb.

(** ** Expressions *)

Section OkExpr.
  Variables (n : nat) (E E' : N -> parser expr).
  Hypothesis HE : forall i, ok 1 n (E i) (E' i).
  Hint Resolve HE : okdb.

  Lemma ok_tuple_f i : ok 1 (S n) (tuple_f E i) (tuple_f E' i).
  Proof. unfold tuple_f; oks. Qed.
  Lemma ok_list_f i : ok 1 (S n) (list_f E i) (list_f E' i).
  Proof. unfold list_f; oks. Qed.
  Lemma ok_record_field_f i : ok 0 n (record_field_f E i) (record_field_f E' i).
  Proof. unfold record_field_f; oks. Qed.
  Hint Resolve ok_record_field_f : okdb.
  Lemma ok_record_f i : ok 1 (S n) (record_f E i) (record_f E' i).
  Proof. unfold record_f; oks. Qed.
  Lemma ok_update_field_f i : ok 0 n (update_field_f E i) (update_field_f E' i).
  Proof. unfold update_field_f; oks. Qed.
  Hint Resolve ok_update_field_f : okdb.
  Lemma ok_record_update_f i : ok 1 (S n) (record_update_f E i) (record_update_f E' i).
  Proof. unfold record_update_f; oks. Qed.
  Lemma ok_parens_f i : ok 1 (S n) (parens_f E i) (parens_f E' i).
  Proof. unfold parens_f; oks. Qed.
  Hint Resolve ok_tuple_f ok_list_f ok_record_f ok_record_update_f ok_parens_f : okdb.
  Lemma ok_term_f i : ok 1 (S n) (term_f E i) (term_f E' i).
  Proof. unfold term_f; oks. Qed.
  Hint Resolve ok_term_f : okdb.
  Lemma ok_lambda_f i : ok 1 (S n) (lambda_f E i) (lambda_f E' i).
  Proof. unfold lambda_f; oks. Qed.
  Lemma ok_application_or_var_f i :
    ok 1 (S n) (application_or_var_f E i) (application_or_var_f E' i).
  Proof. unfold application_or_var_f. apply ok_map_res_separated_list; [reflexivity|oks|oks]. Qed.
  Lemma ok_function_definition_f i :
    ok 1 (S n) (function_definition_f E i) (function_definition_f E' i).
  Proof. unfold function_definition_f; oks. Qed.
  Hint Resolve ok_lambda_f ok_application_or_var_f ok_function_definition_f : okdb.
  Lemma ok_function_f i : ok 1 (S n) (function_f E i) (function_f E' i).
  Proof. unfold function_f; oks. Qed.
  Lemma ok_let_binding_target_f i :
    ok 1 (S n) (let_binding_target_f E i) (let_binding_target_f E' i).
  Proof. unfold let_binding_target_f; oks. Qed.
  Hint Resolve ok_function_f ok_let_binding_target_f : okdb.
  Lemma ok_let_binding_f i : ok 1 (S n) (let_binding_f E i) (let_binding_f E' i).
  Proof. unfold let_binding_f; oks. Qed.
  Hint Resolve ok_let_binding_f : okdb.
  Lemma ok_let_bindings_f i : ok 1 (S n) (let_bindings_f E i) (let_bindings_f E' i).
  Proof. unfold let_bindings_f; oks. Qed.
  Hint Resolve ok_let_bindings_f : okdb.
  Lemma ok_let_expression_f i : ok 1 (S n) (let_expression_f E i) (let_expression_f E' i).
  Proof. unfold let_expression_f; oks. Qed.
  Lemma ok_case_f i : ok 0 n (case_f E i) (case_f E' i).
  Proof. unfold case_f; oks. Qed.
  Hint Resolve ok_case_f : okdb.
  Lemma ok_cases_f i : ok 0 n (cases_f E i) (cases_f E' i).
  Proof. unfold cases_f; oks. Qed.
  Hint Resolve ok_cases_f : okdb.
  Lemma ok_case_expression_f i : ok 1 (S n) (case_expression_f E i) (case_expression_f E' i).
  Proof. unfold case_expression_f; oks. Qed.
  Lemma ok_if_expression_f i : ok 1 (S n) (if_expression_f E i) (if_expression_f E' i).
  Proof. unfold if_expression_f; oks. Qed.
  Lemma ok_operator_exp_f i : ok 1 (S n) (operator_exp_f E i) (operator_exp_f E' i).
  Proof. unfold operator_exp_f; oks. Qed.
  Hint Resolve ok_let_expression_f ok_case_expression_f ok_if_expression_f ok_operator_exp_f : okdb.
  Lemma ok_binary_f i : ok 1 (S n) (binary_f E i) (binary_f E' i).
  Proof. unfold binary_f; oks. Qed.
  Hint Resolve ok_binary_f : okdb.
  Lemma ok_expression_f i : ok 1 (S n) (expression_f E i) (expression_f E' i).
  Proof. unfold expression_f; oks. Qed.
End OkExpr.

Lemma ok_expression_n n : forall m i, n <= m -> ok 1 n (expression_n n i) (expression_n m i).
Proof.
  induction n as [|n IH]; intros m i Hm; [intros s Hs; lia|].
  destruct m as [|m]; [lia|].
  apply (ok_expression_f n (expression_n n) (expression_n m)). intros j. apply IH. lia.
Qed.

Lemma expression_n_expression n i s :
  length s < n -> expression_n n i s = expression i s.
Proof.
  intros H. unfold expression. symmetry.
  apply (ok_expression_n (S (length s)) n i); [lia|lia].
Qed.

Lemma ok_expression n i : ok 1 n (expression i) (expression i).
Proof.
  intros s Hs. split; [reflexivity|]. unfold expression.
  apply (ok_expression_n (S (length s)) (S (length s)) i); lia.
Qed.

(** The recursion equation of src/ast/expression/mod.rs:343-351. *)
Lemma expression_eq i s : expression i s = expression_f expression i s.
Proof.
  unfold expression at 1.
  change (expression_n (S (length s)) i s) with (expression_f (expression_n (length s)) i s).
  apply (ok_expression_f (length s) (expression_n (length s)) expression); [|lia].
  intros j s' Hs'. split; [apply expression_n_expression; exact Hs'|].
  rewrite (expression_n_expression (length s) j s' Hs').
  apply (ok_expression (length s) j s' Hs').
Qed.

#[export] Hint Resolve ok_expression : okdb.
Lemma ok_term n i : ok 1 n (term i) (term i).
Proof. apply ok_down, ok_term_f. intros; apply ok_expression. Qed.
Lemma ok_function n i : ok 1 n (function i) (function i).
Proof. apply ok_down, ok_function_f. intros; apply ok_expression. Qed.
#[export] Hint Resolve ok_term ok_function : okdb.

(** ** Statements *)

Ltac ok0 := let n := fresh "n" in
  match goal with |- ok _ ?n _ _ => destruct n as [|n]; [intros s Hs; lia|] end.

Lemma ok_all_export n : ok 1 n all_export all_export.
Proof. unfold all_export; oks. Qed.
Lemma ok_function_export n : ok 1 n function_export function_export.
Proof. ok0. unfold function_export, function_name; oks. Qed.
Lemma ok_constructor_subset_exports n :
  ok 1 n constructor_subset_exports constructor_subset_exports.
Proof. unfold constructor_subset_exports; oks. Qed.
#[export] Hint Resolve ok_all_export ok_function_export ok_constructor_subset_exports : okdb.
Lemma ok_constructor_exports n : ok 0 n constructor_exports constructor_exports.
Proof. unfold constructor_exports; oks. Qed.
#[export] Hint Resolve ok_constructor_exports : okdb.
Lemma ok_type_export n : ok 1 n type_export type_export.
Proof. ok0. unfold type_export; oks. Qed.
#[export] Hint Resolve ok_type_export : okdb.
Lemma ok_subset_export n : ok 1 n subset_export subset_export.
Proof. unfold subset_export; oks. Qed.
#[export] Hint Resolve ok_subset_export : okdb.
Lemma ok_exports n : ok 1 n exports exports.
Proof. ok0. unfold exports; oks. Qed.
Lemma ok_sp_gt0 n : ok 1 n sp_gt0 sp_gt0.
Proof. apply ok_sp. Qed.
#[export] Hint Resolve ok_exports ok_sp_gt0 : okdb.
Lemma ok_port_module n : ok 1 n port_module_declaration port_module_declaration.
Proof. ok0. unfold port_module_declaration; oks. Qed.
Lemma ok_effect_field n : ok 1 n effect_field effect_field.
Proof. ok0. unfold effect_field; oks. Qed.
#[export] Hint Resolve ok_effect_field : okdb.
Lemma ok_effect_module n : ok 1 n effect_module_declaration effect_module_declaration.
Proof. ok0. unfold effect_module_declaration; oks. Qed.
Lemma ok_module n : ok 1 n module_declaration module_declaration.
Proof. ok0. unfold module_declaration; oks. Qed.
Lemma ok_import n : ok 1 n import_statement import_statement.
Proof. ok0. unfold import_statement; oks. Qed.
Lemma ok_type_alias n : ok 1 n type_alias_declaration type_alias_declaration.
Proof. ok0. unfold type_alias_declaration; oks. Qed.
Lemma ok_type_declaration n i : ok 1 n (type_declaration i) (type_declaration i).
Proof. ok0. unfold type_declaration; oks. Qed.
Lemma ok_port_type n : ok 1 n port_type_declaration port_type_declaration.
Proof. ok0. unfold port_type_declaration; oks. Qed.
Lemma ok_port n : ok 1 n port_declaration port_declaration.
Proof. ok0. unfold port_declaration; oks. Qed.
Lemma ok_infix n : ok 1 n infix_declaration infix_declaration.
Proof. ok0. unfold infix_declaration; oks. Qed.
Lemma ok_comment_stmt n : ok 1 n single_line_comment_stmt single_line_comment_stmt.
Proof. apply ok_map. exact (ok_comment_line n). Qed.
Lemma ok_multi_line_comment n : ok 1 n multi_line_comment multi_line_comment.
Proof. ok0. unfold multi_line_comment; oks. Qed.
#[export] Hint Resolve ok_port_module ok_effect_module ok_module ok_import ok_type_alias
  ok_type_declaration ok_port_type ok_port ok_infix ok_comment_stmt
  ok_multi_line_comment : okdb.
Lemma ok_statement n : ok 1 n statement statement.
Proof. unfold statement, comment; oks. Qed.
#[export] Hint Resolve ok_statement : okdb.
Lemma ok_statements n : ok 1 n statements statements.
Proof. ok0. unfold statements; oks. Qed.
#[export] Hint Resolve ok_statements : okdb.
Lemma ok_file n : ok 1 n file file.
Proof. ok0. unfold file; oks. Qed.
