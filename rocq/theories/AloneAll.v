(** * Alone or before a closing bracket: types and expressions *)
From Verif Require Import Base Nom Regex Ast Good Spec Helpers Types Expr Lexers Total Layout Follow LexProps TwoRuns RenameSim Whole Steps Indep IndepAll Alone.

Ltac go := eapply step_bind; [|intros ?].
Section Alone.
Variables z z' : str.
Hypotheses (Hz : stop z) (Hz' : stop z').
Notation X d := (apart on d z z').

Definition tk_lo_name := ap_lo_name z z' Hz Hz'.
Definition tk_up_name := ap_up_name z z' Hz Hz'.
Definition tk_run := ap_run z z' Hz Hz'.
Definition tk_spaces := ap_spaces z z' Hz Hz'.
Definition tk_commas := ap_commas z z' Hz Hz'.
Definition tk_space1 := ap_space1 z z' Hz Hz'.
Definition tk_spnl := ap_spnl z z' Hz Hz'.
Definition tk_multispace := ap_multispace z z' Hz Hz'.
Definition tk_multispace0 := ap_multispace0 z z' Hz Hz'.
Definition tk_char := ap_char z z' Hz Hz'.
Definition tk_comma := ap_comma z z' Hz Hz'.
Definition tk_op_char := ap_op_char z z' Hz Hz'.
Definition tk_arrow := ap_arrow z z' Hz Hz'.
Definition tk_word := ap_word z z' Hz Hz'.
Definition tk_integer := ap_integer z z' Hz Hz'.
Definition tk_float := ap_float z z' Hz Hz'.
Definition tk_string := ap_string z z' Hz Hz'.
Definition tk_character := ap_character z z' Hz Hz'.
Definition tk_operator := ap_operator z z' Hz Hz'.
Definition tk_type_variable := ap_type_variable z z' Hz Hz'.
Definition tk_sp := ap_sp z z' Hz Hz'.
Definition tk_sp_on := ap_sp_on z z' Hz Hz'.
Definition tk_same_indent := ap_same_indent z z' Hz Hz'.
Definition tk_open := ap_open z z' Hz Hz'.
Definition tk_open_on := ap_open_on z z' Hz Hz'.
Definition tk_open_code := ap_open_code z z' Hz Hz'.
Definition tk_close := ap_close z z'.
Lemma in_list d (A D : Type) (sep sep' : parser D) (p p' : parser A) :
  step (X d) (X d) sep sep' -> step (X d) (X d) p p' -> step (X d) (X d) (separated_list sep p) (separated_list sep' p').
Proof. intros H1 H2. apply step_separated_list_at; [apply step_sep, H1|exact H2]. Qed.
Lemma in_list1 d (A D : Type) (sep sep' : parser D) (p p' : parser A) :
  step (X d) (X d) sep sep' -> step (X d) (X d) p p' -> step (X d) (X d) (separated_nonempty_list sep p) (separated_nonempty_list sep' p').
Proof. intros H1 H2. apply step_separated_nonempty_at; [apply step_sep, H1|exact H2]. Qed.
Lemma in_opt_sp d i : step (X d) (X d) (opt_sp i) (opt_sp i).
Proof. unfold opt_sp. apply step_opt, tk_sp_on. Qed.
Lemma in_opt_spaces d i : step (X d) (X d) (opt_spaces_or_new_lines_and_indent i IR_GTE) (opt_spaces_or_new_lines_and_indent i IR_GTE).
Proof. unfold opt_spaces_or_new_lines_and_indent. apply step_map, in_opt_sp. Qed.
Lemma in_comma_sep d i : step (X d) (X d) (comma_sep i) (comma_sep i).
Proof. unfold comma_sep. eapply step_delimited; [apply in_opt_sp|apply tk_comma|apply in_opt_sp]. Qed.
Lemma in_symbol d c : is_op_char c = true -> c <> C "-" -> step (X d) (X d) (char_ c) (char_ c).
Proof. apply tk_op_char. Qed.
Ltac symbol := apply in_symbol; [reflexivity|discriminate].
Lemma in_dots d : step (X d) (X d) (separated_nonempty_list (char_ (C ".")) up_name) (separated_nonempty_list (char_ (C ".")) up_name).
Proof. apply in_list1; [symbol|apply tk_up_name]. Qed.
Lemma shut_at d i c : is_close c = true -> step (X (S d)) (X d) (terminated (opt_sp i) (char_ c)) (terminated (opt_sp i) (char_ c)).
Proof. intros Hc. eapply step_terminated; [apply in_opt_sp|apply tk_close, Hc]. Qed.
Lemma open_sp d i c : is_open c = true -> step (X d) (X (S d)) (preceded (char_ c) (opt_sp i)) (preceded (char_ c) (opt_sp i)).
Proof. intros Hc. eapply step_preceded; [apply tk_open_on, Hc|apply in_opt_sp]. Qed.

Section T.
  Variables T T' : N -> parser type_ast.
  Hypothesis HT : forall i d, step (X d) (X d) (T i) (T' i).
  Lemma in_annotation_f i d : step (X d) (X d) (type_annotation_f T i) (type_annotation_f T' i).
  Proof. unfold type_annotation_f. apply step_map_res, in_list1; [|apply HT]. eapply step_delimited; [apply tk_spnl|apply tk_arrow|apply tk_spnl]. Qed.
  Lemma in_type_tuple_f i d : step (X d) (X d) (type_tuple_f T i) (type_tuple_f T' i).
  Proof.
    unfold type_tuple_f. apply step_map. eapply step_delimited; [apply open_sp; reflexivity| |apply shut_at; reflexivity].
    apply in_list; [apply in_comma_sep|apply HT].
  Qed.
  Lemma in_pairs_f i d : step (X d) (X d) (type_record_pairs_f T i) (type_record_pairs_f T' i).
  Proof.
    apply in_list; [apply in_comma_sep|]. unfold type_record_pair_f. go; [apply tk_lo_name|]. go; [apply in_opt_sp|]. go; [symbol|].
    go; [apply in_opt_sp|]. go; [apply in_annotation_f|apply step_ret].
  Qed.
  Lemma in_extension_f i d : step (X d) (X d) (type_record_constructor_f T i) (type_record_constructor_f T' i).
  Proof.
    unfold type_record_constructor_f. eapply step_delimited; [apply tk_open_on; reflexivity| |apply tk_close; reflexivity].
    go; [apply tk_sp_on|]. go; [apply tk_type_variable|]. go; [apply tk_sp_on|]. go; [symbol|]. go; [apply tk_sp_on|]. go; [apply in_pairs_f|].
    go; [apply tk_sp_on|apply step_ret].
  Qed.
  Lemma in_type_record_f i d : step (X d) (X d) (type_record_f T i) (type_record_f T' i).
  Proof. unfold type_record_f. eapply step_delimited; [apply open_sp; reflexivity|apply step_map, in_pairs_f|apply shut_at; reflexivity]. Qed.
  Lemma in_type_parens_f i d : step (X d) (X d) (type_parens_f T i) (type_parens_f T' i).
  Proof. unfold type_parens_f. eapply step_delimited; [apply open_sp; reflexivity|apply in_annotation_f|apply shut_at; reflexivity]. Qed.
  Lemma in_bracket_type i d : step (X d) (X d)
    (type_record_constructor_f T i <|> type_record_f T i <|> type_tuple_f T i <|> type_parens_f T i)
    (type_record_constructor_f T' i <|> type_record_f T' i <|> type_tuple_f T' i <|> type_parens_f T' i).
  Proof. apply step_alt; [apply in_extension_f|]. apply step_alt; [apply in_type_record_f|]. apply step_alt; [apply in_type_tuple_f|apply in_type_parens_f]. Qed.
  Lemma in_parameter_f i d : step (X d) (X d) (type_parameter_f T i) (type_parameter_f T' i).
  Proof.
    unfold type_parameter_f, type_constant. apply step_alt; [apply tk_type_variable|]. apply step_alt; [apply step_map, in_dots|].
    apply in_bracket_type.
  Qed.
  Lemma in_type_f i d : step (X d) (X d) (type_f T i) (type_f T' i).
  Proof.
    unfold type_f. apply step_alt; [|apply step_alt; [apply tk_type_variable|apply in_bracket_type]].
    unfold type_constructor_f. go; [apply in_dots|]. go; [|apply step_ret]. apply step_many0. go; [apply tk_sp_on|]. go; [apply in_parameter_f|apply step_ret].
  Qed.
End T.
Lemma in_type_n n : forall n' i d, step (X d) (X d) (type_n n i) (type_n n' i).
Proof.
  induction n as [|n IH]; intros [|n'] i d s s' Hs; try exact I; [apply agree_abort|]. cbn [type_n]. apply (in_type_f (type_n n) (type_n n') (IH n')). exact Hs.
Qed.
Lemma in_annotation i d : step (X d) (X d) (type_annotation i) (type_annotation i).
Proof. apply in_annotation_f. intros j e s s' Hs. apply in_type_n. exact Hs. Qed.

(** ** Expressions *)
Lemma in_op d : step (X d) (X d) op op.
Proof.
  unfold op. apply step_map. eapply step_delimited; [apply tk_open_code| |apply tk_close; reflexivity].
  apply step_alt; [apply tk_operator|eapply step_in; [|apply tk_commas]; wider].
Qed.
Lemma in_variable d : step (X d) (X d) variable variable.
Proof.
  unfold variable, lower_case, upper_with_dots. apply step_alt; [apply step_map, tk_lo_name|].
  apply step_alt; [apply step_map, in_dots|apply in_op].
Qed.
Lemma in_access d : step (X d) (X d) access access.
Proof.
  unfold access. go; [apply in_variable|]. go; [|apply step_ret]. apply step_many1. go; [symbol|]. go; [apply tk_lo_name|apply step_ret].
Qed.
Lemma in_access_function d : step (X d) (X d) access_function access_function.
Proof. unfold access_function. go; [symbol|]. go; [apply tk_lo_name|apply step_ret]. Qed.
Lemma in_binding_name d : step (X d) (X d) binding_name binding_name.
Proof.
  unfold binding_name. apply step_alt; [apply tk_lo_name|].
  eapply step_delimited; [apply tk_open_code|apply tk_operator|apply tk_close; reflexivity].
Qed.
Lemma in_signature i d : step (X d) (X d) (function_signature i) (function_signature i).
Proof.
  unfold function_signature. go; [apply in_binding_name|]. go; [apply tk_spaces|]. go; [symbol|]. go; [apply tk_sp_on|]. go; [apply in_annotation|apply step_ret].
Qed.

Section E.
  Variables E E' : N -> parser expr.
  Hypothesis HE : forall i d, step (X d) (X d) (E i) (E' i).
  Lemma in_tuple_f i d : step (X d) (X d) (tuple_f E i) (tuple_f E' i).
  Proof.
    unfold tuple_f. apply step_map. eapply step_delimited; [apply tk_open_on; reflexivity| |apply tk_close; reflexivity].
    apply in_list; [apply tk_comma|]. eapply step_delimited; [apply tk_multispace0|apply HE|apply tk_multispace0].
  Qed.
  Lemma in_list_f i d : step (X d) (X d) (list_f E i) (list_f E' i).
  Proof.
    unfold list_f. apply step_map. eapply step_delimited; [apply open_sp; reflexivity| |apply shut_at; reflexivity].
    apply step_opt, in_list; [apply in_comma_sep|apply HE].
  Qed.
  Lemma in_record_f i d : step (X d) (X d) (record_f E i) (record_f E' i).
  Proof.
    unfold record_f. apply step_map. eapply step_delimited; [apply open_sp; reflexivity| |apply shut_at; reflexivity].
    apply in_list; [apply in_comma_sep|]. unfold record_field_f, separated_pair. go; [apply tk_lo_name|]. go.
    - eapply step_delimited; [apply in_opt_sp|symbol|apply in_opt_sp].
    - go; [apply HE|apply step_ret].
  Qed.
  Lemma in_simplified_record d : step (X d) (X d) simplified_record simplified_record.
  Proof.
    unfold simplified_record, simplified_field. apply step_map. eapply step_delimited; [apply tk_open_on; reflexivity| |apply tk_close; reflexivity].
    apply in_list; [apply tk_comma|]. go; [apply tk_multispace0|]. go; [apply tk_lo_name|]. go; [apply tk_multispace0|apply step_ret].
  Qed.
  Lemma in_record_update_f i d : step (X d) (X d) (record_update_f E i) (record_update_f E' i).
  Proof.
    unfold record_update_f. eapply step_delimited.
    - eapply step_preceded; [apply tk_open_on; reflexivity|apply in_opt_spaces].
    - go; [apply tk_lo_name|]. go; [apply in_opt_spaces|]. go; [symbol|]. go; [apply tk_multispace0|].
      go; [|apply step_ret]. apply in_list.
      + eapply step_delimited; [apply in_opt_spaces|apply tk_comma|apply in_opt_spaces].
      + unfold update_field_f. go; [apply tk_lo_name|]. go; [apply tk_multispace0|]. go; [symbol|]. go; [apply tk_multispace0|]. go; [apply HE|apply step_ret].
    - eapply step_terminated; [apply tk_sp_on|apply tk_close; reflexivity].
  Qed.
  Lemma in_parens_f i d : step (X d) (X d) (parens_f E i) (parens_f E' i).
  Proof. unfold parens_f. eapply step_delimited; [apply tk_open_on; reflexivity|apply HE|apply tk_close; reflexivity]. Qed.
  (** a term in brackets, except operators *)
  Definition bracket_term (F : N -> parser expr) (i : N) : parser expr :=
    parens_f F i <|> list_f F i <|> tuple_f F i <|> record_update_f F i <|> record_f F i <|> simplified_record.
  Lemma in_bracket_term i d : step (X d) (X d) (bracket_term E i) (bracket_term E' i).
  Proof.
    unfold bracket_term. apply step_alt; [apply in_parens_f|]. apply step_alt; [apply in_list_f|]. apply step_alt; [apply in_tuple_f|].
    apply step_alt; [apply in_record_update_f|]. apply step_alt; [apply in_record_f|apply in_simplified_record].
  Qed.
  Lemma in_term_f i d : step (X d) (X d) (term_f E i) (term_f E' i).
  Proof.
    unfold term_f. apply step_alt; [apply in_access|]. apply step_alt; [apply in_variable|]. apply step_alt; [apply in_access_function|].
    apply step_alt; [apply tk_string|]. apply step_alt; [apply tk_float|]. apply step_alt; [apply tk_integer|]. apply step_alt; [apply tk_character|].
    apply in_bracket_term.
  Qed.
  Lemma in_arrow_tail i d {A} (g : expr -> A) : step (X d) (X d)
    (tag (L "->") ;;; n <- spaces_or_new_lines_and_indent i IR_GTE ;; e <- E n ;; ret (g e))
    (tag (L "->") ;;; n <- spaces_or_new_lines_and_indent i IR_GTE ;; e <- E' n ;; ret (g e)).
  Proof. go; [apply tk_arrow|]. go; [apply tk_sp_on|]. go; [apply HE|apply step_ret]. Qed.
  Lemma in_lambda_f i d : step (X d) (X d) (lambda_f E i) (lambda_f E' i).
  Proof.
    unfold lambda_f. go; [symbol|]. go; [apply in_list1; [apply tk_space1|apply in_term_f]|]. go; [apply tk_sp_on|]. apply in_arrow_tail.
  Qed.
  Lemma in_application_f i d : step (X d) (X d) (application_or_var_f E i) (application_or_var_f E' i).
  Proof. unfold application_or_var_f. apply step_map_res, in_list; [apply tk_sp_on|apply in_term_f]. Qed.
  Lemma in_function_f i d : step (X d) (X d) (function_f E i) (function_f E' i).
  Proof.
    unfold function_f, function_definition_f. go; [apply step_opt; eapply step_terminated; [apply in_signature|apply tk_same_indent]|].
    go; [|apply step_ret]. go; [apply in_binding_name|]. go; [apply step_many0; eapply step_preceded; [apply tk_spaces|apply in_term_f]|].
    go; [apply tk_spaces|]. go; [symbol|]. go; [apply tk_sp_on|]. go; [apply HE|apply step_ret].
  Qed.
  Lemma in_let_binding_f i d : step (X d) (X d) (let_binding_f E i) (let_binding_f E' i).
  Proof.
    unfold let_binding_f, let_binding_target_f.
    go; [apply step_alt; [apply in_variable|apply step_alt; [apply in_list_f|apply step_alt; [apply in_tuple_f|apply in_simplified_record]]]|].
    go; [apply tk_sp_on|]. go; [symbol|]. go; [apply tk_sp_on|]. go; [apply HE|apply step_ret].
  Qed.
  Lemma in_let_f i d : step (X d) (X d) (let_expression_f E i) (let_expression_f E' i).
  Proof.
    unfold let_expression_f, let_bindings_f. go; [apply tk_word; reflexivity|]. go; [apply tk_sp_on|].
    go; [apply in_list1; [apply tk_sp_on|]; apply step_alt; [apply in_let_binding_f|apply step_map, in_function_f]|].
    go; [apply tk_sp_on|]. go; [apply tk_word; reflexivity|]. go; [apply tk_sp_on|]. go; [apply HE|apply step_ret].
  Qed.
  Lemma in_case_f i d : step (X d) (X d) (case_f E i) (case_f E' i).
  Proof. unfold case_f. go; [apply HE|]. go; [apply tk_sp_on|]. apply in_arrow_tail. Qed.
  Lemma in_case_expression_f i d : step (X d) (X d) (case_expression_f E i) (case_expression_f E' i).
  Proof.
    unfold case_expression_f, cases_f. go; [apply tk_word; reflexivity|]. go; [apply tk_sp_on|]. go; [apply HE|]. go; [apply tk_sp_on|].
    go; [apply tk_word; reflexivity|]. go; [apply tk_sp_on|]. go; [apply in_list1; [apply tk_sp_on|apply in_case_f]|apply step_ret].
  Qed.
  Lemma in_if_f i d : step (X d) (X d) (if_expression_f E i) (if_expression_f E' i).
  Proof.
    unfold if_expression_f. go; [apply tk_word; reflexivity|]. go; [apply tk_sp_on|]. go; [apply HE|]. go; [apply tk_sp_on|].
    go; [apply tk_word; reflexivity|]. go; [apply tk_sp_on|]. go; [apply HE|]. go; [apply tk_sp_on|].
    go; [apply tk_word; reflexivity|]. go; [apply tk_sp_on|]. go; [apply HE|apply step_ret].
  Qed.
  Lemma in_operator_exp_f i d : step (X d) (X d) (operator_exp_f E i) (operator_exp_f E' i).
  Proof.
    unfold operator_exp_f, operator_or_as. go; [apply tk_sp|]. go; [apply step_map, step_alt; [apply tk_word; reflexivity|apply tk_operator]|].
    go; [apply tk_multispace|]. go; [apply HE|apply step_ret].
  Qed.
  Lemma in_expression_f i d : step (X d) (X d) (expression_f E i) (expression_f E' i).
  Proof.
    unfold expression_f, binary_f.
    apply step_alt; [go; [apply in_application_f|]; go; [apply step_opt, in_operator_exp_f|apply step_ret]|].
    apply step_alt; [apply in_let_f|]. apply step_alt; [apply in_case_expression_f|]. apply step_alt; [apply in_if_f|apply in_lambda_f].
  Qed.
End E.
Lemma in_expression_n n : forall n' i d, step (X d) (X d) (expression_n n i) (expression_n n' i).
Proof.
  induction n as [|n IH]; intros [|n'] i d s s' Hs; try exact I; [apply agree_abort|].
  cbn [expression_n]. apply (in_expression_f (expression_n n) (expression_n n') (IH n')); auto.
Qed.
Lemma in_expression i d : step (X d) (X d) (expression i) (expression i).
Proof. intros s s' Hs. apply in_expression_n. exact Hs. Qed.
End Alone.
