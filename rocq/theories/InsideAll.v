(** * Inside brackets: types and expressions do not depend on what follows the last bracket *)
From Verif Require Import Base Nom Regex Ast Good Spec Helpers Types Expr Lexers Total Layout Follow LexProps TwoRuns RenameSim Whole Steps Indep IndepAll Inside Heads Seqs Rename.

Ltac go := eapply step_bind; [|intros ?].
Section Inside.
Variables v v' : str.
Notation X d := (in_ on (S d) v v').
Notation Y d := (in_ on d v v').

Lemma in_list d (A D : Type) (sep sep' : parser D) (p p' : parser A) :
  step (X d) (X d) sep sep' -> step (X d) (X d) p p' -> step (X d) (X d) (separated_list sep p) (separated_list sep' p').
Proof. intros H1 H2. apply step_separated_list_at; [apply step_sep, H1|exact H2]. Qed.
Lemma in_list1 d (A D : Type) (sep sep' : parser D) (p p' : parser A) :
  step (X d) (X d) sep sep' -> step (X d) (X d) p p' -> step (X d) (X d) (separated_nonempty_list sep p) (separated_nonempty_list sep' p').
Proof. intros H1 H2. apply step_separated_nonempty_at; [apply step_sep, H1|exact H2]. Qed.
Lemma in_opt_sp d i : step (X d) (X d) (opt_sp i) (opt_sp i).
Proof. unfold opt_sp. apply step_opt, in_sp_on. Qed.
Lemma in_opt_spaces d i : step (X d) (X d) (opt_spaces_or_new_lines_and_indent i IR_GTE) (opt_spaces_or_new_lines_and_indent i IR_GTE).
Proof. unfold opt_spaces_or_new_lines_and_indent. apply step_map, in_opt_sp. Qed.
Lemma in_comma_sep d i : step (X d) (X d) (comma_sep i) (comma_sep i).
Proof. unfold comma_sep. eapply step_delimited; [apply in_opt_sp|apply in_comma|apply in_opt_sp]. Qed.
Lemma in_symbol d c : is_op_char c = true -> c <> C "-" -> step (X d) (X d) (char_ c) (char_ c).
Proof. apply in_op_char. Qed.
Ltac symbol := apply in_symbol; [reflexivity|discriminate].
Lemma in_dots d : step (X d) (X d) (separated_nonempty_list (char_ (C ".")) up_name) (separated_nonempty_list (char_ (C ".")) up_name).
Proof. apply in_list1; [symbol|apply in_up_name]. Qed.
Lemma shut_at d i c : is_close c = true -> step (X d) (Y d) (terminated (opt_sp i) (char_ c)) (terminated (opt_sp i) (char_ c)).
Proof. intros Hc. eapply step_terminated; [apply in_opt_sp|apply in_close, Hc]. Qed.
Lemma open_sp d i c : is_open c = true -> step (place v v' d) (X d) (preceded (char_ c) (opt_sp i)) (preceded (char_ c) (opt_sp i)).
Proof. intros Hc. eapply step_preceded; [apply open_on, Hc|apply in_opt_sp]. Qed.

Section T.
  Variables T T' : N -> parser type_ast.
  Hypothesis HT : forall i d, step (X d) (X d) (T i) (T' i).
  Lemma in_annotation_f i d : step (X d) (X d) (type_annotation_f T i) (type_annotation_f T' i).
  Proof. unfold type_annotation_f. apply step_map_res, in_list1; [|apply HT]. eapply step_delimited; [apply in_spnl|apply in_arrow|apply in_spnl]. Qed.
  Lemma at_type_tuple_f i d : step (place v v' d) (Y d) (type_tuple_f T i) (type_tuple_f T' i).
  Proof.
    unfold type_tuple_f. apply step_map. eapply step_delimited; [apply open_sp; reflexivity| |apply shut_at; reflexivity].
    apply in_list; [apply in_comma_sep|apply HT].
  Qed.
  Lemma in_pairs_f i d : step (X d) (X d) (type_record_pairs_f T i) (type_record_pairs_f T' i).
  Proof.
    apply in_list; [apply in_comma_sep|]. unfold type_record_pair_f. go; [apply in_lo_name|]. go; [apply in_opt_sp|]. go; [symbol|].
    go; [apply in_opt_sp|]. go; [apply in_annotation_f|apply step_ret].
  Qed.
  Lemma at_extension_f i d : step (place v v' d) (Y d) (type_record_constructor_f T i) (type_record_constructor_f T' i).
  Proof.
    unfold type_record_constructor_f. eapply step_delimited; [apply open_on; reflexivity| |apply in_close; reflexivity].
    go; [apply in_sp_on|]. go; [apply in_type_variable|]. go; [apply in_sp_on|]. go; [symbol|]. go; [apply in_sp_on|]. go; [apply in_pairs_f|].
    go; [apply in_sp_on|apply step_ret].
  Qed.
  Lemma at_type_record_f i d : step (place v v' d) (Y d) (type_record_f T i) (type_record_f T' i).
  Proof. unfold type_record_f. eapply step_delimited; [apply open_sp; reflexivity|apply step_map, in_pairs_f|apply shut_at; reflexivity]. Qed.
  Lemma at_type_parens_f i d : step (place v v' d) (Y d) (type_parens_f T i) (type_parens_f T' i).
  Proof. unfold type_parens_f. eapply step_delimited; [apply open_sp; reflexivity|apply in_annotation_f|apply shut_at; reflexivity]. Qed.
  Lemma at_bracket_type i d : step (place v v' d) (Y d)
    (type_record_constructor_f T i <|> type_record_f T i <|> type_tuple_f T i <|> type_parens_f T i)
    (type_record_constructor_f T' i <|> type_record_f T' i <|> type_tuple_f T' i <|> type_parens_f T' i).
  Proof. apply step_alt; [apply at_extension_f|]. apply step_alt; [apply at_type_record_f|]. apply step_alt; [apply at_type_tuple_f|apply at_type_parens_f]. Qed.
  Lemma in_parameter_f i d : step (X d) (X d) (type_parameter_f T i) (type_parameter_f T' i).
  Proof.
    unfold type_parameter_f, type_constant. apply step_alt; [apply in_type_variable|]. apply step_alt; [apply step_map, in_dots|].
    exact (at_bracket_type i (S d)).
  Qed.
  Lemma in_type_f i d : step (X d) (X d) (type_f T i) (type_f T' i).
  Proof.
    unfold type_f. apply step_alt; [|apply step_alt; [apply in_type_variable|exact (at_bracket_type i (S d))]].
    unfold type_constructor_f. go; [apply in_dots|]. go; [|apply step_ret]. apply step_many0. go; [apply in_sp_on|]. go; [apply in_parameter_f|apply step_ret].
  Qed.
End T.
Lemma in_type_n n : forall n' i d, step (X d) (X d) (type_n n i) (type_n n' i).
Proof.
  induction n as [|n IH]; intros [|n'] i d s s' Hs; try exact I; [apply agree_abort|]. cbn [type_n]. apply (in_type_f (type_n n) (type_n n') (IH n')). exact Hs.
Qed.
Lemma in_annotation i d : step (X d) (X d) (type_annotation i) (type_annotation i).
Proof. apply in_annotation_f. intros j e s s' Hs. apply in_type_n. exact Hs. Qed.

(** ** Expressions *)
Lemma at_op d : step (place v v' d) (Y d) op op.
Proof.
  unfold op. apply step_map. eapply step_delimited; [apply open_code| |apply in_close; reflexivity].
  apply step_alt; [apply in_operator|eapply step_in; [|apply in_commas]; wide].
Qed.
Lemma in_variable d : step (X d) (X d) variable variable.
Proof.
  unfold variable, lower_case, upper_with_dots. apply step_alt; [apply step_map, in_lo_name|].
  apply step_alt; [apply step_map, in_dots|exact (at_op (S d))].
Qed.
Lemma in_access d : step (X d) (X d) access access.
Proof.
  unfold access. go; [apply in_variable|]. go; [|apply step_ret]. apply step_many1. go; [symbol|]. go; [apply in_lo_name|apply step_ret].
Qed.
Lemma in_access_function d : step (X d) (X d) access_function access_function.
Proof. unfold access_function. go; [symbol|]. go; [apply in_lo_name|apply step_ret]. Qed.
Lemma in_binding_name d : step (X d) (X d) binding_name binding_name.
Proof.
  unfold binding_name. apply step_alt; [apply in_lo_name|].
  eapply step_delimited; [exact (open_code v v' (S d))|apply in_operator|apply (in_close v v' (S d)); reflexivity].
Qed.
Lemma in_signature i d : step (X d) (X d) (function_signature i) (function_signature i).
Proof.
  unfold function_signature. go; [apply in_binding_name|]. go; [apply in_spaces|]. go; [symbol|]. go; [apply in_sp_on|]. go; [apply in_annotation|apply step_ret].
Qed.

Section E.
  Variables E E' : N -> parser expr.
  Hypothesis HE : forall i d, step (X d) (X d) (E i) (E' i).
  Lemma at_tuple_f i d : step (place v v' d) (Y d) (tuple_f E i) (tuple_f E' i).
  Proof.
    unfold tuple_f. apply step_map. eapply step_delimited; [apply open_on; reflexivity| |apply in_close; reflexivity].
    apply in_list; [apply in_comma|]. eapply step_delimited; [apply in_multispace0|apply HE|apply in_multispace0].
  Qed.
  Lemma at_list_f i d : step (place v v' d) (Y d) (list_f E i) (list_f E' i).
  Proof.
    unfold list_f. apply step_map. eapply step_delimited; [apply open_sp; reflexivity| |apply shut_at; reflexivity].
    apply step_opt, in_list; [apply in_comma_sep|apply HE].
  Qed.
  Lemma at_record_f i d : step (place v v' d) (Y d) (record_f E i) (record_f E' i).
  Proof.
    unfold record_f. apply step_map. eapply step_delimited; [apply open_sp; reflexivity| |apply shut_at; reflexivity].
    apply in_list; [apply in_comma_sep|]. unfold record_field_f, separated_pair. go; [apply in_lo_name|]. go.
    - eapply step_delimited; [apply in_opt_sp|symbol|apply in_opt_sp].
    - go; [apply HE|apply step_ret].
  Qed.
  Lemma at_simplified_record d : step (place v v' d) (Y d) simplified_record simplified_record.
  Proof.
    unfold simplified_record, simplified_field. apply step_map. eapply step_delimited; [apply open_on; reflexivity| |apply in_close; reflexivity].
    apply in_list; [apply in_comma|]. go; [apply in_multispace0|]. go; [apply in_lo_name|]. go; [apply in_multispace0|apply step_ret].
  Qed.
  Lemma at_record_update_f i d : step (place v v' d) (Y d) (record_update_f E i) (record_update_f E' i).
  Proof.
    unfold record_update_f. eapply step_delimited.
    - eapply step_preceded; [apply open_on; reflexivity|apply in_opt_spaces].
    - go; [apply in_lo_name|]. go; [apply in_opt_spaces|]. go; [symbol|]. go; [apply in_multispace0|].
      go; [|apply step_ret]. apply in_list.
      + eapply step_delimited; [apply in_opt_spaces|apply in_comma|apply in_opt_spaces].
      + unfold update_field_f. go; [apply in_lo_name|]. go; [apply in_multispace0|]. go; [symbol|]. go; [apply in_multispace0|]. go; [apply HE|apply step_ret].
    - eapply step_terminated; [apply in_sp_on|apply in_close; reflexivity].
  Qed.
  Lemma at_parens_f i d : step (place v v' d) (Y d) (parens_f E i) (parens_f E' i).
  Proof. unfold parens_f. eapply step_delimited; [apply open_on; reflexivity|apply HE|apply in_close; reflexivity]. Qed.
  (** a term in brackets, except operators *)
  Definition bracket_term (F : N -> parser expr) (i : N) : parser expr :=
    parens_f F i <|> list_f F i <|> tuple_f F i <|> record_update_f F i <|> record_f F i <|> simplified_record.
  Lemma at_bracket_term i d : step (place v v' d) (Y d) (bracket_term E i) (bracket_term E' i).
  Proof.
    unfold bracket_term. apply step_alt; [apply at_parens_f|]. apply step_alt; [apply at_list_f|]. apply step_alt; [apply at_tuple_f|].
    apply step_alt; [apply at_record_update_f|]. apply step_alt; [apply at_record_f|apply at_simplified_record].
  Qed.
  Lemma in_term_f i d : step (X d) (X d) (term_f E i) (term_f E' i).
  Proof.
    unfold term_f. apply step_alt; [apply in_access|]. apply step_alt; [apply in_variable|]. apply step_alt; [apply in_access_function|].
    apply step_alt; [apply in_string|]. apply step_alt; [apply in_float|]. apply step_alt; [apply in_integer|]. apply step_alt; [apply in_character|].
    exact (at_bracket_term i (S d)).
  Qed.
  Lemma in_arrow_tail i d {A} (g : expr -> A) : step (X d) (X d)
    (tag (L "->") ;;; n <- spaces_or_new_lines_and_indent i IR_GTE ;; e <- E n ;; ret (g e))
    (tag (L "->") ;;; n <- spaces_or_new_lines_and_indent i IR_GTE ;; e <- E' n ;; ret (g e)).
  Proof. go; [apply in_arrow|]. go; [apply in_sp_on|]. go; [apply HE|apply step_ret]. Qed.
  Lemma in_lambda_f i d : step (X d) (X d) (lambda_f E i) (lambda_f E' i).
  Proof.
    unfold lambda_f. go; [symbol|]. go; [apply in_list1; [apply in_space1|apply in_term_f]|]. go; [apply in_sp_on|]. apply in_arrow_tail.
  Qed.
  Lemma in_application_f i d : step (X d) (X d) (application_or_var_f E i) (application_or_var_f E' i).
  Proof. unfold application_or_var_f. apply step_map_res, in_list; [apply in_sp_on|apply in_term_f]. Qed.
  Lemma in_function_f i d : step (X d) (X d) (function_f E i) (function_f E' i).
  Proof.
    unfold function_f, function_definition_f. go; [apply step_opt; eapply step_terminated; [apply in_signature|apply in_same_indent]|].
    go; [|apply step_ret]. go; [apply in_binding_name|]. go; [apply step_many0; eapply step_preceded; [apply in_spaces|apply in_term_f]|].
    go; [apply in_spaces|]. go; [symbol|]. go; [apply in_sp_on|]. go; [apply HE|apply step_ret].
  Qed.
  Lemma in_let_binding_f i d : step (X d) (X d) (let_binding_f E i) (let_binding_f E' i).
  Proof.
    unfold let_binding_f, let_binding_target_f.
    go; [apply step_alt; [apply in_variable|apply step_alt; [exact (at_list_f i (S d))|apply step_alt; [exact (at_tuple_f i (S d))|exact (at_simplified_record (S d))]]]|].
    go; [apply in_sp_on|]. go; [symbol|]. go; [apply in_sp_on|]. go; [apply HE|apply step_ret].
  Qed.
  Lemma in_let_f i d : step (X d) (X d) (let_expression_f E i) (let_expression_f E' i).
  Proof.
    unfold let_expression_f, let_bindings_f. go; [apply in_word; reflexivity|]. go; [apply in_sp_on|].
    go; [apply in_list1; [apply in_sp_on|]; apply step_alt; [apply in_let_binding_f|apply step_map, in_function_f]|].
    go; [apply in_sp_on|]. go; [apply in_word; reflexivity|]. go; [apply in_sp_on|]. go; [apply HE|apply step_ret].
  Qed.
  Lemma in_case_f i d : step (X d) (X d) (case_f E i) (case_f E' i).
  Proof. unfold case_f. go; [apply HE|]. go; [apply in_sp_on|]. apply in_arrow_tail. Qed.
  Lemma in_case_expression_f i d : step (X d) (X d) (case_expression_f E i) (case_expression_f E' i).
  Proof.
    unfold case_expression_f, cases_f. go; [apply in_word; reflexivity|]. go; [apply in_sp_on|]. go; [apply HE|]. go; [apply in_sp_on|].
    go; [apply in_word; reflexivity|]. go; [apply in_sp_on|]. go; [apply in_list1; [apply in_sp_on|apply in_case_f]|apply step_ret].
  Qed.
  Lemma in_if_f i d : step (X d) (X d) (if_expression_f E i) (if_expression_f E' i).
  Proof.
    unfold if_expression_f. go; [apply in_word; reflexivity|]. go; [apply in_sp_on|]. go; [apply HE|]. go; [apply in_sp_on|].
    go; [apply in_word; reflexivity|]. go; [apply in_sp_on|]. go; [apply HE|]. go; [apply in_sp_on|].
    go; [apply in_word; reflexivity|]. go; [apply in_sp_on|]. go; [apply HE|apply step_ret].
  Qed.
  Lemma in_operator_exp_f i d : step (X d) (X d) (operator_exp_f E i) (operator_exp_f E' i).
  Proof.
    unfold operator_exp_f, operator_or_as. go; [apply in_sp|]. go; [apply step_map, step_alt; [apply in_word; reflexivity|apply in_operator]|].
    go; [apply in_multispace|]. go; [apply HE|apply step_ret].
  Qed.
  Lemma in_expression_f i d : step (X d) (X d) (expression_f E i) (expression_f E' i).
  Proof.
    unfold expression_f, binary_f.
    apply step_alt; [go; [apply in_application_f|]; go; [apply step_opt, in_operator_exp_f|apply step_ret]|].
    apply step_alt; [apply in_let_f|]. apply step_alt; [apply in_case_expression_f|]. apply step_alt; [apply in_if_f|apply in_lambda_f].
  Qed.
End E.
Lemma in_expression_n n : forall n' i d, step (X d) (X d) (expression_n n i) (expression_n n' i).
Proof.
  induction n as [|n IH]; intros [|n'] i d s s' Hs; try exact I; [apply agree_abort|].
  cbn [expression_n]. apply (in_expression_f (expression_n n) (expression_n n') (IH n')); auto.
Qed.
Lemma in_expression i d : step (X d) (X d) (expression i) (expression i).
Proof. intros s s' Hs. apply in_expression_n. exact Hs. Qed.
End Inside.

(** ** At the top *)
Lemma open_cases c : is_open c = true -> c = C "(" \/ c = C "[" \/ c = C "{".
Proof. intros H. apply mem_char_In in H. destruct H as [<-|[<-|[<-|[]]]]; auto. Qed.
Definition no_dot (v : str) : Prop := ends (fun c => (c =? C ".")%N) v.
Lemma dead_alt {A} (p q : parser A) s : p s = Err -> (p <|> q) s = q s.
Proof. unfold alt. intros ->. reflexivity. Qed.
Section Top.
Variables (v v' : str) (c : char) (w : str).
Hypotheses (Hc : is_open c = true) (Hd : c = C "(" -> ~ dashes w) (Hw : closes 1 w).
Lemma top_here : top v v' (c :: w ++ v) (c :: w ++ v').
Proof. exists c, w. auto. Qed.
Lemma no_name u : lo_name (c :: u) = Err /\ separated_nonempty_list (char_ (C ".")) up_name (c :: u) = Err /\ type_variable (c :: u) = Err.
Proof.
  repeat split.
  - eapply heads_Err; [apply heads_lo_name|oks|]. cbn [ends]. destruct (open_cases c Hc) as [->|[->| ->]]; reflexivity.
  - eapply heads_Err; [apply heads_sep, heads_up_name|oks|]. cbn [ends]. destruct (open_cases c Hc) as [->|[->| ->]]; reflexivity.
  - eapply heads_Err; [apply heads_type_variable|oks|]. cbn [ends]. destruct (open_cases c Hc) as [->|[->| ->]]; reflexivity.
Qed.
Lemma variable_is_op u : variable (c :: u) = op (c :: u).
Proof.
  destruct (no_name u) as (H1 & H2 & _). unfold variable, lower_case, upper_with_dots, alt, map_. rewrite H1, H2. reflexivity.
Qed.
Lemma type_is_bracket i u : type_ i (c :: u) =
  (type_record_constructor_f (type_n (length (c :: u))) i <|> type_record_f (type_n (length (c :: u))) i <|> type_tuple_f (type_n (length (c :: u))) i <|> type_parens_f (type_n (length (c :: u))) i) (c :: u).
Proof.
  destruct (no_name u) as (_ & H2 & H3). unfold type_. cbn [type_n]. unfold type_f, type_constructor_f.
  rewrite dead_alt by (unfold bind; rewrite H2; reflexivity). rewrite dead_alt by exact H3. reflexivity.
Qed.
Lemma top_type i : agree (in_ on 0 v v') (c :: w ++ v) (c :: w ++ v') (type_ i (c :: w ++ v)) (type_ i (c :: w ++ v')).
Proof.
  rewrite !type_is_bracket. generalize (length (c :: w ++ v)), (length (c :: w ++ v')). intros n n'.
  apply (at_bracket_type v v' (type_n n) (type_n n') (in_type_n v v' n n') i 0). exact top_here.
Qed.
Lemma term_is_bracket i u : term i (c :: u) = (access <|> op <|> bracket_term expression i) (c :: u).
Proof.
  unfold term, term_f, bracket_term.
  assert (H : access_function (c :: u) = Err /\ string_ (c :: u) = Err /\ float (c :: u) = Err /\ integer (c :: u) = Err /\ character (c :: u) = Err)
    by (repeat split; (eapply heads_Err; [first [apply heads_access_function|apply heads_string|apply heads_float|apply heads_integer|apply heads_character]|oks|]);
        cbn [ends]; destruct (open_cases c Hc) as [->|[->| ->]]; reflexivity).
  destruct H as (H1 & H2 & H3 & H4 & H5). unfold alt. rewrite (variable_is_op u), H1, H2, H3, H4, H5. reflexivity.
Qed.
Lemma op_text s r a : op s = Ok r a -> exists o, s = L "(" ++ o ++ L ")" ++ r /\ forallb (fun x => is_op_char x || (x =? C ",")%N) o = true.
Proof.
  unfold op. intros H. apply map_Ok in H as (o & H & _). unfold delimited in H. apply bind_Ok in H as (s1 & x & Hx & H).
  apply char_word in Hx as (t & -> & (-> & _) & _). apply bind_Ok in H as (s2 & y & Hy & H). apply bind_Ok in H as (s3 & z & Hz & H).
  apply char_word in Hz as (t & -> & (-> & _) & _). injection H as -> ->. exists o. apply alt_Ok in Hy as [Hy|[_ Hy]].
  - apply operator_iff in Hy as (-> & (_ & Ho & _) & _). split; [reflexivity|]. eapply forallb_imp; [|exact Ho]. intros k ->. reflexivity.
  - apply take1_word in Hy as (t & -> & (-> & _ & Ho) & _). split; [reflexivity|]. eapply forallb_imp; [|exact Ho].
    intros k Hk. cbn in Hk. rewrite orb_false_r in Hk. apply orb_true_iff. right. first [exact Hk|rewrite N.eqb_sym; exact Hk].
Qed.
Lemma top_term i : (forall o, c :: w = L "(" ++ o ++ L ")" -> forallb (fun x => is_op_char x || (x =? C ",")%N) o = true -> no_dot v /\ no_dot v') ->
  agree (in_ on 0 v v') (c :: w ++ v) (c :: w ++ v') (term i (c :: w ++ v)) (term i (c :: w ++ v')).
Proof.
  intros Hv. rewrite !term_is_bracket.
  assert (Hop : agree (in_ on 0 v v') (c :: w ++ v) (c :: w ++ v') (op (c :: w ++ v)) (op (c :: w ++ v'))) by (apply (at_op v v' 0), top_here).
  assert (Hb : agree (in_ on 0 v v') (c :: w ++ v) (c :: w ++ v') (bracket_term expression i (c :: w ++ v)) (bracket_term expression i (c :: w ++ v')))
    by (apply (at_bracket_term v v' expression expression (in_expression v v') i 0), top_here).
  assert (Ha : agree (in_ on 0 v v') (c :: w ++ v) (c :: w ++ v') (access (c :: w ++ v)) (access (c :: w ++ v'))).
  { unfold access, bind. rewrite !variable_is_op.
    assert (K : forall u, no_dot u -> many1 (char_ (C ".") ;;; name <- lo_name ;; ret name) u = Err).
    { intros u Hu. destruct u as [|x u]; [reflexivity|]. cbn in Hu. unfold many1, bind, char_ at 1. rewrite Hu. reflexivity. }
    unfold bind in K. destruct (op (c :: w ++ v)) as [r a| |] eqn:E1, (op (c :: w ++ v')) as [r' a'| |]; cbn in Hop; try tauto; try apply agree_abort.
    destruct Hop as (_ & (w0 & H0 & _ & -> & ->) & _). inversion H0; subst. cbn [app]. cbn [app] in E1. apply op_text in E1 as (o & E1 & Ho).
    destruct (Hv o) as [N1 N2]; [|exact Ho|rewrite (K v N1), (K v' N2); exact I].
    rewrite !app_assoc in E1. change (c :: w ++ v) with ((c :: w) ++ v) in E1. apply app_inv_tail in E1. rewrite E1, <- app_assoc. reflexivity. }
  unfold alt. destruct (access (c :: w ++ v)) as [r a| |], (access (c :: w ++ v')) as [r' a'| |]; try exact Ha; cbn in Ha; try tauto; try apply agree_abort.
  destruct (op (c :: w ++ v)) as [r1 a1| |], (op (c :: w ++ v')) as [r1' a1'| |]; try exact Hop; cbn in Hop; try tauto; try apply agree_abort; auto.
Qed.
Lemma agree_top {A} (x y : res A) : (forall m, x <> Abort m) -> (forall m, y <> Abort m) ->
  agree (in_ on 0 v v') (c :: w ++ v) (c :: w ++ v') x y -> (exists a, x = Ok v a /\ y = Ok v' a) \/ (x = Err /\ y = Err).
Proof.
  intros Hx Hy. destruct x as [r a| |m], y as [r' a'| |m']; cbn; try tauto; try (destruct (Hx m eq_refl)); try (destruct (Hy m' eq_refl)).
  intros (<- & (w0 & H0 & _ & -> & ->) & _). inversion H0; subst. left. eauto.
Qed.
End Top.
