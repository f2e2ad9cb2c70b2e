(** * Facts about the effects of a parse *)
From Verif Require Import Base Nom Regex Ast Good Spec Helpers Types Expr Stmt Lexers Total
  Layout Seqs LexProps Trace.

(** ** Forgetting the events gives the parsers of the other files *)

Definition erases {A} (p' : tparser A) (p : parser A) : Prop := forall s, fst (p' s) = p s.

Lemma er_quiet {A} (p : parser A) : erases (quiet p) p.
Proof. intros s. reflexivity. Qed.
Lemma er_bind {A B} p' (p : parser A) f' (f : A -> parser B) :
  erases p' p -> (forall a, erases (f' a) (f a)) -> erases (bind_t p' f') (bind p f).
Proof.
  intros Hp Hf s. unfold bind_t, bind. rewrite <- (Hp s). destruct (p' s) as [[r a| |w] t]; try reflexivity.
  cbn [fst]. rewrite <- (Hf a r). destruct (f' a r). reflexivity.
Qed.
Lemma er_map {A B} (f : A -> B) p' p : erases p' p -> erases (map_t f p') (map_ f p).
Proof. intros Hp s. unfold map_t, map_. rewrite <- (Hp s). destruct (p' s) as [[r a| |w] t]; reflexivity. Qed.
Lemma er_map_res {A B} (f : A -> option B) p' p : erases p' p -> erases (map_res_t f p') (map_res f p).
Proof. intros Hp s. unfold map_res_t, map_res. rewrite <- (Hp s). destruct (p' s) as [[r a| |w] t]; reflexivity. Qed.
Lemma er_map_res_print p : erases (map_res_print p) (map_res (fun r => r) p).
Proof. intros s. unfold map_res_print, map_res. destruct (p s) as [r a| |w]; reflexivity. Qed.
Lemma er_alt {A} p' (p : parser A) q' q : erases p' p -> erases q' q -> erases (p' <||> q') (p <|> q).
Proof.
  intros Hp Hq s. unfold alt_t, alt. rewrite <- (Hp s). destruct (p' s) as [[r a| |w] t]; try reflexivity.
  cbn [fst]. rewrite <- (Hq s). destruct (q' s). reflexivity.
Qed.
Lemma er_opt {A} p' (p : parser A) : erases p' p -> erases (opt_t p') (opt p).
Proof. intros Hp s. unfold opt_t, opt. rewrite <- (Hp s). destruct (p' s) as [[r a| |w] t]; reflexivity. Qed.
Lemma er_many0 {A} p' (p : parser A) : erases p' p -> erases (many0_t p') (many0 p).
Proof.
  intros Hp s. unfold many0_t, many0. generalize (S (length s)). intros n. revert s.
  induction n as [|n IH]; intros s; [reflexivity|]. cbn [many0_loop_t many0_loop]. rewrite <- (Hp s).
  destruct (p' s) as [[r a| |w] t]; try reflexivity. cbn [fst].
  destruct (length r =? length s); [reflexivity|]. rewrite <- (IH r).
  destruct (many0_loop_t n p' r) as [[r' l| |w] t']; reflexivity.
Qed.
Lemma er_sep_loop {A B} sep' (sep : parser B) p' (p : parser A) : erases sep' sep -> erases p' p ->
  forall n s, fst (sep_loop_t n sep' p' s) = sep_loop n sep p s.
Proof.
  intros Hs Hp. induction n as [|n IH]; intros s; [reflexivity|]. cbn [sep_loop_t sep_loop].
  rewrite <- (Hs s). destruct (sep' s) as [[s2 x| |w] t]; try reflexivity. cbn [fst].
  destruct (length s2 =? length s); [reflexivity|]. rewrite <- (Hp s2).
  destruct (p' s2) as [[s3 a| |w] t2]; try reflexivity. cbn [fst].
  destruct (length s3 =? length s2); [reflexivity|]. rewrite <- (IH s3).
  destruct (sep_loop_t n sep' p' s3) as [[r l| |w] t3]; reflexivity.
Qed.
Lemma er_sep0 {A B} sep' (sep : parser B) p' (p : parser A) : erases sep' sep -> erases p' p ->
  erases (separated_list_t sep' p') (separated_list sep p).
Proof.
  intros Hs Hp s. unfold separated_list_t, separated_list. rewrite <- (Hp s).
  destruct (p' s) as [[r a| |w] t]; try reflexivity. cbn [fst].
  destruct (length r =? length s); [reflexivity|].
  rewrite <- (er_sep_loop _ _ _ _ Hs Hp). destruct (sep_loop_t _ sep' p' r) as [[r' l| |w] t']; reflexivity.
Qed.
Lemma er_sep1 {A B} sep' (sep : parser B) p' (p : parser A) : erases sep' sep -> erases p' p ->
  erases (separated_nonempty_list_t sep' p') (separated_nonempty_list sep p).
Proof.
  intros Hs Hp s. unfold separated_nonempty_list_t, separated_nonempty_list. rewrite <- (Hp s).
  destruct (p' s) as [[r a| |w] t]; try reflexivity. cbn [fst].
  destruct (length r =? length s); [reflexivity|].
  rewrite <- (er_sep_loop _ _ _ _ Hs Hp). destruct (sep_loop_t _ sep' p' r) as [[r' l| |w] t']; reflexivity.
Qed.
#[export] Hint Resolve er_quiet er_map_res_print : erdb.
Ltac er :=
  unfold preceded_t, preceded, terminated_t, terminated, delimited_t, delimited, separated_pair_t, separated_pair;
  repeat (first
    [ solve [auto with erdb]
    | apply er_bind | apply er_map | apply er_map_res | apply er_alt | apply er_opt | apply er_many0
    | apply er_sep0 | apply er_sep1 | intros ]).

Section T.
  Variables (T' : N -> tparser type_ast) (T : N -> parser type_ast).
  Hypothesis HT : forall i, erases (T' i) (T i).
  Hint Resolve HT : erdb.
  Lemma er_type_annotation_f i : erases (type_annotation_f_t T' i) (type_annotation_f T i).
  Proof. unfold type_annotation_f_t, type_annotation_f. er. Qed.
  Hint Resolve er_type_annotation_f : erdb.
  Lemma er_type_tuple_f i : erases (type_tuple_f_t T' i) (type_tuple_f T i).
  Proof. unfold type_tuple_f_t, type_tuple_f. er. Qed.
  Hint Resolve er_type_tuple_f : erdb.
  Lemma er_type_record_pair_f i : erases (type_record_pair_f_t T' i) (type_record_pair_f T i).
  Proof. unfold type_record_pair_f_t, type_record_pair_f. er. Qed.
  Hint Resolve er_type_record_pair_f : erdb.
  Lemma er_type_record_pairs_f i : erases (type_record_pairs_f_t T' i) (type_record_pairs_f T i).
  Proof. unfold type_record_pairs_f_t, type_record_pairs_f. er. Qed.
  Hint Resolve er_type_record_pairs_f : erdb.
  Lemma er_type_record_constructor_f i : erases (type_record_constructor_f_t T' i) (type_record_constructor_f T i).
  Proof. unfold type_record_constructor_f_t, type_record_constructor_f. er. Qed.
  Hint Resolve er_type_record_constructor_f : erdb.
  Lemma er_type_record_f i : erases (type_record_f_t T' i) (type_record_f T i).
  Proof. unfold type_record_f_t, type_record_f. er. Qed.
  Hint Resolve er_type_record_f : erdb.
  Lemma er_type_parens_f i : erases (type_parens_f_t T' i) (type_parens_f T i).
  Proof. unfold type_parens_f_t, type_parens_f. er. Qed.
  Hint Resolve er_type_parens_f : erdb.
  Lemma er_type_parameter_f i : erases (type_parameter_f_t T' i) (type_parameter_f T i).
  Proof. unfold type_parameter_f_t, type_parameter_f. er. Qed.
  Hint Resolve er_type_parameter_f : erdb.
  Lemma er_type_constructor_f i : erases (type_constructor_f_t T' i) (type_constructor_f T i).
  Proof. unfold type_constructor_f_t, type_constructor_f. er. Qed.
  Hint Resolve er_type_constructor_f : erdb.
  Lemma er_type_f i : erases (type_f_t T' i) (type_f T i).
  Proof. unfold type_f_t, type_f. er. Qed.
  Hint Resolve er_type_f : erdb.
End T.
Lemma er_type_n n i s : fst (type_n_t n i s) = type_n n i s.
Proof.
  revert i s. induction n as [|n IH]; intros i s; [reflexivity|]. cbn [type_n_t type_n].
  rewrite <- (er_type_f _ _ (fun i s => IH i s) i s). destruct (type_f_t (type_n_t n) i s). reflexivity.
Qed.
Lemma er_type_ i : erases (type__t i) (type_ i).
Proof. intros s. apply er_type_n. Qed.
#[export] Hint Resolve er_type_ : erdb.
Lemma er_type_annotation i : erases (type_annotation_t i) (type_annotation i).
Proof. unfold type_annotation_t, type_annotation. er. Qed.
#[export] Hint Resolve er_type_annotation : erdb.
Lemma er_type_constructor i : erases (type_constructor_t i) (type_constructor i).
Proof. unfold type_constructor_t, type_constructor. er. Qed.
#[export] Hint Resolve er_type_constructor : erdb.
Lemma er_character_content : erases (character_content_t) (character_content).
Proof. unfold character_content_t, character_content. er. Qed.
#[export] Hint Resolve er_character_content : erdb.
Lemma er_character : erases (character_t) (character).
Proof. unfold character_t, character. er. Qed.
#[export] Hint Resolve er_character : erdb.
Lemma er_function_signature i : erases (function_signature_t i) (function_signature i).
Proof. unfold function_signature_t, function_signature. er. Qed.
#[export] Hint Resolve er_function_signature : erdb.
Section E.
  Variables (E' : N -> tparser expr) (E : N -> parser expr).
  Hypothesis HE : forall i, erases (E' i) (E i).
  Hint Resolve HE : erdb.
  Lemma er_tuple_f i : erases (tuple_f_t E' i) (tuple_f E i).
  Proof. unfold tuple_f_t, tuple_f. er. Qed.
  Hint Resolve er_tuple_f : erdb.
  Lemma er_list_f i : erases (list_f_t E' i) (list_f E i).
  Proof. unfold list_f_t, list_f. er. Qed.
  Hint Resolve er_list_f : erdb.
  Lemma er_record_field_f i : erases (record_field_f_t E' i) (record_field_f E i).
  Proof. unfold record_field_f_t, record_field_f. er. Qed.
  Hint Resolve er_record_field_f : erdb.
  Lemma er_record_f i : erases (record_f_t E' i) (record_f E i).
  Proof. unfold record_f_t, record_f. er. Qed.
  Hint Resolve er_record_f : erdb.
  Lemma er_update_field_f i : erases (update_field_f_t E' i) (update_field_f E i).
  Proof. unfold update_field_f_t, update_field_f. er. Qed.
  Hint Resolve er_update_field_f : erdb.
  Lemma er_record_update_f i : erases (record_update_f_t E' i) (record_update_f E i).
  Proof. unfold record_update_f_t, record_update_f. er. Qed.
  Hint Resolve er_record_update_f : erdb.
  Lemma er_parens_f i : erases (parens_f_t E' i) (parens_f E i).
  Proof. unfold parens_f_t, parens_f. er. Qed.
  Hint Resolve er_parens_f : erdb.
  Lemma er_term_f i : erases (term_f_t E' i) (term_f E i).
  Proof. unfold term_f_t, term_f. er. Qed.
  Hint Resolve er_term_f : erdb.
  Lemma er_lambda_f i : erases (lambda_f_t E' i) (lambda_f E i).
  Proof. unfold lambda_f_t, lambda_f. er. Qed.
  Hint Resolve er_lambda_f : erdb.
  Lemma er_application_or_var_f i : erases (application_or_var_f_t E' i) (application_or_var_f E i).
  Proof. unfold application_or_var_f_t, application_or_var_f. er. Qed.
  Hint Resolve er_application_or_var_f : erdb.
  Lemma er_function_definition_f i : erases (function_definition_f_t E' i) (function_definition_f E i).
  Proof. unfold function_definition_f_t, function_definition_f. er. Qed.
  Hint Resolve er_function_definition_f : erdb.
  Lemma er_function_f i : erases (function_f_t E' i) (function_f E i).
  Proof. unfold function_f_t, function_f. er. Qed.
  Hint Resolve er_function_f : erdb.
  Lemma er_let_binding_target_f i : erases (let_binding_target_f_t E' i) (let_binding_target_f E i).
  Proof. unfold let_binding_target_f_t, let_binding_target_f. er. Qed.
  Hint Resolve er_let_binding_target_f : erdb.
  Lemma er_let_binding_f i : erases (let_binding_f_t E' i) (let_binding_f E i).
  Proof. unfold let_binding_f_t, let_binding_f. er. Qed.
  Hint Resolve er_let_binding_f : erdb.
  Lemma er_let_bindings_f i : erases (let_bindings_f_t E' i) (let_bindings_f E i).
  Proof. unfold let_bindings_f_t, let_bindings_f. er. Qed.
  Hint Resolve er_let_bindings_f : erdb.
  Lemma er_let_expression_f i : erases (let_expression_f_t E' i) (let_expression_f E i).
  Proof. unfold let_expression_f_t, let_expression_f. er. Qed.
  Hint Resolve er_let_expression_f : erdb.
  Lemma er_case_f i : erases (case_f_t E' i) (case_f E i).
  Proof. unfold case_f_t, case_f. er. Qed.
  Hint Resolve er_case_f : erdb.
  Lemma er_cases_f i : erases (cases_f_t E' i) (cases_f E i).
  Proof. unfold cases_f_t, cases_f. er. Qed.
  Hint Resolve er_cases_f : erdb.
  Lemma er_case_expression_f i : erases (case_expression_f_t E' i) (case_expression_f E i).
  Proof. unfold case_expression_f_t, case_expression_f. er. Qed.
  Hint Resolve er_case_expression_f : erdb.
  Lemma er_if_expression_f i : erases (if_expression_f_t E' i) (if_expression_f E i).
  Proof. unfold if_expression_f_t, if_expression_f. er. Qed.
  Hint Resolve er_if_expression_f : erdb.
  Lemma er_operator_exp_f i : erases (operator_exp_f_t E' i) (operator_exp_f E i).
  Proof. unfold operator_exp_f_t, operator_exp_f. er. Qed.
  Hint Resolve er_operator_exp_f : erdb.
  Lemma er_binary_f i : erases (binary_f_t E' i) (binary_f E i).
  Proof. unfold binary_f_t, binary_f. er. Qed.
  Hint Resolve er_binary_f : erdb.
  Lemma er_expression_f i : erases (expression_f_t E' i) (expression_f E i).
  Proof. unfold expression_f_t, expression_f. er. Qed.
  Hint Resolve er_expression_f : erdb.
End E.
Lemma er_expression_n n i s : fst (expression_n_t n i s) = expression_n n i s.
Proof.
  revert i s. induction n as [|n IH]; intros i s; [reflexivity|]. cbn [expression_n_t expression_n].
  rewrite <- (er_expression_f _ _ (fun i s => IH i s) i s). destruct (expression_f_t (expression_n_t n) i s). reflexivity.
Qed.
Lemma er_expression i : erases (expression_t i) (expression i).
Proof. intros s. apply er_expression_n. Qed.
#[export] Hint Resolve er_expression : erdb.
Lemma er_term i : erases (term_t i) (term i).
Proof. unfold term_t, term. er. Qed.
#[export] Hint Resolve er_term : erdb.
Lemma er_tuple i : erases (tuple_t i) (tuple i).
Proof. unfold tuple_t, tuple. er. Qed.
#[export] Hint Resolve er_tuple : erdb.
Lemma er_list_expr i : erases (list_expr_t i) (list_expr i).
Proof. unfold list_expr_t, list_expr. er. Qed.
#[export] Hint Resolve er_list_expr : erdb.
Lemma er_record i : erases (record_t i) (record i).
Proof. unfold record_t, record. er. Qed.
#[export] Hint Resolve er_record : erdb.
Lemma er_record_update i : erases (record_update_t i) (record_update i).
Proof. unfold record_update_t, record_update. er. Qed.
#[export] Hint Resolve er_record_update : erdb.
Lemma er_parens i : erases (parens_t i) (parens i).
Proof. unfold parens_t, parens. er. Qed.
#[export] Hint Resolve er_parens : erdb.
Lemma er_lambda i : erases (lambda_t i) (lambda i).
Proof. unfold lambda_t, lambda. er. Qed.
#[export] Hint Resolve er_lambda : erdb.
Lemma er_application_or_var i : erases (application_or_var_t i) (application_or_var i).
Proof. unfold application_or_var_t, application_or_var. er. Qed.
#[export] Hint Resolve er_application_or_var : erdb.
Lemma er_binary i : erases (binary_t i) (binary i).
Proof. unfold binary_t, binary. er. Qed.
#[export] Hint Resolve er_binary : erdb.
Lemma er_let_binding i : erases (let_binding_t i) (let_binding i).
Proof. unfold let_binding_t, let_binding. er. Qed.
#[export] Hint Resolve er_let_binding : erdb.
Lemma er_let_bindings i : erases (let_bindings_t i) (let_bindings i).
Proof. unfold let_bindings_t, let_bindings. er. Qed.
#[export] Hint Resolve er_let_bindings : erdb.
Lemma er_let_expression i : erases (let_expression_t i) (let_expression i).
Proof. unfold let_expression_t, let_expression. er. Qed.
#[export] Hint Resolve er_let_expression : erdb.
Lemma er_case_expression i : erases (case_expression_t i) (case_expression i).
Proof. unfold case_expression_t, case_expression. er. Qed.
#[export] Hint Resolve er_case_expression : erdb.
Lemma er_if_expression i : erases (if_expression_t i) (if_expression i).
Proof. unfold if_expression_t, if_expression. er. Qed.
#[export] Hint Resolve er_if_expression : erdb.
Lemma er_function_definition i : erases (function_definition_t i) (function_definition i).
Proof. unfold function_definition_t, function_definition. er. Qed.
#[export] Hint Resolve er_function_definition : erdb.
Lemma er_function i : erases (function_t i) (function i).
Proof. unfold function_t, function. er. Qed.
#[export] Hint Resolve er_function : erdb.
Lemma er_type_alias_declaration : erases (type_alias_declaration_t) (type_alias_declaration).
Proof. unfold type_alias_declaration_t, type_alias_declaration. er. Qed.
#[export] Hint Resolve er_type_alias_declaration : erdb.
Lemma er_type_declaration i : erases (type_declaration_t i) (type_declaration i).
Proof. unfold type_declaration_t, type_declaration. er. Qed.
#[export] Hint Resolve er_type_declaration : erdb.
Lemma er_port_type_declaration : erases (port_type_declaration_t) (port_type_declaration).
Proof. unfold port_type_declaration_t, port_type_declaration. er. Qed.
#[export] Hint Resolve er_port_type_declaration : erdb.
Lemma er_port_declaration : erases (port_declaration_t) (port_declaration).
Proof. unfold port_declaration_t, port_declaration. er. Qed.
#[export] Hint Resolve er_port_declaration : erdb.
Lemma er_statement : erases (statement_t) (statement).
Proof. unfold statement_t, statement. er. Qed.
#[export] Hint Resolve er_statement : erdb.
Lemma er_statements : erases (statements_t) (statements).
Proof. unfold statements_t, statements. er. Qed.
#[export] Hint Resolve er_statements : erdb.
Lemma er_file : erases (file_t) (file).
Proof. unfold file_t, file. er. Qed.
#[export] Hint Resolve er_file : erdb.

(** ** Every parser leaves a suffix of its text *)

Definition leaves {A} (p : parser A) : Prop := forall s r a, p s = Ok r a -> exists u, s = u ++ r.

Lemma lv_trans (s u v r : str) : s = u ++ v -> (exists u', v = u' ++ r) -> exists u', s = u' ++ r.
Proof. intros -> [u' ->]. exists (u ++ u'). rewrite app_assoc. reflexivity. Qed.
Lemma lv_ret {A} (a : A) : leaves (ret a).
Proof. intros s r b [= <- _]. exists []. reflexivity. Qed.
Lemma lv_bind {A B} (p : parser A) (f : A -> parser B) :
  leaves p -> (forall a, leaves (f a)) -> leaves (bind p f).
Proof.
  intros Hp Hf s r b H. apply bind_Ok in H as (s' & a & H1 & H2). apply Hp in H1 as [u ->].
  eapply lv_trans; [reflexivity|]. eapply Hf; eauto.
Qed.
Lemma lv_map {A B} (f : A -> B) p : leaves p -> leaves (map_ f p).
Proof. intros Hp s r b H. apply map_Ok in H as (a & H & _). eapply Hp; eauto. Qed.
Lemma lv_map_res {A B} (f : A -> option B) p : leaves p -> leaves (map_res f p).
Proof. intros Hp s r b H. apply map_res_Ok in H as (a & H & _). eapply Hp; eauto. Qed.
Lemma lv_alt {A} (p q : parser A) : leaves p -> leaves q -> leaves (p <|> q).
Proof. intros Hp Hq s r b H. apply alt_Ok in H as [H|[_ H]]; eauto. Qed.
Lemma lv_opt {A} (p : parser A) : leaves p -> leaves (opt p).
Proof.
  intros Hp s r b. unfold opt. destruct (p s) as [r' a| |] eqn:H; intros [= <- _]; [eauto|].
  exists []. reflexivity.
Qed.
Lemma lv_sep_loop {A B} (sep : parser B) (p : parser A) : leaves sep -> leaves p ->
  forall n s r l, sep_loop n sep p s = Ok r l -> exists u, s = u ++ r.
Proof.
  intros Hs Hp. induction n as [|n IH]; intros s r l; cbn [sep_loop]; [discriminate|].
  assert (Hnil : exists u, s = u ++ s) by (exists []; reflexivity).
  destruct (sep s) as [s2 x| |] eqn:H1; [|intros [= <- _]; exact Hnil|discriminate].
  destruct (length s2 =? length s); [intros [= <- _]; exact Hnil|].
  destruct (p s2) as [s3 a| |] eqn:H2; [|intros [= <- _]; exact Hnil|discriminate].
  destruct (length s3 =? length s2); [intros [= <- _]; exact Hnil|].
  destruct (sep_loop n sep p s3) as [r' l'| |] eqn:H3; [|discriminate|discriminate].
  intros [= <- _]. apply Hs in H1 as [u ->]. eapply lv_trans; [reflexivity|].
  apply Hp in H2 as [v ->]. eapply lv_trans; [reflexivity|]. eapply IH; eauto.
Qed.
Lemma lv_sep0 {A B} (sep : parser B) (p : parser A) : leaves sep -> leaves p ->
  leaves (separated_list sep p).
Proof.
  intros Hs Hp s r l. unfold separated_list. destruct (p s) as [s2 a| |] eqn:H1; [| |discriminate].
  2:{ intros [= <- _]. exists []. reflexivity. }
  destruct (length s2 =? length s); [discriminate|].
  destruct (sep_loop _ sep p s2) as [r' l'| |] eqn:H3; [|discriminate|discriminate].
  intros [= <- _]. apply Hp in H1 as [u ->]. eapply lv_trans; [reflexivity|]. exact (lv_sep_loop sep p Hs Hp _ _ _ _ H3).
Qed.
Lemma lv_sep1 {A B} (sep : parser B) (p : parser A) : leaves sep -> leaves p ->
  leaves (separated_nonempty_list sep p).
Proof.
  intros Hs Hp s r l. unfold separated_nonempty_list. destruct (p s) as [s2 a| |] eqn:H1; [|discriminate|discriminate].
  destruct (length s2 =? length s); [discriminate|].
  destruct (sep_loop _ sep p s2) as [r' l'| |] eqn:H3; [|discriminate|discriminate].
  intros [= <- _]. apply Hp in H1 as [u ->]. eapply lv_trans; [reflexivity|]. exact (lv_sep_loop sep p Hs Hp _ _ _ _ H3).
Qed.
Lemma lv_many1_loop {A} (p : parser A) : leaves p ->
  forall n s r l, many1_loop n p s = Ok r l -> exists u, s = u ++ r.
Proof.
  intros Hp. induction n as [|n IH]; intros s r l; cbn [many1_loop]; [discriminate|].
  assert (Hnil : exists u, s = u ++ s) by (exists []; reflexivity).
  destruct (p s) as [s2 a| |] eqn:H1; [|intros [= <- _]; exact Hnil|discriminate].
  destruct (length s2 =? length s); [intros [= <- _]; exact Hnil|].
  destruct (many1_loop n p s2) as [r' l'| |] eqn:H3; [|discriminate|discriminate].
  intros [= <- _]. apply Hp in H1 as [u ->]. eapply lv_trans; [reflexivity|]. eapply IH; eauto.
Qed.
Lemma lv_many1 {A} (p : parser A) : leaves p -> leaves (many1 p).
Proof.
  intros Hp s r l. unfold many1. destruct (p s) as [s2 a| |] eqn:H1; [|discriminate|discriminate].
  destruct (many1_loop _ p s2) as [r' l'| |] eqn:H3; [|discriminate|discriminate].
  intros [= <- _]. apply Hp in H1 as [u ->]. eapply lv_trans; [reflexivity|]. exact (lv_many1_loop p Hp _ _ _ _ H3).
Qed.
Lemma lv_char c : leaves (char_ c).
Proof. intros s r a H. apply char_Ok in H as [-> _]. exists [c]. reflexivity. Qed.
Lemma lv_tag t : leaves (tag t).
Proof. intros s r a H. apply tag_Ok in H as [-> _]. eauto. Qed.
Lemma lv_take_while1 f : leaves (take_while1 f).
Proof.
  intros s r a. unfold take_while1. destruct (span f s) as [x y] eqn:H. apply span_longest in H as (-> & _).
  destruct x; [discriminate|]. intros [= <- _]. eauto.
Qed.
Lemma lv_take_while0 f : leaves (take_while0 f).
Proof.
  intros s r a. unfold take_while0. destruct (span f s) as [x y] eqn:H. apply span_longest in H as (-> & _).
  intros [= <- _]. eauto.
Qed.
Lemma lv_take n : leaves (take n).
Proof.
  intros s r a. unfold take, need_more, at_eof. destruct (length s <? n); [discriminate|]. intros [= <- _].
  exists (firstn n s). symmetry. apply firstn_skipn.
Qed.
Lemma lv_anychar : leaves anychar.
Proof. intros [|c s] r a; [discriminate|]. intros [= <- _]. exists [c]. reflexivity. Qed.
Lemma lv_eof : leaves eof.
Proof. intros [|c s] r a; [|discriminate]. intros [= <- _]. exists []. reflexivity. Qed.
Lemma lv_sp i ir : leaves (spaces_or_new_lines_and_indent i ir).
Proof. intros s r a H. apply sp_iff in H as (t & (-> & _) & _). eauto. Qed.
Lemma lv_lo_name : leaves lo_name.
Proof.
  intros s r a H. rewrite lo_name_eq in H. destruct s as [|c s]; [discriminate|].
  destruct (c =? C "_")%N; [injection H as <- _; exists [c]; reflexivity|].
  destruct (is_lower c); [|discriminate]. destruct (span is_name_char s) as [x y] eqn:Hs.
  apply span_longest in Hs as (-> & _). destruct (mem_str (c :: x) reserved_words); [discriminate|].
  injection H as <- _. exists (c :: x). reflexivity.
Qed.
Lemma lv_up_name : leaves up_name.
Proof.
  intros s r a H. rewrite up_name_eq in H. destruct s as [|c s]; [discriminate|].
  destruct (is_upper c); [|discriminate]. destruct (span is_name_char s) as [x y] eqn:Hs.
  apply span_longest in Hs as (-> & _). injection H as <- _. exists (c :: x). reflexivity.
Qed.
Lemma lv_type_variable : leaves type_variable.
Proof.
  intros s r a H. rewrite type_variable_eq in H. destruct s as [|c s]; [discriminate|].
  destruct (is_lower c); [|discriminate]. destruct (span is_tyvar_char s) as [x y] eqn:Hs.
  apply span_longest in Hs as (-> & _). injection H as <- _. exists (c :: x). reflexivity.
Qed.
Lemma lv_operator : leaves operator.
Proof.
  intros s r a H. rewrite operator_eq in H. destruct (span is_op_char s) as [x y] eqn:Hs.
  apply span_longest in Hs as (-> & _). destruct x as [|c x]; [discriminate|].
  destruct (mem_str (c :: x) reserved_operators); [discriminate|]. injection H as <- _. eauto.
Qed.
Lemma lv_multi_string : leaves multi_string.
Proof.
  intros s r a H. apply multi_string_iff in H as [-> _]. rewrite !app_assoc. eauto.
Qed.
Lemma lv_single_string : leaves single_string.
Proof.
  intros s r a H. apply single_string_iff in H as [-> _]. exists (quote :: a ++ [quote]).
  cbn [app]. rewrite <- app_assoc. reflexivity.
Qed.
Lemma lv_comment : leaves comment.
Proof.
  intros s r a H. apply comment_iff in H as (c & _ & [(-> & _)|(-> & _)]); rewrite !app_assoc; eauto.
Qed.
#[export] Hint Resolve lv_ret lv_char lv_tag lv_take_while1 lv_take_while0 lv_take lv_anychar lv_eof lv_sp
  lv_lo_name lv_up_name lv_type_variable lv_operator lv_multi_string lv_single_string lv_comment : lvdb.
Ltac lv :=
  unfold spaces_and_newlines, comma_sep, module_name, function_name, spaces, spaces0;
  unfold preceded, terminated, delimited, separated_pair, value, is_a, digit, space1, multispace0,
    multispace, opt_sp;
  repeat (first
    [ solve [auto with lvdb]
    | lazymatch goal with
      | |- leaves (bind _ _) => apply lv_bind
      | |- leaves (map_ _ _) => apply lv_map
      | |- leaves (map_res _ _) => apply lv_map_res
      | |- leaves (alt _ _) => apply lv_alt
      | |- leaves (opt _) => apply lv_opt
      | |- leaves (many1 _) => apply lv_many1
      | |- leaves (separated_list _ _) => apply lv_sep0
      | |- leaves (separated_nonempty_list _ _) => apply lv_sep1
      | |- forall _, _ => intro
      end ]).
Lemma lv_opt_lay i ir : leaves (opt_spaces_or_new_lines_and_indent i ir).
Proof. unfold opt_spaces_or_new_lines_and_indent. lv. Qed.
Lemma lv_same_indent i : leaves (new_line_and_same_indent i).
Proof. unfold new_line_and_same_indent. lv. Qed.
Lemma lv_type_constant : leaves type_constant.
Proof. unfold type_constant. lv. Qed.
Lemma lv_variable : leaves variable.
Proof. unfold variable, lower_case, upper_with_dots, op. lv. Qed.
#[export] Hint Resolve lv_opt_lay lv_same_indent lv_type_constant lv_variable : lvdb.
Lemma lv_access : leaves access.
Proof. unfold access. lv. Qed.
Lemma lv_access_function : leaves access_function.
Proof. unfold access_function. lv. Qed.
Lemma lv_string : leaves string_.
Proof. unfold string_. lv. Qed.
Lemma lv_float : leaves float.
Proof. unfold float, sign. lv. Qed.
Lemma lv_integer : leaves integer.
Proof. unfold integer, sign. lv. Qed.
Lemma lv_simplified_record : leaves simplified_record.
Proof. unfold simplified_record, simplified_field. lv. Qed.
Lemma lv_operator_or_as : leaves operator_or_as.
Proof. unfold operator_or_as. lv. Qed.
Lemma lv_binding_name : leaves binding_name.
Proof. unfold binding_name. lv. Qed.
Lemma lv_exports : leaves exports.
Proof.
  unfold exports, all_export, subset_export, function_export, type_export, constructor_exports,
    constructor_subset_exports, all_export. lv.
Qed.
#[export] Hint Resolve lv_access lv_access_function lv_string lv_float lv_integer lv_simplified_record
  lv_operator_or_as lv_binding_name lv_exports : lvdb.
Lemma lv_port_module : leaves port_module_declaration.
Proof. unfold port_module_declaration, sp_gt0. lv. Qed.
Lemma lv_effect_module : leaves effect_module_declaration.
Proof. unfold effect_module_declaration, sp_gt0, effect_field. lv. Qed.
Lemma lv_module : leaves module_declaration.
Proof. unfold module_declaration, sp_gt0. lv. Qed.
Lemma lv_import : leaves import_statement.
Proof. unfold import_statement. lv. Qed.
Lemma lv_infix : leaves infix_declaration.
Proof. unfold infix_declaration. lv. Qed.
#[export] Hint Resolve lv_port_module lv_effect_module lv_module lv_import lv_infix : lvdb.

(** ** Where the debugging output comes from *)

(** [s] contains a quote, a backslash, an x and the two characters [c], [d]. *)
Definition escape_in (s : str) (v : option N) : Prop :=
  exists a c d b, s = a ++ [squote; backslash; C "x"; c; d] ++ b /\ v = u8_from_str_radix_16 [c; d].
Lemma escape_app u s v : escape_in s v -> escape_in (u ++ s) v.
Proof. intros (a & c & d & b & -> & H). exists (u ++ a), c, d, b. rewrite <- app_assoc. auto. Qed.

Definition prints {A} (p : tparser A) : Prop := forall s,
  (forall v, In (Printed v) (snd (p s)) -> escape_in s v) /\
  (forall r a, fst (p s) = Ok r a -> exists u, s = u ++ r).

Lemma prints_quiet {A} (p : parser A) : leaves p -> prints (quiet p).
Proof. intros H s. split; [intros v []|]. intros r a. apply H. Qed.
Lemma prints_bind {A B} (p : tparser A) (f : A -> tparser B) :
  prints p -> (forall a, prints (f a)) -> prints (bind_t p f).
Proof.
  intros Hp Hf s. destruct (Hp s) as [H1 H2]. unfold bind_t.
  destruct (p s) as [[r a| |w] t]; cbn [fst snd] in *; [|split; [exact H1|discriminate]..].
  destruct (H2 r a eq_refl) as [u Hu]. destruct (Hf a r) as [H3 H4].
  destruct (f a r) as [x t']. cbn [fst snd] in *. split.
  - intros v Hv. apply in_app_or in Hv as [Hv|Hv]; [auto|]. rewrite Hu. apply escape_app; auto.
  - intros r' b H. eapply lv_trans; [exact Hu|]. eapply H4; eauto.
Qed.
Lemma prints_map {A B} (f : A -> B) p : prints p -> prints (map_t f p).
Proof.
  intros Hp s. destruct (Hp s) as [H1 H2]. unfold map_t.
  destruct (p s) as [[r a| |w] t]; cbn [fst snd] in *; (split; [exact H1|]); try discriminate.
  intros r' b [= <- _]. eauto.
Qed.
Lemma prints_map_res {A B} (f : A -> option B) p : prints p -> prints (map_res_t f p).
Proof.
  intros Hp s. destruct (Hp s) as [H1 H2]. unfold map_res_t.
  destruct (p s) as [[r a| |w] t]; cbn [fst snd] in *; (split; [exact H1|]); try discriminate.
  destruct (f a); [|discriminate]. intros r' b' [= <- _]. eauto.
Qed.
Lemma prints_alt {A} (p q : tparser A) : prints p -> prints q -> prints (p <||> q).
Proof.
  intros Hp Hq s. destruct (Hp s) as [H1 H2]. unfold alt_t.
  destruct (p s) as [[r a| |w] t]; cbn [fst snd] in *; [auto| |auto].
  destruct (Hq s) as [H3 H4]. destruct (q s) as [x t']. cbn [fst snd] in *. split; [|exact H4].
  intros v Hv. apply in_app_or in Hv as [Hv|Hv]; auto.
Qed.
Lemma prints_opt {A} (p : tparser A) : prints p -> prints (opt_t p).
Proof.
  intros Hp s. destruct (Hp s) as [H1 H2]. unfold opt_t.
  destruct (p s) as [[r a| |w] t]; cbn [fst snd] in *; (split; [exact H1|]); intros r' b; [| |discriminate].
  - intros [= <- _]. eauto.
  - intros [= <- _]. exists []. reflexivity.
Qed.
Lemma prints_many0 {A} (p : tparser A) : prints p -> prints (many0_t p).
Proof.
  intros Hp s. unfold many0_t. generalize (S (length s)). intros n. revert s.
  induction n as [|n IH]; intros s; [split; [intros v []|discriminate]|]. cbn [many0_loop_t].
  destruct (Hp s) as [H1 H2].
  assert (Hnil : forall r (l : list A), Ok s [] = Ok r l -> exists u, s = u ++ r).
  { intros r l [= <- _]. exists []. reflexivity. }
  destruct (p s) as [[r a| |w] t]; cbn [fst snd] in *;
    [|split; [exact H1|exact Hnil]|split; [exact H1|discriminate]].
  destruct (length r =? length s).
  { unfold at_eof. split; [exact H1|exact Hnil]. }
  destruct (H2 r a eq_refl) as [u Hu]. destruct (IH r) as [H3 H4].
  destruct (many0_loop_t n p r) as [[r' l| |w] t']; cbn [fst snd] in *.
  all: split; [intros v Hv; apply in_app_or in Hv as [Hv|Hv]; [auto|]; rewrite Hu; apply escape_app; auto|].
  2,3: discriminate.
  intros r2 l2 [= <- _]. eapply lv_trans; [exact Hu|]. eapply H4; eauto.
Qed.
Lemma prints_sep_loop {A B} (sep : tparser B) (p : tparser A) : prints sep -> prints p ->
  forall n, prints (sep_loop_t n sep p).
Proof.
  intros Hs Hp. induction n as [|n IH]; intros s; [split; [intros v []|discriminate]|]. cbn [sep_loop_t].
  assert (Hnil : forall r (l : list A), Ok s [] = Ok r l -> exists u, s = u ++ r).
  { intros r l [= <- _]. exists []. reflexivity. }
  destruct (Hs s) as [H1 H2].
  destruct (sep s) as [[s2 x| |w] t]; cbn [fst snd] in *;
    [|split; [exact H1|exact Hnil]|split; [exact H1|discriminate]].
  destruct (length s2 =? length s); [split; [exact H1|exact Hnil]|].
  destruct (H2 s2 x eq_refl) as [u Hu]. destruct (Hp s2) as [H3 H4].
  assert (Hv2 : forall t2, (forall v, In (Printed v) t2 -> escape_in s2 v) ->
            forall v, In (Printed v) (t ++ t2) -> escape_in s v).
  { intros t2 Ht2 v Hv. apply in_app_or in Hv as [Hv|Hv]; [auto|]. rewrite Hu. apply escape_app; auto. }
  destruct (p s2) as [[s3 a| |w] t2]; cbn [fst snd] in *;
    [|split; [apply Hv2; exact H3|exact Hnil]|split; [apply Hv2; exact H3|discriminate]].
  destruct (length s3 =? length s2); [split; [apply Hv2; exact H3|exact Hnil]|].
  destruct (H4 s3 a eq_refl) as [u2 Hu2]. destruct (IH s3) as [H5 H6].
  assert (Hv3 : forall t3, (forall v, In (Printed v) t3 -> escape_in s3 v) ->
            forall v, In (Printed v) (t ++ t2 ++ t3) -> escape_in s v).
  { intros t3 Ht3. apply Hv2. intros v Hv. apply in_app_or in Hv as [Hv|Hv]; [auto|].
    rewrite Hu2. apply escape_app; auto. }
  destruct (sep_loop_t n sep p s3) as [[r l| |w] t3]; cbn [fst snd] in *; (split; [apply Hv3; exact H5|]);
    try discriminate.
  intros r2 l2 [= <- _]. eapply lv_trans; [exact Hu|]. eapply lv_trans; [exact Hu2|]. eapply H6; eauto.
Qed.
Lemma prints_sep0 {A B} (sep : tparser B) (p : tparser A) : prints sep -> prints p ->
  prints (separated_list_t sep p).
Proof.
  intros Hs Hp s. unfold separated_list_t. destruct (Hp s) as [H1 H2].
  destruct (p s) as [[r a| |w] t]; cbn [fst snd] in *; [| |split; [exact H1|discriminate]].
  2:{ split; [exact H1|]. intros r l [= <- _]. exists []. reflexivity. }
  destruct (length r =? length s); [split; [exact H1|discriminate]|].
  destruct (H2 r a eq_refl) as [u Hu]. destruct (prints_sep_loop sep p Hs Hp (S (length r)) r) as [H3 H4].
  destruct (sep_loop_t (S (length r)) sep p r) as [[r' l| |w] t']; cbn [fst snd] in *.
  all: split; [intros v Hv; apply in_app_or in Hv as [Hv|Hv]; [auto|]; rewrite Hu; apply escape_app; auto|].
  2,3: discriminate.
  intros r2 l2 [= <- _]. eapply lv_trans; [exact Hu|]. eapply H4; eauto.
Qed.
Lemma prints_sep1 {A B} (sep : tparser B) (p : tparser A) : prints sep -> prints p ->
  prints (separated_nonempty_list_t sep p).
Proof.
  intros Hs Hp s. unfold separated_nonempty_list_t. destruct (Hp s) as [H1 H2].
  destruct (p s) as [[r a| |w] t]; cbn [fst snd] in *; [| |split; [exact H1|discriminate]].
  2:{ split; [exact H1|discriminate]. }
  destruct (length r =? length s); [split; [exact H1|discriminate]|].
  destruct (H2 r a eq_refl) as [u Hu]. destruct (prints_sep_loop sep p Hs Hp (S (length r)) r) as [H3 H4].
  destruct (sep_loop_t (S (length r)) sep p r) as [[r' l| |w] t']; cbn [fst snd] in *.
  all: split; [intros v Hv; apply in_app_or in Hv as [Hv|Hv]; [auto|]; rewrite Hu; apply escape_app; auto|].
  2,3: discriminate.
  intros r2 l2 [= <- _]. eapply lv_trans; [exact Hu|]. eapply H4; eauto.
Qed.
Create HintDb printsdb.
Ltac prints_ :=
  unfold preceded_t, terminated_t, delimited_t, separated_pair_t;
  repeat (first
    [ solve [auto with printsdb]
    | lazymatch goal with
      | |- prints (quiet _) => apply prints_quiet; lv
      | |- prints (bind_t _ _) => apply prints_bind
      | |- prints (map_t _ _) => apply prints_map
      | |- prints (map_res_t _ _) => apply prints_map_res
      | |- prints (alt_t _ _) => apply prints_alt
      | |- prints (opt_t _) => apply prints_opt
      | |- prints (many0_t _) => apply prints_many0
      | |- prints (separated_list_t _ _) => apply prints_sep0
      | |- prints (separated_nonempty_list_t _ _) => apply prints_sep1
      | |- forall _, _ => intro
      end ]).
Lemma lv_character : leaves character.
Proof. unfold character, character_content. lv. Qed.
Section T.
  Variable T : N -> tparser type_ast.
  Hypothesis HT : forall i, prints (T i).
  Hint Resolve HT : printsdb.
  Lemma prints_type_annotation_f i : prints (type_annotation_f_t T i).
  Proof. unfold type_annotation_f_t. prints_. Qed.
  Hint Resolve prints_type_annotation_f : printsdb.
  Lemma prints_type_tuple_f i : prints (type_tuple_f_t T i).
  Proof. unfold type_tuple_f_t. prints_. Qed.
  Hint Resolve prints_type_tuple_f : printsdb.
  Lemma prints_type_record_pair_f i : prints (type_record_pair_f_t T i).
  Proof. unfold type_record_pair_f_t. prints_. Qed.
  Hint Resolve prints_type_record_pair_f : printsdb.
  Lemma prints_type_record_pairs_f i : prints (type_record_pairs_f_t T i).
  Proof. unfold type_record_pairs_f_t. prints_. Qed.
  Hint Resolve prints_type_record_pairs_f : printsdb.
  Lemma prints_type_record_constructor_f i : prints (type_record_constructor_f_t T i).
  Proof. unfold type_record_constructor_f_t. prints_. Qed.
  Hint Resolve prints_type_record_constructor_f : printsdb.
  Lemma prints_type_record_f i : prints (type_record_f_t T i).
  Proof. unfold type_record_f_t. prints_. Qed.
  Hint Resolve prints_type_record_f : printsdb.
  Lemma prints_type_parens_f i : prints (type_parens_f_t T i).
  Proof. unfold type_parens_f_t. prints_. Qed.
  Hint Resolve prints_type_parens_f : printsdb.
  Lemma prints_type_parameter_f i : prints (type_parameter_f_t T i).
  Proof. unfold type_parameter_f_t. prints_. Qed.
  Hint Resolve prints_type_parameter_f : printsdb.
  Lemma prints_type_constructor_f i : prints (type_constructor_f_t T i).
  Proof. unfold type_constructor_f_t. prints_. Qed.
  Hint Resolve prints_type_constructor_f : printsdb.
  Lemma prints_type_f i : prints (type_f_t T i).
  Proof. unfold type_f_t. prints_. Qed.
  Hint Resolve prints_type_f : printsdb.
End T.
#[export] Hint Resolve prints_type_annotation_f
  prints_type_tuple_f
  prints_type_record_pair_f
  prints_type_record_pairs_f
  prints_type_record_constructor_f
  prints_type_record_f
  prints_type_parens_f
  prints_type_parameter_f
  prints_type_constructor_f
  prints_type_f : printsdb.
Lemma prints_type_n n i : prints (type_n_t n i).
Proof.
  revert i. induction n as [|n IH]; intros i s; [split; [intros v []|discriminate]|]. cbn [type_n_t].
  destruct (prints_type_f _ IH i s) as [H1 H2]. destruct (type_f_t (type_n_t n) i s) as [x t].
  cbn [fst snd] in *. split; [|exact H2]. intros v [Hv|Hv]; [discriminate|].
  apply in_app_or in Hv as [Hv|[Hv|[]]]; [auto|discriminate].
Qed.
Lemma prints_type_ i : prints (type__t i).
Proof. intros s. apply prints_type_n. Qed.
#[export] Hint Resolve prints_type_ : printsdb.
Lemma prints_type_annotation i : prints (type_annotation_t i).
Proof. unfold type_annotation_t. prints_. Qed.
#[export] Hint Resolve prints_type_annotation : printsdb.
Lemma prints_type_constructor i : prints (type_constructor_t i).
Proof. unfold type_constructor_t. prints_. Qed.
#[export] Hint Resolve prints_type_constructor : printsdb.
Lemma take2_Ok s r (a : str) : take 2 s = Ok r a -> exists c d, a = [c; d] /\ s = c :: d :: r.
Proof.
  destruct s as [|c [|d s]]; [discriminate|discriminate|]. intros [= <- <-]. exists c, d. auto.
Qed.
Lemma prints_character : prints character_t.
Proof.
  intros s. split.
  - intros v. unfold character_t, map_t, delimited_t, bind_t, quiet.
    destruct (char_ 39%N s) as [r c| |] eqn:H1; [|intros []|intros []].
    apply char_Ok in H1 as [-> ->]. unfold character_content_t, alt_t, map_res_print, quiet.
    destruct ((tag (L "\x") ;;; code <- take 2 ;; ret (u8_from_str_radix_16 code)) r) as [r2 w| |] eqn:H2.
    + apply bind_Ok in H2 as (s2 & x & Hx & H2). apply tag_Ok in Hx as [-> ->].
      apply bind_Ok in H2 as (s3 & code & Hx & H2). apply take2_Ok in Hx as (c & d & -> & ->).
      unfold ret in H2. assert (w = u8_from_str_radix_16 [c; d]) as Hw by congruence. clear H2.
      intros Hv. exists [], c, d, s3. split; [reflexivity|]. rewrite <- Hw.
      assert (In (Printed v) [Printed w]) as [Hin|[]]; [|congruence].
      revert Hv. clear Hw. destruct w; cbn [fst snd app quiet];
        [|destruct (anychar _); cbn [fst snd app]];
        try destruct (char_ 39%N _); cbn [fst snd app In]; auto.
    + unfold quiet. destruct (anychar r) as [r2 c| |]; cbn [fst snd app]; try destruct (char_ 39%N r2); cbn [fst snd app In]; auto; intros [].
    + intros [].
  - intros r a H. rewrite er_character in H. revert H. apply lv_character.
Qed.
#[export] Hint Resolve prints_character : printsdb.
Lemma prints_function_signature i : prints (function_signature_t i).
Proof. unfold function_signature_t. prints_. Qed.
#[export] Hint Resolve prints_function_signature : printsdb.
Section E.
  Variable E : N -> tparser expr.
  Hypothesis HE : forall i, prints (E i).
  Hint Resolve HE : printsdb.
  Lemma prints_tuple_f i : prints (tuple_f_t E i).
  Proof. unfold tuple_f_t. prints_. Qed.
  Hint Resolve prints_tuple_f : printsdb.
  Lemma prints_list_f i : prints (list_f_t E i).
  Proof. unfold list_f_t. prints_. Qed.
  Hint Resolve prints_list_f : printsdb.
  Lemma prints_record_field_f i : prints (record_field_f_t E i).
  Proof. unfold record_field_f_t. prints_. Qed.
  Hint Resolve prints_record_field_f : printsdb.
  Lemma prints_record_f i : prints (record_f_t E i).
  Proof. unfold record_f_t. prints_. Qed.
  Hint Resolve prints_record_f : printsdb.
  Lemma prints_update_field_f i : prints (update_field_f_t E i).
  Proof. unfold update_field_f_t. prints_. Qed.
  Hint Resolve prints_update_field_f : printsdb.
  Lemma prints_record_update_f i : prints (record_update_f_t E i).
  Proof. unfold record_update_f_t. prints_. Qed.
  Hint Resolve prints_record_update_f : printsdb.
  Lemma prints_parens_f i : prints (parens_f_t E i).
  Proof. unfold parens_f_t. prints_. Qed.
  Hint Resolve prints_parens_f : printsdb.
  Lemma prints_term_f i : prints (term_f_t E i).
  Proof. unfold term_f_t. prints_. Qed.
  Hint Resolve prints_term_f : printsdb.
  Lemma prints_lambda_f i : prints (lambda_f_t E i).
  Proof. unfold lambda_f_t. prints_. Qed.
  Hint Resolve prints_lambda_f : printsdb.
  Lemma prints_application_or_var_f i : prints (application_or_var_f_t E i).
  Proof. unfold application_or_var_f_t. prints_. Qed.
  Hint Resolve prints_application_or_var_f : printsdb.
  Lemma prints_function_definition_f i : prints (function_definition_f_t E i).
  Proof. unfold function_definition_f_t. prints_. Qed.
  Hint Resolve prints_function_definition_f : printsdb.
  Lemma prints_function_f i : prints (function_f_t E i).
  Proof. unfold function_f_t. prints_. Qed.
  Hint Resolve prints_function_f : printsdb.
  Lemma prints_let_binding_target_f i : prints (let_binding_target_f_t E i).
  Proof. unfold let_binding_target_f_t. prints_. Qed.
  Hint Resolve prints_let_binding_target_f : printsdb.
  Lemma prints_let_binding_f i : prints (let_binding_f_t E i).
  Proof. unfold let_binding_f_t. prints_. Qed.
  Hint Resolve prints_let_binding_f : printsdb.
  Lemma prints_let_bindings_f i : prints (let_bindings_f_t E i).
  Proof. unfold let_bindings_f_t. prints_. Qed.
  Hint Resolve prints_let_bindings_f : printsdb.
  Lemma prints_let_expression_f i : prints (let_expression_f_t E i).
  Proof. unfold let_expression_f_t. prints_. Qed.
  Hint Resolve prints_let_expression_f : printsdb.
  Lemma prints_case_f i : prints (case_f_t E i).
  Proof. unfold case_f_t. prints_. Qed.
  Hint Resolve prints_case_f : printsdb.
  Lemma prints_cases_f i : prints (cases_f_t E i).
  Proof. unfold cases_f_t. prints_. Qed.
  Hint Resolve prints_cases_f : printsdb.
  Lemma prints_case_expression_f i : prints (case_expression_f_t E i).
  Proof. unfold case_expression_f_t. prints_. Qed.
  Hint Resolve prints_case_expression_f : printsdb.
  Lemma prints_if_expression_f i : prints (if_expression_f_t E i).
  Proof. unfold if_expression_f_t. prints_. Qed.
  Hint Resolve prints_if_expression_f : printsdb.
  Lemma prints_operator_exp_f i : prints (operator_exp_f_t E i).
  Proof. unfold operator_exp_f_t. prints_. Qed.
  Hint Resolve prints_operator_exp_f : printsdb.
  Lemma prints_binary_f i : prints (binary_f_t E i).
  Proof. unfold binary_f_t. prints_. Qed.
  Hint Resolve prints_binary_f : printsdb.
  Lemma prints_expression_f i : prints (expression_f_t E i).
  Proof. unfold expression_f_t. prints_. Qed.
  Hint Resolve prints_expression_f : printsdb.
End E.
#[export] Hint Resolve prints_tuple_f
  prints_list_f
  prints_record_field_f
  prints_record_f
  prints_update_field_f
  prints_record_update_f
  prints_parens_f
  prints_term_f
  prints_lambda_f
  prints_application_or_var_f
  prints_function_definition_f
  prints_function_f
  prints_let_binding_target_f
  prints_let_binding_f
  prints_let_bindings_f
  prints_let_expression_f
  prints_case_f
  prints_cases_f
  prints_case_expression_f
  prints_if_expression_f
  prints_operator_exp_f
  prints_binary_f
  prints_expression_f : printsdb.
Lemma prints_expression_n n i : prints (expression_n_t n i).
Proof.
  revert i. induction n as [|n IH]; intros i s; [split; [intros v []|discriminate]|]. cbn [expression_n_t].
  destruct (prints_expression_f _ IH i s) as [H1 H2]. destruct (expression_f_t (expression_n_t n) i s) as [x t].
  cbn [fst snd] in *. split; [|exact H2]. intros v [Hv|Hv]; [discriminate|].
  apply in_app_or in Hv as [Hv|[Hv|[]]]; [auto|discriminate].
Qed.
Lemma prints_expression i : prints (expression_t i).
Proof. intros s. apply prints_expression_n. Qed.
#[export] Hint Resolve prints_expression : printsdb.
Lemma prints_term i : prints (term_t i).
Proof. unfold term_t. prints_. Qed.
#[export] Hint Resolve prints_term : printsdb.
Lemma prints_tuple i : prints (tuple_t i).
Proof. unfold tuple_t. prints_. Qed.
#[export] Hint Resolve prints_tuple : printsdb.
Lemma prints_list_expr i : prints (list_expr_t i).
Proof. unfold list_expr_t. prints_. Qed.
#[export] Hint Resolve prints_list_expr : printsdb.
Lemma prints_record i : prints (record_t i).
Proof. unfold record_t. prints_. Qed.
#[export] Hint Resolve prints_record : printsdb.
Lemma prints_record_update i : prints (record_update_t i).
Proof. unfold record_update_t. prints_. Qed.
#[export] Hint Resolve prints_record_update : printsdb.
Lemma prints_parens i : prints (parens_t i).
Proof. unfold parens_t. prints_. Qed.
#[export] Hint Resolve prints_parens : printsdb.
Lemma prints_lambda i : prints (lambda_t i).
Proof. unfold lambda_t. prints_. Qed.
#[export] Hint Resolve prints_lambda : printsdb.
Lemma prints_application_or_var i : prints (application_or_var_t i).
Proof. unfold application_or_var_t. prints_. Qed.
#[export] Hint Resolve prints_application_or_var : printsdb.
Lemma prints_binary i : prints (binary_t i).
Proof. unfold binary_t. prints_. Qed.
#[export] Hint Resolve prints_binary : printsdb.
Lemma prints_let_binding i : prints (let_binding_t i).
Proof. unfold let_binding_t. prints_. Qed.
#[export] Hint Resolve prints_let_binding : printsdb.
Lemma prints_let_bindings i : prints (let_bindings_t i).
Proof. unfold let_bindings_t. prints_. Qed.
#[export] Hint Resolve prints_let_bindings : printsdb.
Lemma prints_let_expression i : prints (let_expression_t i).
Proof. unfold let_expression_t. prints_. Qed.
#[export] Hint Resolve prints_let_expression : printsdb.
Lemma prints_case_expression i : prints (case_expression_t i).
Proof. unfold case_expression_t. prints_. Qed.
#[export] Hint Resolve prints_case_expression : printsdb.
Lemma prints_if_expression i : prints (if_expression_t i).
Proof. unfold if_expression_t. prints_. Qed.
#[export] Hint Resolve prints_if_expression : printsdb.
Lemma prints_function_definition i : prints (function_definition_t i).
Proof. unfold function_definition_t. prints_. Qed.
#[export] Hint Resolve prints_function_definition : printsdb.
Lemma prints_function i : prints (function_t i).
Proof. unfold function_t. prints_. Qed.
#[export] Hint Resolve prints_function : printsdb.
Lemma prints_type_alias_declaration : prints (type_alias_declaration_t).
Proof. unfold type_alias_declaration_t. prints_. Qed.
#[export] Hint Resolve prints_type_alias_declaration : printsdb.
Lemma prints_type_declaration i : prints (type_declaration_t i).
Proof. unfold type_declaration_t. prints_. Qed.
#[export] Hint Resolve prints_type_declaration : printsdb.
Lemma prints_port_type_declaration : prints (port_type_declaration_t).
Proof. unfold port_type_declaration_t. prints_. Qed.
#[export] Hint Resolve prints_port_type_declaration : printsdb.
Lemma prints_port_declaration : prints (port_declaration_t).
Proof. unfold port_declaration_t. prints_. Qed.
#[export] Hint Resolve prints_port_declaration : printsdb.
Lemma prints_statement : prints (statement_t).
Proof. unfold statement_t. prints_. Qed.
#[export] Hint Resolve prints_statement : printsdb.
Lemma prints_statements : prints (statements_t).
Proof. unfold statements_t. prints_. Qed.
#[export] Hint Resolve prints_statements : printsdb.
Lemma prints_file : prints (file_t).
Proof. unfold file_t. prints_. Qed.
#[export] Hint Resolve prints_file : printsdb.
