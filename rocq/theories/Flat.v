(** * Texts on one line

    In a text without line feeds the column at which a phrase begins does not matter:
    the parsers give the same results for all values of the indentation. *)
From Verif Require Import Base Nom Regex Ast Good Spec Helpers Types Expr Lexers Total Layout Follow LexProps TwoRuns RenameSim.

Definition flat (s s' : str) : Prop := s = s' /\ has_newline s = false.
Notation same := (sim flat eq).

(** ** Parsers without indentation *)
Lemma same_self {A} (p : parser A) : (forall s r a, p s = Ok r a -> exists t, s = t ++ r) -> same p p.
Proof.
  intros H s s' [<- Hs]. unfold rel. destruct (p s) as [r a| |] eqn:E; auto.
  destruct (H _ _ _ E) as (t & ->). split; [reflexivity|]. rewrite has_newline_app in Hs. apply orb_false_iff in Hs as [_ Hs].
  split; [split; auto|]. exists t, t. tauto.
Qed.
Lemma f_char c : same (char_ c) (char_ c).
Proof. apply same_self. intros s r a H. apply char_word in H as (t & -> & _). eauto. Qed.
Lemma f_tag w : same (tag w) (tag w).
Proof. apply same_self. intros s r a H. apply tag_iff in H as (-> & _). eauto. Qed.
Lemma f_take0 f : same (take_while0 f) (take_while0 f).
Proof. apply same_self. intros s r a H. apply take0_word in H as (t & -> & _). eauto. Qed.
Lemma f_take1 f : same (take_while1 f) (take_while1 f).
Proof. apply same_self. intros s r a H. apply take1_word in H as (t & -> & _). eauto. Qed.
Lemma f_lo_name : same lo_name lo_name.
Proof. apply same_self. intros s r a H. apply lo_name_iff in H as (-> & _). eauto. Qed.
Lemma f_up_name : same up_name up_name.
Proof. apply same_self. intros s r a H. apply up_name_iff in H as (-> & _). eauto. Qed.
Lemma f_type_variable : same type_variable type_variable.
Proof. apply same_self. intros s r a H. apply type_variable_iff in H as (n & _ & -> & _). eauto. Qed.
Lemma f_operator : same operator operator.
Proof. apply same_self. intros s r a H. apply operator_iff in H as (-> & _). eauto. Qed.
Lemma f_digit : same digit digit.
Proof. apply same_self. intros s r a H. apply digit_iff in H as (-> & _). eauto. Qed.
Lemma f_string : same string_ string_.
Proof.
  unfold string_. eapply sim_map; [apply sim_alt|intros a a' <-; reflexivity]; apply same_self; intros s r a H.
  - apply multi_string_iff in H as (-> & _). exists (quotes3 ++ a ++ quotes3). rewrite <- !app_assoc. reflexivity.
  - apply single_string_iff in H as (-> & _). exists (quote :: a ++ [quote]). cbn. rewrite <- !app_assoc. reflexivity.
Qed.
Lemma f_character : same character character.
Proof.
  apply same_self. intros s r a H. apply character_iff in H as (t & c & _ & -> & _). exists (squote :: t ++ [squote]).
  cbn. rewrite <- app_assoc. reflexivity.
Qed.
Lemma f_spaces : same spaces spaces.
Proof. apply f_take1. Qed.
Lemma f_multispace : same multispace multispace.
Proof. apply f_take1. Qed.
Lemma f_multispace0 : same multispace0 multispace0.
Proof. apply f_take0. Qed.
Lemma f_spaces_and_newlines : same spaces_and_newlines spaces_and_newlines.
Proof. apply f_take1. Qed.

(** ** Blank space: the column found does not matter *)
Lemma flat_accepts t i ir : has_newline t = false -> accepts i ir t.
Proof. intros H H'. congruence. Qed.
Lemma f_sp i j ir : sim flat any (spaces_or_new_lines_and_indent i ir) (spaces_or_new_lines_and_indent j ir).
Proof.
  intros s s' [<- Hs]. destruct (trivia_run_exists s) as (t & r & Ht). pose proof Ht as (-> & _).
  rewrite has_newline_app in Hs. apply orb_false_iff in Hs as [H1 H2].
  destruct (sp_run i ir _ t r Ht) as [[Hn ->]|[(Hn & _ & ->)|(_ & Ha & _)]]; [| |destruct (Ha (flat_accepts t i ir H1))];
  destruct (sp_run j ir _ t r Ht) as [[Hn' ->]|[(Hn' & _ & ->)|(_ & Ha & _)]]; try congruence; try exact I; try (destruct (Ha (flat_accepts t j ir H1))).
  split; [exact I|]. split; [split; auto|]. exists t, t. tauto.
Qed.
Lemma f_same_indent i j : same (new_line_and_same_indent i) (new_line_and_same_indent j).
Proof.
  intros s s' [<- Hs]. assert (H : forall k, new_line_and_same_indent k s = Err).
  { intros k. unfold new_line_and_same_indent, map_res, preceded, bind, char_. destruct s as [|c s]; [reflexivity|].
    cbn in Hs. apply orb_false_iff in Hs as [Hs _]. unfold newline in Hs. rewrite Hs. reflexivity. }
  rewrite !H. exact I.
Qed.
Lemma f_any {A} p q : sim flat (@eq A) p q -> sim flat any p q.
Proof. apply sim_weak. intros; exact I. Qed.

(** ** Combinators *)
Lemma e_bind {A B} (p q : parser A) (f g : A -> parser B) : same p q -> (forall a, same (f a) (g a)) -> same (bind p f) (bind q g).
Proof. intros H1 H2. eapply sim_bind; [exact H1|]. intros a a' <-. apply H2. Qed.
Lemma e_skip {A B} (p q : parser A) (f g : A -> parser B) : sim flat any p q -> (forall a b, same (f a) (g b)) -> same (bind p f) (bind q g).
Proof. intros H1 H2. eapply sim_bind; [exact H1|]. auto. Qed.
Lemma e_map {A B} (f : A -> B) p q : same p q -> same (map_ f p) (map_ f q).
Proof. intros H. eapply sim_map; [exact H|]. congruence. Qed.
Lemma e_map_res {A B} (f : A -> option B) p q : same p q -> same (map_res f p) (map_res f q).
Proof. intros H. eapply sim_map_res; [exact H|]. intros a a' <-. destruct (f a); reflexivity. Qed.
Lemma e_opt {A} (p q : parser A) : same p q -> same (opt p) (opt q).
Proof. intros H. eapply sim_weak; [|apply sim_opt, H]. apply opt_rel_eq. Qed.
Lemma e_many0 {A} (p q : parser A) : same p q -> same (many0 p) (many0 q).
Proof. intros H. eapply sim_weak; [|apply sim_many0, H]. apply Forall2_is_eq. Qed.
Lemma e_many1 {A} (p q : parser A) : same p q -> same (many1 p) (many1 q).
Proof. intros H. eapply sim_weak; [|apply sim_many1, H]. apply Forall2_is_eq. Qed.
Lemma e_list {A B} (sep sep' : parser B) (p q : parser A) : sim flat any sep sep' -> same p q -> same (separated_list sep p) (separated_list sep' q).
Proof. intros H1 H. eapply sim_weak; [|eapply sim_separated_list; [exact H1|exact H]]. apply Forall2_is_eq. Qed.
Lemma e_list1 {A B} (sep sep' : parser B) (p q : parser A) : sim flat any sep sep' -> same p q -> same (separated_nonempty_list sep p) (separated_nonempty_list sep' q).
Proof. intros H1 H. eapply sim_weak; [|eapply sim_separated_nonempty; [exact H1|exact H]]. apply Forall2_is_eq. Qed.
Lemma e_ret {A} (a : A) : same (ret a) (ret a).
Proof. apply sim_ret. reflexivity. Qed.
Lemma e_delimited {A B D} (p p' : parser A) (q q' : parser B) (t t' : parser D) :
  sim flat any p p' -> same q q' -> sim flat any t t' -> same (delimited p q t) (delimited p' q' t').
Proof. intros H1 H2 H3. eapply sim_delimited; eauto. Qed.
Lemma e_preceded {A B} (p p' : parser A) (q q' : parser B) : sim flat any p p' -> same q q' -> same (preceded p q) (preceded p' q').
Proof. intros H1 H2. eapply sim_preceded; eauto. Qed.
Lemma e_terminated {A B} (p p' : parser A) (q q' : parser B) : same p p' -> sim flat any q q' -> same (terminated p q) (terminated p' q').
Proof. intros H1 H2. eapply sim_terminated; eauto. Qed.
Lemma a_preceded {A B} (p p' : parser A) (q q' : parser B) : sim flat any p p' -> sim flat any q q' -> sim flat any (preceded p q) (preceded p' q').
Proof. intros H1 H2. eapply sim_preceded; eauto. Qed.
Lemma a_terminated {A B} (p p' : parser A) (q q' : parser B) : sim flat any p p' -> sim flat any q q' -> sim flat any (terminated p q) (terminated p' q').
Proof. intros H1 H2. eapply sim_terminated; eauto. Qed.
Lemma a_opt_sp i j : sim flat any (opt_sp i) (opt_sp j).
Proof. unfold opt_sp. eapply sim_weak; [|apply sim_opt, f_sp]. intros; exact I. Qed.
Lemma a_opt_spaces i j : sim flat any (opt_spaces_or_new_lines_and_indent i IR_GTE) (opt_spaces_or_new_lines_and_indent j IR_GTE).
Proof. unfold opt_spaces_or_new_lines_and_indent. eapply sim_map; [apply a_opt_sp|]. intros; exact I. Qed.
Lemma a_comma_sep i j : sim flat any (comma_sep i) (comma_sep j).
Proof. unfold comma_sep. eapply sim_delimited; [apply a_opt_sp|apply f_any, f_char|apply a_opt_sp]. Qed.
Ltac atoms := first [apply f_char|apply f_tag|apply f_lo_name|apply f_up_name|apply f_type_variable|apply f_operator|apply f_digit|apply f_string
  |apply f_character|apply f_spaces|apply f_multispace|apply f_multispace0|apply f_spaces_and_newlines|apply f_take0|apply f_take1|apply f_same_indent].
Ltac e_step :=
  lazymatch goal with
  | |- sim flat any (spaces_or_new_lines_and_indent _ _) _ => apply f_sp
  | |- sim flat any (opt_sp _) _ => apply a_opt_sp
  | |- sim flat any (opt_spaces_or_new_lines_and_indent _ _) _ => apply a_opt_spaces
  | |- sim flat any (comma_sep _) _ => apply a_comma_sep
  | |- sim flat any (preceded _ _) _ => apply a_preceded
  | |- sim flat any (terminated _ _) _ => apply a_terminated
  | |- sim flat any (delimited (opt_sp _) _ _) _ => eapply sim_delimited; [apply a_opt_sp|apply f_any, f_char|apply a_opt_sp]
  | |- sim flat any (delimited (opt_spaces_or_new_lines_and_indent _ _) _ _) _ => eapply sim_delimited; [apply a_opt_spaces|apply f_any, f_char|apply a_opt_spaces]
  | |- sim flat any _ _ => apply f_any
  | |- same (delimited _ _ _) _ => apply e_delimited
  | |- same (preceded _ _) _ => apply e_preceded
  | |- same (terminated _ _) _ => apply e_terminated
  | |- same (bind (spaces_or_new_lines_and_indent _ _) _) _ => apply e_skip; [apply f_sp|intros ? ?]
  | |- same (bind (opt_sp _) _) _ => apply e_skip; [apply a_opt_sp|intros ? ?]
  | |- same (bind (opt_spaces_or_new_lines_and_indent _ _) _) _ => apply e_skip; [apply a_opt_spaces|intros ? ?]
  | |- same (bind _ _) _ => apply e_bind; [|intros ?]
  | |- same (map_ _ _) _ => apply e_map
  | |- same (map_res _ _) _ => apply e_map_res
  | |- same (opt _) _ => apply e_opt
  | |- same (many0 _) _ => apply e_many0
  | |- same (many1 _) _ => apply e_many1
  | |- same (separated_list _ _) _ => apply e_list
  | |- same (separated_nonempty_list _ _) _ => apply e_list1
  | |- same (ret _) _ => apply e_ret
  | |- same (_ <|> _) _ => apply sim_alt
  | |- _ => solve [atoms|eauto]
  end.
Ltac es := repeat e_step.

(** ** Types *)
Section T.
  Variables T T' : N -> parser type_ast.
  Hypothesis HT : forall i j, same (T i) (T' j).
  Lemma f_annotation i j : same (type_annotation_f T i) (type_annotation_f T' j).
  Proof. unfold type_annotation_f. es. Qed.
  Hint Resolve f_annotation : core.
  Lemma f_tuple_type i j : same (type_tuple_f T i) (type_tuple_f T' j).
  Proof. unfold type_tuple_f. es. Qed.
  Lemma f_pairs i j : same (type_record_pairs_f T i) (type_record_pairs_f T' j).
  Proof. unfold type_record_pairs_f, type_record_pair_f. es. Qed.
  Hint Resolve f_pairs : core.
  Lemma f_extension i j : same (type_record_constructor_f T i) (type_record_constructor_f T' j).
  Proof. unfold type_record_constructor_f. es. Qed.
  Lemma f_record_type i j : same (type_record_f T i) (type_record_f T' j).
  Proof. unfold type_record_f. es. Qed.
  Lemma f_parens_type i j : same (type_parens_f T i) (type_parens_f T' j).
  Proof. unfold type_parens_f. es. Qed.
  Hint Resolve f_tuple_type f_extension f_record_type f_parens_type : core.
  Lemma f_parameter i j : same (type_parameter_f T i) (type_parameter_f T' j).
  Proof. unfold type_parameter_f, type_constant. es. Qed.
  Hint Resolve f_parameter : core.
  Lemma f_type_f i j : same (type_f T i) (type_f T' j).
  Proof. unfold type_f, type_constructor_f. es. Qed.
End T.
Lemma f_type_n n : forall n' i j, same (type_n n i) (type_n n' j).
Proof.
  induction n as [|n IH]; intros [|n'] i j s s' Hs; try exact I; [apply rel_abort|].
  cbn [type_n]. apply (f_type_f (type_n n) (type_n n') (IH n')). exact Hs.
Qed.
Lemma f_type i j : same (type_ i) (type_ j).
Proof. intros s s' Hs. apply f_type_n. exact Hs. Qed.

(** ** Expressions *)
Lemma f_signature i j : same (function_signature i) (function_signature j).
Proof. unfold function_signature, binding_name, type_annotation. es. apply f_annotation, f_type. Qed.
Section E.
  Variables E E' : N -> parser expr.
  Hypothesis HE : forall i j, same (E i) (E' j).
  Lemma f_variable : same variable variable.
  Proof. unfold variable, lower_case, upper_with_dots, op, is_a. es. Qed.
  Hint Resolve f_variable f_signature : core.
  Lemma f_list i j : same (list_f E i) (list_f E' j).
  Proof. unfold list_f. es. Qed.
  Lemma f_tuple i j : same (tuple_f E i) (tuple_f E' j).
  Proof. unfold tuple_f. es. Qed.
  Lemma f_names : same simplified_record simplified_record.
  Proof. unfold simplified_record, simplified_field. es. Qed.
  Hint Resolve f_list f_tuple f_names : core.
  Lemma f_term i j : same (term_f E i) (term_f E' j).
  Proof.
    unfold term_f, access, access_function, float, integer, sign, parens_f, record_update_f, update_field_f, record_f, record_field_f, separated_pair. es.
  Qed.
  Hint Resolve f_term : core.
  Lemma f_expression_f i j : same (expression_f E i) (expression_f E' j).
  Proof.
    unfold expression_f, binary_f, application_or_var_f, operator_exp_f, operator_or_as, let_expression_f, let_bindings_f, let_binding_f, let_binding_target_f,
      function_f, function_definition_f, binding_name, case_expression_f, cases_f, case_f, if_expression_f, lambda_f, space1. es.
  Qed.
End E.
Lemma f_expression_n n : forall n' i j, same (expression_n n i) (expression_n n' j).
Proof.
  induction n as [|n IH]; intros [|n'] i j s s' Hs; try exact I; [apply rel_abort|].
  cbn [expression_n]. apply (f_expression_f (expression_n n) (expression_n n') (IH n')). exact Hs.
Qed.
Lemma f_expression i j : same (expression i) (expression j).
Proof. intros s s' Hs. apply f_expression_n. exact Hs. Qed.

(** ** Equal results *)
Lemma same_eq {A} (p q : parser A) s : has_newline s = false -> same p q -> (forall m, p s <> Abort m) -> (forall m, q s <> Abort m) -> p s = q s.
Proof.
  intros Hs H Hp Hq. specialize (H s s (conj eq_refl Hs)). unfold rel in H.
  destruct (p s) as [r a| |m], (q s) as [r' b| |m']; try tauto; try (destruct (Hp m eq_refl)); try (destruct (Hq m' eq_refl)); try reflexivity.
  destruct H as (-> & [-> _] & _). reflexivity.
Qed.
