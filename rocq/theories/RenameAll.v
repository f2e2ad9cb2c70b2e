(** * Names do not matter: types, expressions, statements and files *)
From Verif Require Import Base Nom Ast Good Spec Grammar Helpers Types Expr Stmt Lexers Layout Follow SoundE LexProps Heads Names TwoRuns Rename RenameSim.

(** the result of the second run is the image of the result of the first *)
Definition to {A B} (h : A -> B) (a : A) (b : B) : Prop := b = h a.

Lemma stops_sp_gt0 : stops sp_gt0. Proof. apply stops_sp. Qed.
Ltac stop := apply stops_bind; first [apply stops_sp|apply stops_sp_gt0|apply stops_spaces|apply stops_multispace].
Ltac keyword := cbn; tauto.

Section All.
Variable f : str -> str.
Hypothesis Hf : renaming f.
Notation g := (rename f).
Notation X := (rn (graph f)).
Notation sim := (sim X).
Let HP : keeps (graph f) := graph_keeps f Hf.

Lemma rename_solid w : forallb solid w = true -> g w = w.
Proof.
  induction w as [|c w IH]; intros H; [reflexivity|]. cbn in H. apply andb_true_iff in H as [Hc H]. apply negb_true_iff in Hc.
  rewrite rename_char by exact Hc. rewrite IH by exact H. reflexivity.
Qed.
Lemma sim_lo_name : sim (to g) lo_name lo_name.
Proof.
  eapply sim_weak; [intros a b; apply rn_rename|]. apply (fw_self (fun P => rn P)); [apply fw_lo_name|exact HP].
Qed.
Lemma sim_up_name : sim (to g) up_name up_name.
Proof.
  eapply sim_weak; [intros a b; apply rn_rename|]. apply (fw_self (fun P => rn P)); [apply fw_up_name|exact HP].
Qed.
Lemma sim_type_variable : sim (to (names_type g)) type_variable type_variable.
Proof.
  eapply sim_weak; [|apply (fw_self _ type_variable _ fw_type_variable), HP].
  intros a b (n & n' & -> & -> & H). apply rn_rename in H. subst. reflexivity.
Qed.
Lemma op_solid n : operator_name n -> forallb solid n = true.
Proof. intros (_ & H & _). apply (solid_class is_op_char); auto. Qed.
Lemma sim_operator_name : sim (to g) operator operator.
Proof.
  intros s s' Hs. pose proof (sim_operator _ HP s s' Hs) as H. unfold rel in *.
  destruct (operator s) as [r a| |] eqn:E; destruct (operator s') as [r' b| |]; auto.
  destruct H as [<- H]. split; [|exact H]. apply operator_iff in E as (_ & E & _). unfold to. rewrite rename_solid; [reflexivity|]. apply op_solid, E.
Qed.
Lemma sim_commas : sim (to g) (is_a (L ",")) (is_a (L ",")).
Proof.
  intros s s' Hs. pose proof (sim_take_while1 _ HP (fun c => mem_char c (L ",")) eq_refl s s' Hs) as H.
  change (rel X eq s s' (is_a (L ",") s) (is_a (L ",") s')) in H. unfold rel in *.
  destruct (is_a (L ",") s) as [r a| |] eqn:E; destruct (is_a (L ",") s') as [r' b| |]; auto.
  destruct H as [<- H]. split; [|exact H]. apply take1_word in E as (w & _ & (-> & _ & E) & _). unfold to. rewrite rename_solid; [reflexivity|].
  eapply solid_class; [|exact E]. reflexivity.
Qed.

Ltac sim1 :=
  lazymatch goal with
  | |- TwoRuns.sim _ _ (bind (tag _) _) _ =>
      first [eapply sim_bind; [apply sim_tag; [exact HP|reflexivity]|intros ? ? ?]
            |apply sim_keyword; [exact HP|keyword|stop|stop|intros ?]]
  | |- TwoRuns.sim _ _ (bind _ _) _ => eapply sim_bind; [|intros ? ? ?]
  | |- TwoRuns.sim _ _ (preceded _ _) _ => eapply sim_preceded
  | |- TwoRuns.sim _ _ (terminated _ _) _ => eapply sim_terminated
  | |- TwoRuns.sim _ _ (delimited _ _ _) _ => eapply sim_delimited
  | |- TwoRuns.sim _ _ (separated_list _ _) _ => eapply sim_separated_list
  | |- TwoRuns.sim _ _ (separated_nonempty_list _ _) _ => eapply sim_separated_nonempty
  | |- TwoRuns.sim _ _ (many0 _) _ => eapply sim_many0
  | |- TwoRuns.sim _ _ (many1 _) _ => eapply sim_many1
  | |- TwoRuns.sim _ _ (opt_sp _) _ => unfold opt_sp
  | |- TwoRuns.sim _ _ (comma_sep _) _ => unfold comma_sep
  | |- TwoRuns.sim _ _ (opt _) _ => eapply sim_opt
  | |- TwoRuns.sim _ _ (alt _ _) _ => apply sim_alt
  | |- TwoRuns.sim _ _ (tag _) _ => apply sim_tag; [exact HP|reflexivity]
  | |- TwoRuns.sim _ _ (char_ _) _ => apply sim_char; [exact HP|reflexivity]
  | |- TwoRuns.sim _ _ (spaces_or_new_lines_and_indent _ _) _ => apply sim_sp; exact HP
  | |- TwoRuns.sim _ _ sp_gt0 _ => apply sim_sp; exact HP
  | |- TwoRuns.sim _ _ lo_name _ => apply sim_lo_name
  | |- TwoRuns.sim _ _ up_name _ => apply sim_up_name
  | |- TwoRuns.sim _ _ type_variable _ => apply sim_type_variable
  | |- TwoRuns.sim _ _ operator _ => apply sim_operator_name
  | |- TwoRuns.sim _ _ spaces _ => apply sim_take_while1; [exact HP|reflexivity]
  | |- TwoRuns.sim _ _ spaces_and_newlines _ => apply sim_take_while1; [exact HP|reflexivity]
  | |- TwoRuns.sim _ _ space1 _ => apply sim_take_while1; [exact HP|reflexivity]
  | |- TwoRuns.sim _ _ multispace _ => apply sim_take_while1; [exact HP|reflexivity]
  | |- TwoRuns.sim _ _ multispace0 _ => apply sim_take_while0; [exact HP|reflexivity]
  end.
Ltac sims := repeat sim1.
Ltac norm :=
  repeat match goal with
  | H : Forall2 (to _) _ _ |- _ => apply Forall2_is_map in H
  | H : opt_rel (to _) _ _ |- _ => apply opt_rel_is_map in H
  | H : to _ _ _ |- _ => unfold to in H
  end; subst; unfold to.
Ltac fin := norm; try (apply sim_ret; reflexivity).

(** ** Types *)
Notation ty := (names_type g).
Definition ty_pair : str * type_ast -> str * type_ast := fun '(n, t) => (g n, ty t).
Lemma arrow_map l : arrow_of_list (map ty l) = option_map ty (arrow_of_list l).
Proof.
  unfold arrow_of_list. destruct l as [|x [|y l]]; [reflexivity|reflexivity|].
  cbn [map]. change (ty x :: ty y :: map ty l) with (map ty (x :: y :: l)). rewrite <- map_rev.
  destruct (rev (x :: y :: l)) as [|u [|v rest]]; [reflexivity|reflexivity|]. cbn [map option_map]. f_equal.
  change (TypeApplication (ty v) (ty u)) with (ty (TypeApplication v u)). generalize (TypeApplication v u).
  induction rest as [|z rest IH]; intros a; [reflexivity|]. cbn [map fold_left].
  change (TypeApplication (ty z) (ty a)) with (ty (TypeApplication z a)). apply IH.
Qed.

Section Types.
  Variables T T' : N -> parser type_ast.
  Hypothesis HT : forall i, sim (to ty) (T i) (T' i).

  Lemma sim_annotation_f i : sim (to ty) (type_annotation_f T i) (type_annotation_f T' i).
  Proof.
    unfold type_annotation_f. eapply sim_map_res; [sims; apply HT|].
    intros a a' H. apply Forall2_is_map in H. subst a'. rewrite arrow_map. destruct (arrow_of_list a); cbn; reflexivity.
  Qed.
  Lemma sim_tuple_type_f i : sim (to ty) (type_tuple_f T i) (type_tuple_f T' i).
  Proof. unfold type_tuple_f. eapply sim_map; [sims; apply HT|]. intros a a' H. norm. reflexivity. Qed.
  Lemma sim_pair_f i : sim (to ty_pair) (type_record_pair_f T i) (type_record_pair_f T' i).
  Proof. unfold type_record_pair_f. sims; [apply sim_annotation_f|]. fin. Qed.
  Lemma sim_pairs_f i : sim (Forall2 (to ty_pair)) (type_record_pairs_f T i) (type_record_pairs_f T' i).
  Proof. unfold type_record_pairs_f. sims. apply sim_pair_f. Qed.
  Lemma sim_extension_f i : sim (to ty) (type_record_constructor_f T i) (type_record_constructor_f T' i).
  Proof. unfold type_record_constructor_f. sims; [apply sim_pairs_f|sims]. fin. Qed.
  Lemma sim_record_type_f i : sim (to ty) (type_record_f T i) (type_record_f T' i).
  Proof. unfold type_record_f. sims. eapply sim_map; [apply sim_pairs_f|]. intros a a' H. norm. reflexivity. Qed.
  Lemma sim_parens_type_f i : sim (to ty) (type_parens_f T i) (type_parens_f T' i).
  Proof. unfold type_parens_f. sims. apply sim_annotation_f. Qed.
  Lemma sim_parameter_f i : sim (to ty) (type_parameter_f T i) (type_parameter_f T' i).
  Proof.
    unfold type_parameter_f. sims.
    - unfold type_constant. eapply sim_map; [sims|]. intros a a' H. norm. reflexivity.
    - apply sim_extension_f.
    - apply sim_record_type_f.
    - apply sim_tuple_type_f.
    - apply sim_parens_type_f.
  Qed.
  Lemma sim_constructor_f i : sim (to ty) (type_constructor_f T i) (type_constructor_f T' i).
  Proof.
    unfold type_constructor_f. sims.
    - subst. apply sim_parameter_f.
    - apply sim_ret. eassumption.
    - fin.
  Qed.
  Lemma sim_type_f i : sim (to ty) (type_f T i) (type_f T' i).
  Proof.
    unfold type_f. sims.
    - apply sim_constructor_f.
    - apply sim_extension_f.
    - apply sim_record_type_f.
    - apply sim_tuple_type_f.
    - apply sim_parens_type_f.
  Qed.
End Types.
Lemma sim_type_n n : forall n' i, sim (to ty) (type_n n i) (type_n n' i).
Proof.
  induction n as [|n IH]; intros [|n'] i s s' Hs; try exact I; [apply rel_abort|].
  cbn [type_n]. apply sim_type_f; auto.
Qed.
Lemma sim_type i : sim (to ty) (type_ i) (type_ i).
Proof. intros s s' Hs. apply sim_type_n; assumption. Qed.
Lemma sim_annotation i : sim (to ty) (type_annotation i) (type_annotation i).
Proof. apply sim_annotation_f, sim_type. Qed.
Lemma sim_constructor i : sim (to ty) (type_constructor i) (type_constructor i).
Proof. apply sim_constructor_f, sim_type. Qed.

(** ** Expressions *)
Notation ex := (names_expr g).
Lemma sim_string : sim (to ex) string_ string_.
Proof.
  eapply sim_map with (RA := to g); [|intros a a' H; norm; reflexivity]. apply sim_alt.
  - eapply sim_weak; [intros a b; apply rn_rename|]. apply (fw_self (fun P => rn P)); [intros P _; apply fw_multi|exact HP].
  - eapply sim_weak; [intros a b; apply rn_rename|]. apply (fw_self (fun P => rn P)); [intros P _; apply fw_single|exact HP].
Qed.
Lemma sim_character : sim (to ex) character character.
Proof.
  intros s s' Hs. pose proof (fw_self (fun _ => eq) character _ (fun P _ => fw_character P) HP s s' Hs) as H. unfold rel in *.
  destruct (character s) as [r a| |] eqn:E; destruct (character s') as [r' b| |]; auto.
  destruct H as [<- H]. split; [|exact H]. apply character_iff in E as (w & c & -> & _). reflexivity.
Qed.
Lemma sim_variable : sim (to ex) variable variable.
Proof.
  unfold variable, lower_case, upper_with_dots, op. sims.
  - eapply sim_map; [sims|]. intros a a' H. norm. reflexivity.
  - eapply sim_map; [sims|]. intros a a' H. norm. reflexivity.
  - eapply sim_map; [sims; apply sim_commas|]. intros a a' H. norm. reflexivity.
Qed.
Lemma sim_access : sim (to ex) access access.
Proof.
  unfold access. eapply sim_bind; [apply sim_variable|]. intros v v' Hv. sims; [apply sim_ret; eassumption|]. fin.
Qed.
Lemma sim_access_function : sim (to ex) access_function access_function.
Proof. unfold access_function. sims. fin. Qed.
Lemma sim_sign : sim eq sign sign.
Proof. unfold sign. eapply sim_map; [sims|]. intros a a' H. apply opt_rel_eq in H. rewrite H; reflexivity. Qed.
Lemma sim_digit : sim eq digit digit.
Proof. apply sim_take_while1; [exact HP|reflexivity]. Qed.
Lemma sim_float : sim (to ex) float float.
Proof.
  unfold float. eapply sim_bind; [apply sim_sign|]. intros a a' ->. eapply sim_bind; [apply sim_digit|]. intros b b' ->.
  sims; [apply sim_digit|]. fin.
Qed.
Lemma sim_integer : sim (to ex) integer integer.
Proof.
  unfold integer. eapply sim_bind; [apply sim_sign|]. intros a a' ->. eapply sim_bind; [apply sim_digit|]. intros b b' ->. fin.
Qed.
Lemma sim_binding_name : sim (to g) binding_name binding_name.
Proof. unfold binding_name. sims. Qed.
Lemma sim_signature i : sim (to (names_sig g)) (function_signature i) (function_signature i).
Proof.
  unfold function_signature. eapply sim_bind; [apply sim_binding_name|]. intros n n' Hn. sims.
  - subst. apply sim_annotation.
  - fin.
Qed.
Lemma application_map l : application_of_list (map ex l) = option_map ex (application_of_list l).
Proof.
  destruct l as [|x [|y l]]; [reflexivity|reflexivity|]. cbn [map application_of_list option_map]. f_equal.
  change (Application (ex x) (ex y)) with (ex (Application x y)). generalize (Application x y).
  induction l as [|z l IH]; intros a; [reflexivity|]. cbn [map fold_left].
  change (Application (ex a) (ex z)) with (ex (Application a z)). apply IH.
Qed.
Lemma sim_nl i : sim eq (new_line_and_same_indent i) (new_line_and_same_indent i).
Proof.
  unfold new_line_and_same_indent. eapply sim_map_res with (RA := eq).
  - sims. unfold spaces0. eapply sim_map with (RA := eq); [|congruence]. eapply sim_map; [sims|].
    + apply (sim_take_while1 _ HP (fun c => mem_char c [32%N])). reflexivity.
    + intros a a' H. apply opt_rel_eq in H. subst. reflexivity.
  - intros a a' ->. destruct (a' =? i)%N; cbn; auto.
Qed.

Section Expressions.
  Variables E E' : N -> parser expr.
  Hypothesis HE : forall i, sim (to ex) (E i) (E' i).
  Definition ex_field : str * expr -> str * expr := fun '(n, e) => (g n, ex e).
  Definition ex_pair : expr * expr -> expr * expr := fun '(p, e) => (ex p, ex e).

  Lemma sim_tuple_f i : sim (to ex) (tuple_f E i) (tuple_f E' i).
  Proof. unfold tuple_f. eapply sim_map; [sims; apply HE|]. intros l l' H. norm. reflexivity. Qed.
  Lemma sim_list_f i : sim (to ex) (list_f E i) (list_f E' i).
  Proof.
    unfold list_f. eapply sim_map; [sims; apply HE|]. intros [l|] [l'|] H; try destruct H; norm; reflexivity.
  Qed.
  Lemma sim_record_field_f i : sim (to ex_field) (record_field_f E i) (record_field_f E' i).
  Proof. unfold record_field_f, separated_pair. sims; [apply HE|]. fin. Qed.
  Lemma sim_record_f i : sim (to ex) (record_f E i) (record_f E' i).
  Proof. unfold record_f. eapply sim_map; [sims; apply sim_record_field_f|]. intros l l' H. norm. reflexivity. Qed.
  Lemma sim_simplified_field : sim (to ex_field) simplified_field simplified_field.
  Proof. unfold simplified_field. sims. fin. Qed.
  Lemma sim_simplified_record : sim (to ex) simplified_record simplified_record.
  Proof. unfold simplified_record. eapply sim_map; [sims; apply sim_simplified_field|]. intros l l' H. norm. reflexivity. Qed.
  Lemma sim_update_field_f i : sim (to ex_field) (update_field_f E i) (update_field_f E' i).
  Proof. unfold update_field_f. sims; [apply HE|]. fin. Qed.
  Lemma sim_opt_spaces i : sim eq (opt_spaces_or_new_lines_and_indent i IR_GTE) (opt_spaces_or_new_lines_and_indent i IR_GTE).
  Proof.
    unfold opt_spaces_or_new_lines_and_indent. eapply sim_map; [sims|]. intros a a' H. apply opt_rel_eq in H. subst. reflexivity.
  Qed.
  Lemma sim_record_update_f i : sim (to ex) (record_update_f E i) (record_update_f E' i).
  Proof. unfold record_update_f. sims; try apply sim_opt_spaces; [apply sim_update_field_f|]. fin. Qed.
  Lemma sim_parens_f i : sim (to ex) (parens_f E i) (parens_f E' i).
  Proof. unfold parens_f. sims. apply HE. Qed.
  Lemma sim_term_f i : sim (to ex) (term_f E i) (term_f E' i).
  Proof.
    unfold term_f.
    apply sim_alt; [apply sim_access|]. apply sim_alt; [apply sim_variable|]. apply sim_alt; [apply sim_access_function|].
    apply sim_alt; [apply sim_string|]. apply sim_alt; [apply sim_float|]. apply sim_alt; [apply sim_integer|].
    apply sim_alt; [apply sim_character|]. apply sim_alt; [apply sim_parens_f|].
    apply sim_alt; [apply sim_list_f|]. apply sim_alt; [apply sim_tuple_f|].
    apply sim_alt; [apply sim_record_update_f|]. apply sim_alt; [apply sim_record_f|]. apply sim_simplified_record.
  Qed.
  Lemma sim_lambda_f i : sim (to ex) (lambda_f E i) (lambda_f E' i).
  Proof. unfold lambda_f. sims; [apply sim_term_f|subst; apply HE|]. fin. Qed.
  Lemma sim_application_f i : sim (to ex) (application_or_var_f E i) (application_or_var_f E' i).
  Proof.
    unfold application_or_var_f. eapply sim_map_res; [sims; apply sim_term_f|].
    intros l l' H. norm. rewrite application_map. destruct (application_of_list l); cbn; reflexivity.
  Qed.
  Lemma sim_definition_f i : sim (to (names_def g)) (function_definition_f E i) (function_definition_f E' i).
  Proof.
    unfold function_definition_f. eapply sim_bind; [apply sim_binding_name|]. intros n n' Hn.
    sims; [apply sim_term_f|subst; apply HE|]. fin.
  Qed.
  Lemma sim_function_f i : sim (to (names_func g)) (function_f E i) (function_f E' i).
  Proof.
    unfold function_f. sims; [apply sim_signature|apply sim_nl|apply sim_definition_f|]. fin.
  Qed.
  Lemma sim_let_binding_target_f i : sim (to ex) (let_binding_target_f E i) (let_binding_target_f E' i).
  Proof.
    unfold let_binding_target_f. apply sim_alt; [apply sim_variable|]. apply sim_alt; [apply sim_list_f|].
    apply sim_alt; [apply sim_tuple_f|]. apply sim_simplified_record.
  Qed.
  Lemma sim_let_binding_f i : sim (to (names_entry g)) (let_binding_f E i) (let_binding_f E' i).
  Proof.
    unfold let_binding_f. eapply sim_bind; [apply sim_let_binding_target_f|]. intros b b' Hb. sims; [subst; apply HE|]. fin.
  Qed.
  Lemma sim_let_bindings_f i : sim (Forall2 (to (names_entry g))) (let_bindings_f E i) (let_bindings_f E' i).
  Proof.
    unfold let_bindings_f. sims; [apply sim_let_binding_f|].
    eapply sim_map; [apply sim_function_f|]. intros h h' H. norm. reflexivity.
  Qed.
  Lemma sim_let_expression_f i : sim (to ex) (let_expression_f E i) (let_expression_f E' i).
  Proof.
    unfold let_expression_f. sims; subst; try apply sim_let_bindings_f; sims; try apply HE. fin.
  Qed.
  Lemma sim_case_f i : sim (to ex_pair) (case_f E i) (case_f E' i).
  Proof. unfold case_f. eapply sim_bind; [apply HE|]. intros b b' Hb. sims; [subst; apply HE|]. fin. Qed.
  Lemma sim_cases_f i : sim (Forall2 (to ex_pair)) (cases_f E i) (cases_f E' i).
  Proof. unfold cases_f. sims. apply sim_case_f. Qed.
  Lemma sim_case_expression_f i : sim (to ex) (case_expression_f E i) (case_expression_f E' i).
  Proof. unfold case_expression_f. sims; try apply HE; sims; subst; try apply sim_cases_f. fin. Qed.
  Lemma sim_if_expression_f i : sim (to ex) (if_expression_f E i) (if_expression_f E' i).
  Proof.
    unfold if_expression_f. do 3 (sims; subst; try apply HE). fin.
  Qed.
  (** a name can not start an operator *)
  Lemma stops_operator : stops operator.
  Proof.
    intros s Hs. destruct (operator s) as [r a| |w] eqn:E0; [exfalso|reflexivity|exfalso].
    - apply operator_iff in E0 as (-> & (Hne & Ha & _) & _). destruct a as [|c a]; [congruence|]. cbn in Hs, Ha.
      apply andb_true_iff in Ha as [Ha _]. revert Hs. unfold is_op_char in Ha. rewrite (mem_not_name op_chars eq_refl c Ha). discriminate.
    - rewrite operator_eq in E0. destruct (span is_op_char s) as [[|c a] b]; [discriminate|]. destruct (mem_str (c :: a) reserved_operators); discriminate.
  Qed.
  Lemma sim_operator_tail i : sim (to ex_pair)
    (bind operator_or_as (fun o => multispace ;;; e <- E i ;; ret (o, e)))
    (bind operator_or_as (fun o => multispace ;;; e <- E' i ;; ret (o, e))).
  Proof.
    set (K := fun (F : N -> parser expr) (o : str) => multispace ;;; e <- F i ;; ret (Variable_ [o], e)).
    assert (HK : forall o o', to g o o' -> sim (to ex_pair) (K E o) (K E' o')).
    { intros o o' Ho. unfold K. sims; [apply HE|]. fin. }
    assert (Hs : forall F s, bind operator_or_as (fun o => multispace ;;; e <- F i ;; ret (o, e)) s =
                   match tag (L "as") s with Ok r a => K F (L "as") r | Err => bind operator (K F) s | Abort w => Abort w end).
    { intros F s. unfold operator_or_as, K, bind, map_, alt. destruct (tag (L "as") s) as [r a| |] eqn:Et; [|destruct (operator s); reflexivity|reflexivity].
      apply tag_iff in Et as [_ ->]. reflexivity. }
    intros s s' HX. rewrite !Hs.
    destruct (keyword_there _ HP (L "as") s s') as [(r & r' & -> & -> & Hr & HPk & _)|[H1 H2]]; [keyword|exact HX| |].
    - assert (Et : forall r, tag (L "as") (L "as" ++ r) = Ok r (L "as")) by (intros x; apply tag_iff; auto). rewrite !Et.
      assert (Hk : to g (L "as") (L "as")).
      { unfold to. rewrite <- (app_nil_r (L "as")) at 2. rewrite rename_lower; [|apply keyword_tyvar; keyword|exact I].
        rewrite app_nil_r. exact HPk. }
      specialize (HK _ _ Hk r r' Hr). unfold rel in *. destruct (K E (L "as") r), (K E' (L "as") r'); auto.
      destruct HK as (Ha & Hx & t & t' & -> & -> & Ht). split; [exact Ha|]. split; [exact Hx|]. exists (L "as" ++ t), (L "as" ++ t').
      rewrite <- !app_assoc. split; [reflexivity|]. split; [reflexivity|]. split; discriminate.
    - assert (Hop : rel X (to ex_pair) s s' (bind operator (K E) s) (bind operator (K E') s')).
      { eapply rel_bind; [apply sim_operator_name, HX|exact HK]. }
      assert (Hgone : forall F w, (forall r, w = L "as" ++ r -> on_name r) ->
        match tag (L "as") w with Ok r a => K F (L "as") r | Err => bind operator (K F) w | Abort x => Abort x end = bind operator (K F) w).
      { intros F w Hw. destruct (tag (L "as") w) as [r a| |x] eqn:Et; [|reflexivity|].
        - apply tag_iff in Et as [-> _]. unfold K at 1. rewrite stops_bind; [|apply stops_multispace|apply Hw; reflexivity].
          rewrite stops_bind; [reflexivity|apply stops_operator|reflexivity].
        - unfold tag, need_more in Et. destruct (strip (L "as") w); discriminate Et. }
      rewrite !Hgone by assumption. exact Hop.
  Qed.
  Lemma sim_operator_exp_f i : sim (to ex_pair) (operator_exp_f E i) (operator_exp_f E' i).
  Proof. unfold operator_exp_f. eapply sim_bind; [sims|]. intros _ _ _. apply sim_operator_tail. Qed.
  Lemma sim_binary_f i : sim (to ex) (binary_f E i) (binary_f E' i).
  Proof.
    unfold binary_f. eapply sim_bind; [apply sim_application_f|]. intros a a' Ha.
    sims; [apply sim_operator_exp_f|]. norm. destruct a0 as [[o e]|]; apply sim_ret; reflexivity.
  Qed.
  Lemma sim_expression_f i : sim (to ex) (expression_f E i) (expression_f E' i).
  Proof.
    unfold expression_f. apply sim_alt; [apply sim_binary_f|]. apply sim_alt; [apply sim_let_expression_f|].
    apply sim_alt; [apply sim_case_expression_f|]. apply sim_alt; [apply sim_if_expression_f|]. apply sim_lambda_f.
  Qed.
End Expressions.
Lemma sim_expression_n n : forall n' i, sim (to ex) (expression_n n i) (expression_n n' i).
Proof.
  induction n as [|n IH]; intros [|n'] i s s' Hs; try exact I; [apply rel_abort|].
  cbn [expression_n]. apply sim_expression_f; auto.
Qed.
Lemma sim_expression i : sim (to ex) (expression i) (expression i).
Proof. intros s s' Hs. apply sim_expression_n; assumption. Qed.
Lemma sim_function i : sim (to (names_func g)) (function i) (function i).
Proof. apply sim_function_f, sim_expression. Qed.

(** ** Statements and files *)
Notation xp := (names_export g).
Notation st := (names_statement g).
Lemma sim_all_export : sim (to xp) all_export all_export.
Proof. unfold all_export. eapply sim_map; [sims|]. reflexivity. Qed.
Lemma sim_function_export : sim (to xp) function_export function_export.
Proof.
  unfold function_export, function_name. eapply sim_map with (RA := to g); [sims|intros a a' H; norm; reflexivity].
  eapply sim_map; [sims|auto].
Qed.
Lemma sim_constructor_subset : sim (to xp) constructor_subset_exports constructor_subset_exports.
Proof.
  unfold constructor_subset_exports. eapply sim_map.
  - sims. eapply sim_map with (RB := to xp); [sims|]. intros a a' H. norm. reflexivity.
  - intros a a' H. norm. reflexivity.
Qed.
Lemma sim_constructor_exports : sim (opt_rel (to xp)) constructor_exports constructor_exports.
Proof. unfold constructor_exports. sims; [apply sim_all_export|apply sim_constructor_subset]. Qed.
Lemma sim_type_export : sim (to xp) type_export type_export.
Proof. unfold type_export. sims; [apply sim_constructor_exports|]. fin. Qed.
Lemma sim_subset_export : sim (to xp) subset_export subset_export.
Proof.
  unfold subset_export. eapply sim_map; [sims; [apply sim_function_export|apply sim_type_export]|].
  intros a a' H. norm. reflexivity.
Qed.
Lemma sim_exports : sim (to xp) exports exports.
Proof. unfold exports. sims; [apply sim_all_export|apply sim_subset_export]. Qed.
Lemma sim_module_name : sim (Forall2 (to g)) module_name module_name.
Proof. unfold module_name. sims. Qed.
Ltac st := sims; try apply sim_module_name; try apply sim_exports; sims; fin.
Lemma sim_port_module : sim (to st) port_module_declaration port_module_declaration.
Proof. unfold port_module_declaration. st. Qed.
Lemma sim_effect_field : sim (to (fun '(a, b) => (g a, g b))) effect_field effect_field.
Proof. unfold effect_field. st. Qed.
Lemma sim_effect_module : sim (to st) effect_module_declaration effect_module_declaration.
Proof.
  unfold effect_module_declaration. sims; try apply sim_module_name; sims; try apply sim_effect_field; try apply sim_exports. fin.
Qed.
Lemma sim_module : sim (to st) module_declaration module_declaration.
Proof. unfold module_declaration. st. Qed.
Lemma sim_import : sim (to st) import_statement import_statement.
Proof.
  unfold import_statement, delimited. sims; try apply sim_module_name; sims; try apply sim_exports; try (apply sim_ret; reflexivity). fin.
Qed.
Lemma sim_alias : sim (to st) type_alias_declaration type_alias_declaration.
Proof. unfold type_alias_declaration. sims; try apply sim_type; sims; try apply sim_annotation. fin. Qed.
Lemma sim_type_declaration : sim (to st) (type_declaration 0) (type_declaration 0).
Proof. unfold type_declaration. sims; try apply sim_type; sims; subst; try apply sim_sp; try apply sim_constructor; try exact HP. fin. Qed.
Lemma sim_port_type : sim (to st) port_type_declaration port_type_declaration.
Proof. unfold port_type_declaration. sims; subst; try apply sim_annotation. fin. Qed.
Lemma sim_port : sim (to st) port_declaration port_declaration.
Proof. unfold port_declaration. sims; subst; try apply sim_expression. fin. Qed.
Lemma sim_infix_tail a : sim (to st)
  (spaces ;;; v <- map_res parse_i64 digit ;; spaces ;;; name <- (lo_name <|> operator) ;; ret (InfixDeclaration a v name))
  (spaces ;;; v <- map_res parse_i64 digit ;; spaces ;;; name <- (lo_name <|> operator) ;; ret (InfixDeclaration a v name)).
Proof.
  sims.
  - eapply sim_map_res with (RB := eq); [apply sim_digit|]. intros u u2 ->. destruct (parse_i64 u2); cbn; auto.
  - fin.
Qed.
Lemma stops_infix_tail a : stops (spaces ;;; v <- map_res parse_i64 digit ;; spaces ;;; name <- (lo_name <|> operator) ;; ret (InfixDeclaration a v name)).
Proof. apply stops_bind, stops_spaces. Qed.
Lemma tag_fails k s : (forall r, s <> k ++ r) -> tag k s = Err.
Proof.
  intros H. unfold tag, need_more. destruct (strip k s) as [r|] eqn:E; [|reflexivity]. apply strip_iff in E. destruct (H r E).
Qed.
Lemma sim_infix : sim (to st) infix_declaration infix_declaration.
Proof.
  set (T := fun a => spaces ;;; v <- map_res parse_i64 digit ;; spaces ;;; name <- (lo_name <|> operator) ;; ret (InfixDeclaration a v name)).
  assert (Hs : forall s, infix_declaration s =
    match tag (L "infixl") s with Ok r _ => T AssocL r | Err =>
    match tag (L "infixr") s with Ok r _ => T AssocR r | Err =>
    match tag (L "infix") s with Ok r _ => T AssocN r | Err => Err | Abort w => Abort w end | Abort w => Abort w end | Abort w => Abort w end).
  { intros s. unfold infix_declaration, T, bind at 1, value, alt, map_.
    destruct (tag (L "infixl") s); [reflexivity| |reflexivity]. destruct (tag (L "infixr") s); [reflexivity| |reflexivity].
    destruct (tag (L "infix") s); reflexivity. }
  assert (Et : forall k r, tag k (k ++ r) = Ok r k) by (intros k x; apply tag_iff; auto).
  assert (Hstep : forall k a r r', rn (graph f) r r' -> k <> [] -> rel X (to st) (k ++ r) (k ++ r') (T a r) (T a r')).
  { intros k a r r' Hr Hk. pose proof (sim_infix_tail a r r' Hr) as H. fold (T a) in H. unfold rel in *. destruct (T a r), (T a r'); auto.
    destruct H as (Ha & Hx & t & t' & -> & -> & Ht). split; [exact Ha|]. split; [exact Hx|]. exists (k ++ t), (k ++ t').
    rewrite <- !app_assoc. split; [reflexivity|]. split; [reflexivity|]. split; intros E; apply app_eq_nil in E as [E _]; congruence. }
  intros s s' HX. rewrite !Hs.
  destruct (keyword_there _ HP (L "infixl") s s') as [(r & r' & -> & -> & Hr & _)|[A1 A2]]; [keyword|exact HX| |].
  { rewrite !Et. apply Hstep; [exact Hr|discriminate]. }
  destruct (keyword_there _ HP (L "infixr") s s') as [(r & r' & -> & -> & Hr & _)|[B1 B2]]; [keyword|exact HX| |].
  { rewrite !(tag_fails (L "infixl")) by (intros x; discriminate). rewrite !Et. apply Hstep; [exact Hr|discriminate]. }
  destruct (keyword_there _ HP (L "infix") s s') as [(r & r' & -> & -> & Hr & _ & He & He')|[C1 C2]]; [keyword|exact HX| |].
  { assert (Hn : forall r c, ends is_name_char r -> is_name_char c = true -> tag (L "infix" ++ [c]) (L "infix" ++ r) = Err).
    { intros x c Hx Hc. apply tag_fails. intros y Ey. rewrite <- app_assoc in Ey. apply app_inv_head in Ey. subst x. cbn in Hx. congruence. }
    assert (H1 : forall r, ends is_name_char r -> tag (L "infixl") (L "infix" ++ r) = Err) by (intros x Hx; apply (Hn x (C "l") Hx eq_refl)).
    assert (H2 : forall r, ends is_name_char r -> tag (L "infixr") (L "infix" ++ r) = Err) by (intros x Hx; apply (Hn x (C "r") Hx eq_refl)).
    rewrite !H1, !H2, !Et by assumption. apply Hstep; [exact Hr|discriminate]. }
  assert (Hgone : forall w, (forall r, w = L "infixl" ++ r -> on_name r) -> (forall r, w = L "infixr" ++ r -> on_name r) -> (forall r, w = L "infix" ++ r -> on_name r) ->
    match tag (L "infixl") w with Ok r _ => T AssocL r | Err =>
    match tag (L "infixr") w with Ok r _ => T AssocR r | Err =>
    match tag (L "infix") w with Ok r _ => T AssocN r | Err => Err | Abort w => Abort w end | Abort w => Abort w end | Abort w => Abort w end = Err).
  { intros w H1 H2 H3.
    assert (Hab : forall k x, tag k w <> Abort x) by (intros k x; unfold tag, need_more; destruct (strip k w); discriminate).
    destruct (tag (L "infixl") w) as [r a| |x] eqn:E1; [|..|destruct (Hab _ _ E1)].
    { apply tag_iff in E1 as [E1 _]. apply stops_infix_tail, H1, E1. }
    destruct (tag (L "infixr") w) as [r a| |x] eqn:E2; [|..|destruct (Hab _ _ E2)].
    { apply tag_iff in E2 as [E2 _]. apply stops_infix_tail, H2, E2. }
    destruct (tag (L "infix") w) as [r a| |x] eqn:E3; [|reflexivity|destruct (Hab _ _ E3)].
    apply tag_iff in E3 as [E3 _]. apply stops_infix_tail, H3, E3. }
  rewrite !Hgone by assumption. exact I.
Qed.
Lemma sim_comment : sim (to st) comment comment.
Proof.
  apply sim_alt.
  - eapply sim_map with (RA := to g); [|intros a a' H; norm; reflexivity].
    eapply sim_weak; [intros a b; apply rn_rename|]. apply (fw_self (fun P => rn P)); [intros P _; apply fw_line|exact HP].
  - eapply sim_map with (RA := to g); [|intros a a' H; norm; reflexivity].
    eapply sim_weak; [intros a b; apply rn_rename|]. apply (fw_self (fun P => rn P)); [intros P _; apply fw_block|exact HP].
Qed.
Lemma sim_statement : sim (to st) statement statement.
Proof.
  unfold statement. apply sim_alt; [apply sim_port_module|]. apply sim_alt; [apply sim_effect_module|]. apply sim_alt; [apply sim_module|].
  apply sim_alt; [apply sim_import|]. apply sim_alt; [apply sim_alias|]. apply sim_alt; [apply sim_type_declaration|].
  apply sim_alt; [apply sim_port_type|]. apply sim_alt; [apply sim_port|].
  apply sim_alt; [eapply sim_map; [apply sim_function|intros h h' H; norm; reflexivity]|].
  apply sim_alt; [apply sim_infix|]. apply sim_comment.
Qed.
Lemma sim_eof : sim any eof eof.
Proof.
  intros s s' Hs. pose proof (rn_empty _ _ _ _ Hs) as He. unfold eof. destruct s, s'; try (exfalso; destruct He as [He1 He2]; first [discriminate (He1 eq_refl)|discriminate (He2 eq_refl)]); [|exact I].
  split; [exact I|]. split; [exact Hs|]. exists [], []. tauto.
Qed.
Lemma sim_file : sim (Forall2 (to st)) file file.
Proof. unfold file, statements. sims; [apply sim_statement|apply sim_eof]. Qed.
End All.
