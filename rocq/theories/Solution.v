(** * The parser satisfies the rules of Language.v *)
From Verif Require Import Base Nom Regex Ast Good Spec Helpers Types Expr Stmt Lexers Total
  Layout Seqs Grammar Follow Sound SoundE SoundS LexProps Heads Rules Render CompleteT CompleteE
  CompleteX CompleteS Round Language Chains Exact Keywords Decls Brackets TypesExact Fail Errors.

Definition reads_expr (i : N) (s : str) (e : expr) (r : str) : Prop := expression i s = Ok r e.

Lemma items_imp {A} sep (R R' : str -> A -> str -> Prop) : (forall s x r, R s x r -> R' s x r) ->
  forall s l r, items sep R s l r -> items sep R' s l r.
Proof. intros H s l r. induction 1; econstructor; eauto. Qed.
Lemma items_eqv {A} sep (R R' : str -> A -> str -> Prop) : (forall s x r, R s x r <-> R' s x r) ->
  forall s l r, items sep R s l r <-> items sep R' s l r.
Proof. intros H s l r. split; apply items_imp; intros; apply H; assumption. Qed.
Lemma no_item_imp {A} sep (R R' : str -> A -> str -> Prop) : (forall s x r, R' s x r -> R s x r) ->
  forall r, no_item sep R r -> no_item sep R' r.
Proof. intros H r Hn t s x r' E Ht Hx. eapply Hn; eauto. Qed.
Lemma no_item_eqv {A} sep (R R' : str -> A -> str -> Prop) : (forall s x r, R s x r <-> R' s x r) ->
  forall r, no_item sep R r <-> no_item sep R' r.
Proof. intros H r. split; apply no_item_imp; intros; apply H; assumption. Qed.

(** ** Terms *)

Lemma list_rule_iff i s e r : list_rule reads_expr i s e r <-> bracketed i s e r.
Proof. reflexivity. Qed.
Lemma paren_rule_iff i s e r : paren_rule reads_expr i s e r <-> parenthesised i s e r.
Proof.
  unfold paren_rule, parenthesised, tuple_rule. change (padded_rule reads_expr i) with (padded i).
  unfold reads_expr. split.
  - intros [H|(es & [[-> H]|(x & s1 & xs & Hx & Hl & ->)] & Hne & ->)]; [auto| |].
    + right. left. auto.
    + right. right. exists x, s1, xs. repeat (split; [assumption|]). split; [|reflexivity].
      destruct xs as [|y ys]; [right|left; discriminate]. apply Hne. reflexivity.
  - intros [H|[[H ->]|(x & s1 & xs & Hx & Hl & Hne & ->)]]; [auto| |]; right.
    + exists []. split; [auto|]. split; [discriminate|reflexivity].
    + exists (x :: xs). split; [right; eauto 8|]. split; [|reflexivity]. intros y [= -> ->].
      destruct Hne as [Hne|Hne]; [congruence|exact Hne].
Qed.
Lemma record_rule_iff i s e r : record_rule reads_expr i s e r <-> braced i s e r.
Proof.
  unfold record_rule, braced, bare_record. change (field_rule reads_expr i) with (record_pair i).
  change (update_rule reads_expr i) with (update_pair i). split.
  - intros [H|[H|[H|H]]]; [tauto|tauto|tauto|]. left.
    destruct H as (t1 & n & t2 & b & s1 & fs & t3 & j3 & -> & H1 & Hn & H2 & Hb & Hs & H3 & H & ->).
    exists t1, n, t2, b, s1, fs, (t3 ++ L "}" ++ r), t3, j3. auto 12.
  - intros [H|[H|[H|H]]]; [|tauto..]. right. right. right.
    destruct H as (t1 & n & t2 & b & s1 & fs & s2 & t3 & j3 & -> & H1 & Hn & H2 & Hb & Hs & -> & H3 & H & ->).
    exists t1, n, t2, b, s1, fs, t3, j3. auto 12.
Qed.

Theorem term_rule_iff i s e r : term i s = Ok r e <-> term_rule reads_expr i s e r.
Proof.
  rewrite term_iff. unfold term_rule.
  split.
  - intros [H|[(n & -> & H1 & H2 & ->)|[H|[(s' & -> & H)|[(s' & -> & H)|(s' & -> & H)]]]]].
    + left. exact H.
    + right. left. exists (n ++ r), n. unfold lower_at. auto.
    + right. right. left. exact H.
    + do 3 right. left. exists s'. split; [reflexivity|apply paren_rule_iff, H].
    + do 4 right. left. exists s'. split; [reflexivity|exact H].
    + do 5 right. exists s'. split; [reflexivity|apply record_rule_iff, H].
  - intros [H|[(s' & n & -> & (-> & H1 & H2) & ->)|[H|[(s' & -> & H)|[(s' & -> & H)|(s' & -> & H)]]]]].
    + left. exact H.
    + right. left. eauto 10.
    + right. right. left. exact H.
    + do 3 right. left. exists s'. split; [reflexivity|apply paren_rule_iff, H].
    + do 4 right. left. exists s'. split; [reflexivity|exact H].
    + do 5 right. exists s'. split; [reflexivity|apply record_rule_iff, H].
Qed.

(** ** Applications and operators *)

Lemma arguments_rule i s xs r : arguments i s xs r <-> items (beyond i) (term_rule reads_expr i) s xs r.
Proof.
  split.
  - induction 1 as [r|t j s x s' xs r Ht Hx _ IH]; [constructor|].
    econstructor; [exists j; exact Ht|apply term_rule_iff, Hx|exact IH].
  - induction 1 as [r|t s x s' xs r (j & Ht) Hx _ IH]; [constructor|].
    econstructor; [exact Ht|apply term_rule_iff, Hx|exact IH].
Qed.
Lemma no_arguments_rule i r : no_more_arguments i r <-> no_item (beyond i) (term_rule reads_expr i) r.
Proof.
  split.
  - intros H t s x r' E (j & Ht) Hx. apply term_rule_iff in Hx. eapply H; eassumption.
  - intros H t j s r' x E Ht Hx. apply term_rule_iff in Hx. eapply H; [exact E|exists j; exact Ht|exact Hx].
Qed.
Lemma application_rule_iff i s e r : application_or_var i s = Ok r e <-> application_rule reads_expr i s e r.
Proof.
  rewrite application_iff. unfold application_rule. split.
  - intros (f & s1 & xs & Hf & Hx & Hn & ->). exists f, s1, xs.
    rewrite <- arguments_rule, <- no_arguments_rule, <- term_rule_iff. auto.
  - intros (f & s1 & xs & Hf & Hx & Hn & ->). exists f, s1, xs.
    rewrite arguments_rule, no_arguments_rule, term_rule_iff. auto.
Qed.
Lemma operation_rule_iff i s o e r : operation i s o e r <-> operation_rule reads_expr i s o e r.
Proof. reflexivity. Qed.

(** ** Functions *)

Lemma next_rule i s x r : next_argument i s x r <-> term_rule reads_expr i s x r.
Proof. unfold next_argument. apply term_rule_iff. Qed.

Lemma signature_rule_iff i s sg r : function_signature i s = Ok r sg <-> signature_rule reads_type i s sg r.
Proof.
  rewrite signature_iff. unfold signature_rule.
  split; intros (n & b & t & j & s' & ty & H1 & H2 & H3 & H4 & ->); exists n, b, t, j, s', ty;
    apply annotation_rule_iff in H4; auto.
Qed.
Lemma definition_rule_iff i s d r : function_definition i s = Ok r d <-> definition_rule reads_expr i s d r.
Proof.
  rewrite definition_iff. unfold definition_rule.
  split; intros (n & s1 & args & b & t & j & s' & e & H1 & H2 & H3 & H4 & H5 & ->); exists n, s1, args, b, t, j, s', e;
    apply (items_eqv spaces1 _ _ (next_rule i)) in H2; auto 10.
Qed.
Lemma function_rule_iff i s f r : function i s = Ok r f <-> function_rule reads_type reads_expr i s f r.
Proof.
  rewrite function_iff. unfold function_rule. split.
  - intros [(d & H & ->)|(sg & b & s' & d & H1 & H2 & H3 & H4 & ->)].
    + left. exists d. split; [apply definition_rule_iff, H|reflexivity].
    + right. exists sg, b, s', d. rewrite <- signature_rule_iff, <- definition_rule_iff. auto.
  - intros [(d & H & ->)|(sg & b & s' & d & H1 & H2 & H3 & H4 & ->)].
    + left. exists d. split; [apply definition_rule_iff, H|reflexivity].
    + right. exists sg, b, s', d. rewrite signature_rule_iff, definition_rule_iff. auto.
Qed.

(** ** Let *)

Lemma tuple_f_iff i s e r : tuple_f expression i (L "(" ++ s) = Ok r e <->
  exists es, tuple_rule reads_expr i s es r /\ e = Tuple es.
Proof.
  unfold tuple_f, tuple_rule. change (padded_rule reads_expr i) with (padded i).
  change (delimited multispace0 (expression i) multispace0) with (tuple_elem i). split.
  - intros H. apply map_Ok in H as (l & H & ->). exists l. split; [|reflexivity].
    apply delimited_Ok in H as (s1 & x1 & s2 & x2 & E1 & E2 & E3).
    apply char_Ok in E1 as [[= <-] _]. apply char_Ok in E3 as [-> _].
    apply padded_list in E2 as [(-> & <- & _)|(y & l' & s3 & -> & Hy & Hl & _)]; [left; auto|right; eauto 8].
  - intros (es & H & ->). apply map_intro. eapply delimited_intro; [apply (char_intro (C "("))| |apply char_intro].
    apply padded_list. destruct H as [[-> ->]|(x & s1 & xs & Hx & Hl & ->)].
    + left. split; [reflexivity|]. split; [reflexivity|]. intros x s' (b1 & s1 & b2 & E & H1 & Hx & _).
      destruct b1 as [|c b1].
      * cbn in E. subst s1. apply expr_never in Hx. discriminate Hx.
      * injection E as <- _. discriminate H1.
    + right. exists x, xs, s1. repeat (split; [first [reflexivity|assumption]|]).
      intros t s2 y r' E -> _. discriminate E.
Qed.
Lemma names_iff s e r : simplified_record (L "{" ++ s) = Ok r e <->
  (s = L "}" ++ r /\ e = Record_ []) \/ bare_record s e r.
Proof.
  unfold simplified_record, bare_record. split.
  - intros H. apply map_Ok in H as (l & H & ->).
    apply delimited_Ok in H as (s1 & x1 & s2 & x2 & E1 & E2 & E3).
    apply char_Ok in E1 as [[= <-] _]. apply char_Ok in E3 as [-> _].
    apply bare_names in E2 as [(-> & <- & _)|(y & l' & s3 & -> & Hy & Hl & _)]; [left; auto|right; eauto 8].
  - intros H.
    assert (Hl : exists l, e = Record_ l /\ separated_list (char_ (C ",")) simplified_field s = Ok (L "}" ++ r) l).
    { destruct H as [[-> ->]|(f & s1 & fs & Hf & Hl & ->)].
      - exists []. split; [reflexivity|]. apply sep_list_nil. 
        eapply bind_Err2; [apply (multispace0_intro [] (C "}" :: r)); reflexivity|]. apply bind_Err1. nohead heads_lo_name.
      - exists (f :: fs). split; [reflexivity|]. apply bare_names. right. exists f, fs, s1.
        repeat (split; [first [reflexivity|assumption]|]). intros t s2 y r' E -> _. discriminate E. }
    destruct Hl as (l & -> & Hl). apply map_intro. eapply delimited_intro; [apply (char_intro (C "{"))|exact Hl|apply char_intro].
Qed.

Lemma list_f_iff i s e r : list_f expression i (L "[" ++ s) = Ok r e <-> list_rule reads_expr i s e r.
Proof. rewrite <- (bracket_list i s r e). apply list_iff. Qed.

Lemma tuple_no_var i s es r : tuple_rule reads_expr i s es r -> variable (L "(" ++ s) = Err.
Proof.
  intros [[-> ->]|(x & s1 & xs & (b1 & s0 & b2 & -> & H1 & He & _) & _ & ->)].
  - apply op_Err. intros o x E Hne Ho. destruct o as [|c o]; [congruence|]. cbn in E. injection E as <- _.
    destruct Ho as [Ho|Ho]; cbn in Ho; discriminate Ho.
  - eapply op_Err_expr; eassumption.
Qed.

Lemma target_rule_iff i s e r : let_binding_target i s = Ok r e <-> target_rule reads_expr i s e r.
Proof.
  unfold let_binding_target, target_rule. split.
  - intros H. unfold let_binding_target_f in H. apply alt_Ok in H as [H|[_ H]]; [left; apply variable_iff, H|right].
    apply alt_Ok in H as [H|[_ H]].
    { left. destruct (heads_list _ _ _ _ _ H) as (c & s' & -> & Hc). apply N.eqb_eq in Hc. subst c.
      exists s'. split; [reflexivity|]. apply list_f_iff, H. }
    right. apply alt_Ok in H as [H|[_ H]].
    { left. destruct (heads_tuple _ _ _ _ _ H) as (c & s' & -> & Hc). apply N.eqb_eq in Hc. subst c.
      apply (tuple_f_iff i s') in H as (es & H & ->). exists s', es. auto. }
    right. destruct (heads_names _ _ _ H) as (c & s' & -> & Hc). apply N.eqb_eq in Hc. subst c.
    exists s'. split; [reflexivity|]. apply names_iff, H.
  - change (let_binding_target_f expression i) with (target i).
    intros [H|[(s' & -> & H)|[(s' & es & -> & H & ->)|(s' & -> & H)]]].
    + apply alt_left, variable_iff, H.
    + apply ta_list, list_f_iff, H.
    + apply alt_right; [eapply tuple_no_var, H|]. apply alt_right; [nohead heads_list|]. apply alt_left.
      apply tuple_f_iff. eauto.
    + apply alt_right; [nohead heads_variable|]. apply alt_right; [nohead heads_list|].
      apply alt_right; [nohead heads_tuple|]. apply names_iff, H.
Qed.

Lemma binding_rule_iff m s x r : let_binding m s = Ok r x <-> binding_rule reads_expr m s x r.
Proof.
  rewrite let_binding_iff. unfold binding_rule.
  split; intros (p & t1 & j1 & t2 & j2 & s' & e & H & H1 & H2 & H3 & ->); exists p, t1, j1, t2, j2, s', e;
    apply target_rule_iff in H; auto.
Qed.
Lemma entry_rule_iff m s x r : let_item m s x r <-> entry_rule reads_type reads_expr m s x r.
Proof.
  unfold let_item, entry_rule. split.
  - intros [H|(H & f & Hf & ->)]; [left; apply binding_rule_iff, H|right]. split.
    + intros x' r' H'. apply binding_rule_iff in H'. congruence.
    + exists f. split; [apply function_rule_iff, Hf|reflexivity].
  - intros [H|(H & f & Hf & ->)]; [left; apply binding_rule_iff, H|right]. split.
    + apply err_of_no_ok; [unfold let_binding; oks|]. intros r' x' H'. eapply H, binding_rule_iff, H'.
    + exists f. split; [apply function_rule_iff, Hf|reflexivity].
Qed.

(** ** Expressions *)

Lemma lay_no_name R i t j s : lay R i t j -> ends is_name_char (t ++ s).
Proof. intros H. eapply ends_lay; [exact H|reflexivity..]. Qed.

Lemma if_rule_iff i s e r : ends is_name_char s ->
  expression i (L "if" ++ s) = Ok r e <-> if_rule reads_expr i s e r.
Proof. apply if_iff. Qed.
Lemma case_rule_iff i s e r : ends is_name_char s ->
  expression i (L "case" ++ s) = Ok r e <-> case_rule reads_expr i s e r.
Proof.
  intros Hs. rewrite (case_iff i s r e Hs). unfold case_rule. change (branch_rule reads_expr) with branch.
  split.
  - intros (t1 & j1 & s1 & x & t2 & j2 & t3 & m & s2 & b & bs & s3 & H). exists t1, j1, s1, x, t2, j2, t3, m, s2, b, s3, bs. exact H.
  - intros (t1 & j1 & s1 & x & t2 & j2 & t3 & m & s2 & b & s3 & bs & H). exists t1, j1, s1, x, t2, j2, t3, m, s2, b, bs, s3. exact H.
Qed.
Lemma let_rule_iff i s e r : ends is_name_char s ->
  expression i (L "let" ++ s) = Ok r e <-> let_rule reads_type reads_expr i s e r.
Proof.
  intros Hs. rewrite (let_iff i s r e Hs). unfold let_rule.
  split; intros (t1 & m & s1 & x & s2 & es & t2 & j2 & t3 & j3 & s3 & b & E & H1 & Hx & Hl & H);
    exists t1, m, s1, x, s2, es, t2, j2, t3, j3, s3, b;
    apply entry_rule_iff in Hx; apply (items_eqv _ _ _ (entry_rule_iff m)) in Hl; auto 10.
Qed.
Lemma lambda_rule_iff i s e r : expression i (L "\" ++ s) = Ok r e <-> lambda_rule reads_expr i s e r.
Proof.
  rewrite lambda_iff. unfold lambda_rule.
  split; intros (x & s1 & xs & t1 & j1 & t2 & j2 & s2 & b & Hx & Hl & H);
    exists x, s1, xs, t1, j1, t2, j2, s2, b; apply term_rule_iff in Hx;
    apply (items_eqv _ _ _ (next_rule i)) in Hl; auto.
Qed.

(** without a term there is a keyword *)
Lemma no_term_keyword i s r e : (forall r' f, term i s <> Ok r' f) -> expression i s = Ok r e ->
  (exists s', s = L "\" ++ s') \/
  exists w s', s = w ++ s' /\ (w = L "if" \/ w = L "case" \/ w = L "let") /\ ends is_name_char s'.
Proof.
  intros Hno H. rewrite expression_eq in H. unfold expression_f in H.
  assert (Hsp : forall s' u n, sp i IR_GTE s' = Ok u n -> ends is_name_char s').
  { intros s' u n Hn. apply sp_iff in Hn as (t & (-> & Ht & _) & Hne & _).
    destruct Ht as [|t Ht|t Ht|c0 t H0 H1 Ht]; [congruence|..]; reflexivity. }
  apply alt_Ok in H as [H|[_ H]].
  { exfalso. unfold binary_f in H. apply bind_Ok in H as (s1 & a & Ha & _).
    change (application_or_var_f expression i) with (application_or_var i) in Ha.
    apply application_iff in Ha as (f & s2 & xs & Hf & _). eapply Hno, Hf. }
  apply alt_Ok in H as [H|[_ H]].
  { right. unfold let_expression_f in H. apply bind_Ok in H as (u & x & Hx & H). apply tag_Ok in Hx as [-> _].
    apply bind_Ok in H as (u' & m & Hm & _). exists (L "let"), u. split; [reflexivity|]. split; [auto|eapply Hsp, Hm]. }
  apply alt_Ok in H as [H|[_ H]].
  { right. unfold case_expression_f in H. apply bind_Ok in H as (u & x & Hx & H). apply tag_Ok in Hx as [-> _].
    apply bind_Ok in H as (u' & m & Hm & _). exists (L "case"), u. split; [reflexivity|]. split; [auto|eapply Hsp, Hm]. }
  apply alt_Ok in H as [H|[_ H]].
  { right. unfold if_expression_f in H. apply bind_Ok in H as (u & x & Hx & H). apply tag_Ok in Hx as [-> _].
    apply bind_Ok in H as (u' & m & Hm & _). exists (L "if"), u. split; [reflexivity|]. split; [auto|eapply Hsp, Hm]. }
  left. unfold lambda_f in H. apply bind_Ok in H as (u & x & Hx & H). apply char_Ok in Hx as [-> _]. exists u. reflexivity.
Qed.

Theorem expr_rule_iff i s e r : expression i s = Ok r e <-> expr_rule reads_type reads_expr i s e r.
Proof.
  unfold expr_rule. split.
  - intros H. destruct (term i s) as [s1 f| |w] eqn:Hf.
    + destruct (proj1 (expression_iff i s s1 f r e Hf) H) as (xs & r1 & Hx & Hn & H'). clear H. rename H' into H.
      assert (Ha : application_rule reads_expr i s (fold_left Application xs f) r1).
      { apply application_rule_iff, application_iff. eauto 8. }
      destruct H as [(-> & -> & Ho)|(o & e2 & Ho & ->)].
      * left. split; [exact Ha|]. intros o e2 r' H. eapply Ho, H.
      * right. left. eauto 10.
    + right. right. destruct (no_term_keyword i s r e) as [(s' & ->)|(w & s' & -> & [->|[->| ->]] & Hs)]; [congruence|exact H|..].
      * left. exists s'. split; [reflexivity|]. apply lambda_rule_iff, H.
      * right. left. exists s'. split; [reflexivity|]. apply if_rule_iff; assumption.
      * right. right. left. exists s'. split; [reflexivity|]. apply case_rule_iff; assumption.
      * right. right. right. exists s'. split; [reflexivity|]. apply let_rule_iff; assumption.
    + exfalso. assert (E : term i s = Err); [|congruence]. apply err_of_no_ok; [oks|congruence].
  - intros [[Ha Ho]|[(a & r1 & o & e2 & Ha & Ho & ->)|[(s' & -> & H)|[(s' & -> & H)|[(s' & -> & H)|(s' & -> & H)]]]]].
    + apply application_rule_iff, application_iff in Ha as (f & s1 & xs & Hf & Hx & Hn & ->).
      apply (expression_iff i s s1 f r _ Hf). exists xs, r. split; [exact Hx|]. split; [exact Hn|]. left. auto.
    + apply application_rule_iff, application_iff in Ha as (f & s1 & xs & Hf & Hx & Hn & ->).
      apply (expression_iff i s s1 f r _ Hf). exists xs, r1. split; [exact Hx|]. split; [exact Hn|]. right. eauto.
    + apply lambda_rule_iff, H.
    + apply if_rule_iff; [|exact H]. destruct H as (t1 & j1 & s1 & ? & ? & ? & ? & ? & ? & ? & ? & ? & ? & ? & ? & ? & -> & H & _).
      eapply lay_no_name, H.
    + apply case_rule_iff; [|exact H]. destruct H as (t1 & j1 & s1 & ? & ? & ? & ? & ? & ? & ? & ? & ? & -> & H & _).
      eapply lay_no_name, H.
    + apply let_rule_iff; [|exact H]. destruct H as (t1 & j1 & s1 & ? & ? & ? & ? & ? & ? & ? & ? & ? & -> & H & _).
      eapply lay_no_name, H.
Qed.

(** ** Statements *)

Ltac not_decl H :=
  apply alt_Ok in H as [H|[_ H]]; [unfold port_module_declaration in H; hdr; discriminate|];
  apply alt_Ok in H as [H|[_ H]]; [unfold effect_module_declaration in H; hdr; discriminate|];
  apply alt_Ok in H as [H|[_ H]]; [unfold module_declaration in H; hdr; discriminate|];
  apply alt_Ok in H as [H|[_ H]]; [unfold import_statement in H; hdr; discriminate|];
  apply alt_Ok in H as [H|[_ H]]; [unfold type_alias_declaration in H; hdr; discriminate|];
  apply alt_Ok in H as [H|[_ H]]; [unfold type_declaration in H; hdr; discriminate|];
  apply alt_Ok in H as [H|[_ H]]; [unfold port_type_declaration in H; hdr; discriminate|];
  apply alt_Ok in H as [H|[_ H]]; [unfold port_declaration in H; hdr; discriminate|].

Theorem statement_infix_iff s r a v n : statement s = Ok r (InfixDeclaration a v n) <->
  infix_declaration s = Ok r (InfixDeclaration a v n) /\ function 0 s = Err.
Proof.
  split.
  - intros H. unfold statement in H. not_decl H.
    apply alt_Ok in H as [H|[Hf H]]; [apply map_Ok in H as (f & _ & [=])|].
    assert (Hf' : function 0 s = Err).
    { apply err_of_no_ok; [oks|]. intros r' f E. rewrite (map_intro Function_ _ _ _ _ E) in Hf. discriminate Hf. }
    apply alt_Ok in H as [H|[_ H]]; [auto|].
    unfold comment in H. apply alt_Ok in H as [H|[_ H]]; apply map_Ok in H as (c & _ & [=]).
  - intros [H Hf]. pose proof H as H'.
    apply infix_declaration_iff in H' as (a' & w & b & d & b' & n' & _ & -> & Hw & _).
    unfold statement. destruct Hw; do 8 (apply alt_right; [reflexivity|]);
      (apply alt_right; [apply map_Err, Hf|]); apply alt_left, H.
Qed.
Theorem statement_comment_iff s r c : statement s = Ok r (Comment c) <-> comment s = Ok r (Comment c).
Proof.
  split.
  - intros H. unfold statement in H. not_decl H.
    apply alt_Ok in H as [H|[_ H]]; [apply map_Ok in H as (f & _ & [=])|].
    apply alt_Ok in H as [H|[_ H]]; [unfold infix_declaration in H; hdr; discriminate|exact H].
  - intros H. pose proof H as H'. apply comment_iff in H' as (c' & _ & [(-> & _)|(-> & _)]);
      unfold statement; do 8 (apply alt_right; [reflexivity|]);
      (apply alt_right; [apply map_Err|apply alt_right; [reflexivity|exact H]]);
      (apply err_of_no_ok; [oks|]); intros r' f Hf; destruct (function_shape _ _ _ Hf) as (n & b & y & Hn & _).
    + remember (L "--" ++ c' ++ r) as u eqn:E. destruct Hn as [n s Hn|n s Hn].
      * destruct (lower_name_head n Hn) as (x & t & -> & [->|Hx]); cbn in E; [discriminate E|]. injection E as -> _. discriminate Hx.
      * discriminate E.
    + remember (L "{-" ++ c' ++ L "-}" ++ r) as u eqn:E. destruct Hn as [n s Hn|n s Hn].
      * destruct (lower_name_head n Hn) as (x & t & -> & [->|Hx]); cbn in E; [discriminate E|]. injection E as -> _. discriminate Hx.
      * discriminate E.
Qed.

Theorem statement_rule_iff s st r : statement s = Ok r st <-> statement_rule reads_type reads_expr s st r.
Proof.
  destruct st as [q e|q e|q fs e|q al ex|n ty|n cs|n ty|n args e|f|a v n|c]; cbn [statement_rule].
  - apply statement_module_iff.
  - apply statement_port_module_iff.
  - apply statement_effect_module_iff.
  - apply statement_import_iff.
  - rewrite statement_alias_iff, alias_iff_decl. unfold reads_type at 1.
    split; intros (b1 & b2 & s1 & b3 & t & j & s2 & E & H1 & H2 & H3 & H4 & H5 & H6);
      exists b1, b2, s1, b3, t, j, s2; apply annotation_rule_iff in H6; auto 10.
  - rewrite statement_type_iff, type_iff_decl. unfold reads_type at 1.
    assert (Hc : forall m s c r, constructor m s c r <-> constructed_rule reads_type m s c r)
      by (intros; apply constructed_iff).
    split; intros (b & s1 & t1 & m & t2 & j & s2 & c & cs' & s3 & E & H1 & H2 & H3 & H4 & H5 & H6 & H7 & ->);
      exists b, s1, t1, m, t2, j, s2, c, cs', s3; apply Hc in H5;
      apply (items_eqv _ _ _ (Hc m)) in H6; apply (no_item_eqv _ _ _ (Hc m)) in H7; auto 12.
  - rewrite statement_port_type_iff, port_type_iff_decl.
    split; intros (b1 & b2 & t & j & s' & E & H1 & H2 & H3 & H4 & H5);
      exists b1, b2, t, j, s'; apply annotation_rule_iff in H5; auto 10.
  - rewrite statement_port_iff, port_iff_decl. reflexivity.
  - rewrite statement_function_iff. apply function_rule_iff.
  - rewrite statement_infix_iff, infix_declaration_iff. split.
    + intros [(a' & w & b & d & b' & n' & E & -> & Hw & H1 & H2 & H3 & H4 & H5) Hf].
      injection E as -> -> ->. split.
      * exists w, b, d, b'. unfold i64_max in H4. repeat (split; [first [reflexivity|assumption]|]).
        split; [lia|exact H5].
      * intros f r' H. apply function_rule_iff in H. congruence.
    + intros [(w & b & d & b' & -> & Hw & H1 & H2 & H3 & -> & H4 & H5) Hf]. split.
      * exists a, w, b, d, b', n. unfold i64_max. repeat (split; [first [reflexivity|assumption]|]).
        split; [lia|exact H5].
      * apply err_of_no_ok; [oks|]. intros r' f H. eapply Hf, function_rule_iff, H.
  - rewrite statement_comment_iff, comment_iff. unfold block_comment_at, not_in. split.
    + intros (c' & [= <-] & H). exact H.
    + intros H. exists c. auto.
Qed.

(** ** Files *)

Definition reads_statement (s : str) (st : statement_ast) (r : str) : Prop := statement s = Ok r st.

Lemma reads_items s l r : reads s l r <->
  exists st l' s1, l = st :: l' /\ reads_statement s st s1 /\
    items (fun t => blanks1 t) (fun s x r => ends is_blank s /\ reads_statement s x r) s1 l' r.
Proof.
  assert (Hnb : forall s, no_blank s <-> ends is_blank s).
  { intros [|c s0]; cbn; [tauto|]. reflexivity. }
  split.
  - induction 1 as [s st r H|s st b s' l r H Hb Hs _ (st' & l' & s1 & -> & H' & Hl)].
    + exists st, [], r. split; [reflexivity|]. split; [exact H|constructor].
    + exists st, (st' :: l'), (b ++ s'). split; [reflexivity|]. split; [exact H|].
      econstructor; [exact Hb|split; [apply Hnb, Hs|exact H']|exact Hl].
  - intros (st & l' & s1 & -> & H & Hl). revert st s H.
    induction Hl as [r|t s' x s2 l r Ht [Hs Hx] _ IH]; intros st s H; [constructor; exact H|].
    econstructor; [exact H|exact Ht|apply Hnb, Hs|apply IH, Hx].
Qed.

Theorem file_rule_iff s l : file s = Ok [] l <-> file_rule reads_statement s l.
Proof.
  assert (Hnb : forall s, no_blank s <-> ends is_blank s).
  { intros [|c s0]; cbn; [tauto|]. reflexivity. }
  rewrite file_reads. unfold file_rule. split.
  - intros (b & s1 & r & -> & Hb & Hs & H & Hr). apply reads_items in H as (st & l' & s2 & -> & H & Hl).
    exists b, s1, st, s2, l', r. rewrite <- Hnb. auto 10.
  - intros (b & s1 & st & s2 & l' & r & -> & Hb & Hs & H & Hl & Hr & ->). exists b, s1, r.
    rewrite Hnb. repeat (split; [first [reflexivity|assumption]|]). split; [|exact Hr].
    apply reads_items. eauto 8.
Qed.

Theorem parser_language :
  language reads_type reads_expr reads_statement (fun s l => file s = Ok [] l).
Proof.
  split; intros.
  - apply type_iff.
  - apply expr_rule_iff.
  - apply statement_rule_iff.
  - apply file_rule_iff.
Qed.
