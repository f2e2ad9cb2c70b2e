(** * Two runs on a whole text with different continuations: types and expressions *)
From Verif Require Import Base Nom Regex Ast Good Spec Helpers Types Expr Lexers Total Layout Follow LexProps TwoRuns RenameSim Whole Steps Indep.

(** [v] does not begin with a word that continues an expression *)
Definition no_word (v : str) : Prop :=
  forall k r, In k [L "as"; L "of"; L "then"; L "else"] -> v = k ++ r -> on_name r.

Ltac inc :=
  let s := fresh in let s' := fresh in let H := fresh in intros s s' H;
  first [ exact H
        | eapply at_weak; [| |exact H]; [first [exact (fun _ h => h)|exact (fun _ _ => I)]|];
          let w := fresh in let K := fresh in intros w K; first [exact K|exact I|exact (proj1 K)|exact (proj2 K)]
        | eapply at_busy; exact H ].
(** apply a step lemma up to the conditions on the text *)
Ltac by_step t := eapply step_weak; [| |t]; inc.

Section Types.
Variables (v v' v0 v0' : str).
Hypotheses (Hv : apart v v0) (Hv' : apart v' v0').

Lemma step_opt_sp Q d i : step (at_ Q on (S d) v v') (at_ Q on (S d) v v') (opt_sp i) (opt_sp i).
Proof. unfold opt_sp. apply step_opt. by_step ltac:(apply (step_sp_busy v v' v0 v0' Hv Hv' Q (S d))). Qed.
Lemma step_sp_in Q d i ir : step (at_ Q on (S d) v v') (at_ Q on (S d) v v') (spaces_or_new_lines_and_indent i ir) (spaces_or_new_lines_and_indent i ir).
Proof. by_step ltac:(apply (step_sp_busy v v' v0 v0' Hv Hv' Q (S d))). Qed.
Lemma step_multispace0_in Q d : step (at_ Q on (S d) v v') (at_ Q on (S d) v v') multispace0 multispace0.
Proof. by_step ltac:(apply (step_multispace0_busy v v' v0 v0' Hv Hv' Q (S d))). Qed.
Lemma step_opt_spaces Q d i : step (at_ Q on (S d) v v') (at_ Q on (S d) v v') (opt_spaces_or_new_lines_and_indent i IR_GTE) (opt_spaces_or_new_lines_and_indent i IR_GTE).
Proof. unfold opt_spaces_or_new_lines_and_indent. apply step_map. apply step_opt_sp. Qed.
Lemma step_comma_sep Q d i : step (at_ Q on (S d) v v') (at_ Q on (S d) v v') (comma_sep i) (comma_sep i).
Proof. unfold comma_sep. eapply step_delimited; [apply step_opt_sp|apply step_comma|apply step_opt_sp]. Qed.
Lemma step_list Q P d (A D : Type) (sep sep' : parser D) (p p' : parser A) :
  step (at_ Q P d v v') (at_ Q P d v v') sep sep' -> step (at_ Q P d v v') (at_ Q P d v v') p p' ->
  step (at_ Q P d v v') (at_ Q P d v v') (separated_list sep p) (separated_list sep' p').
Proof. intros H1 H2. apply step_separated_list_at; [apply step_sep, H1|exact H2]. Qed.
Lemma step_list1 Q P d (A D : Type) (sep sep' : parser D) (p p' : parser A) :
  step (at_ Q P d v v') (at_ Q P d v v') sep sep' -> step (at_ Q P d v v') (at_ Q P d v v') p p' ->
  step (at_ Q P d v v') (at_ Q P d v v') (separated_nonempty_list sep p) (separated_nonempty_list sep' p').
Proof. intros H1 H2. apply step_separated_nonempty_at; [apply step_sep, H1|exact H2]. Qed.
Lemma step_dots Q d : step (at_ Q on d v v') (at_ Q on d v v') (separated_nonempty_list (char_ (C ".")) up_name) (separated_nonempty_list (char_ (C ".")) up_name).
Proof.
  apply step_list1; [|apply step_up_name]. by_step ltac:(apply (step_op_char Q d v v'); [reflexivity|discriminate|discriminate|discriminate]).
Qed.
Lemma arrow_dead {B} (f : str -> parser B) u u0 : apart u u0 -> no_ok (bind (tag (L "->")) f u) /\ no_ok (bind (tag (L "->")) f u0).
Proof.
  intros (_ & _ & Hu & z & -> & Hz & _). unfold bind. split.
  - destruct (tag (L "->") (z ++ u0)) as [r a| |] eqn:E; try exact I. apply tag_iff in E as [E _].
    destruct Hz as [|z Hz|z Hz|c z Hc Hle Hz]; [|discriminate E..]. cbn [app] in E. subst u0. discriminate Hu.
  - destruct (tag (L "->") u0) as [r a| |] eqn:E; try exact I. apply tag_iff in E as [-> _]. discriminate Hu.
Qed.

Section T.
  Variables T T' : N -> parser type_ast.
  Hypothesis HT : forall i d, step (at_ typed on d v v') (at_ typed on d v v') (T i) (T' i).
  Notation X d := (at_ typed on d v v').
  Lemma step_colon_on d : step (X d) (X d) (char_ (C ":")) (char_ (C ":")).
  Proof. by_step ltac:(apply step_colon). Qed.
  Lemma step_annotation_f i d : step (X d) (X d) (type_annotation_f T i) (type_annotation_f T' i).
  Proof.
    unfold type_annotation_f. apply step_map_res, step_list1; [|apply HT]. unfold delimited.
    apply (step_spnl_then v v' v0 v0' Hv Hv'); [|intros _; exact (proj1 (arrow_dead _ v v0 Hv))|intros _; exact (proj1 (arrow_dead _ v' v0' Hv'))].
    intros _. eapply step_bind; [apply step_arrow|]. intros a. eapply step_bind; [|intros _; apply step_ret].
    by_step ltac:(apply (step_spnl_busy v v' v0 v0' Hv Hv')).
  Qed.
  Lemma step_type_tuple_f i d : step (X d) (X d) (type_tuple_f T i) (type_tuple_f T' i).
  Proof.
    unfold type_tuple_f. apply step_map. eapply step_delimited.
    - eapply step_preceded; [apply step_open; reflexivity|apply step_opt_sp].
    - apply step_list; [apply step_comma_sep|apply HT].
    - eapply step_terminated; [apply step_opt_sp|apply step_close; reflexivity].
  Qed.
  Lemma step_pair_f i d : step (X (S d)) (X (S d)) (type_record_pair_f T i) (type_record_pair_f T' i).
  Proof.
    unfold type_record_pair_f. eapply step_bind; [apply step_lo_name|]. intros n. eapply step_bind; [apply step_opt_sp|]. intros _.
    eapply step_bind; [apply step_colon_on|]. intros _. eapply step_bind; [apply step_opt_sp|]. intros _.
    eapply step_bind; [apply step_annotation_f|]. intros t. apply step_ret.
  Qed.
  Lemma step_pairs_f i d : step (X (S d)) (X (S d)) (type_record_pairs_f T i) (type_record_pairs_f T' i).
  Proof. apply step_list; [apply step_comma_sep|apply step_pair_f]. Qed.
  Lemma step_bar Q d : step (at_ Q on d v v') (at_ Q on d v v') (char_ (C "|")) (char_ (C "|")).
  Proof. by_step ltac:(apply (step_op_char Q d v v'); [reflexivity|discriminate|discriminate|discriminate]). Qed.
  Lemma step_extension_f i d : step (X d) (X d) (type_record_constructor_f T i) (type_record_constructor_f T' i).
  Proof.
    unfold type_record_constructor_f. eapply step_delimited; [apply step_open; reflexivity| |apply step_close; reflexivity].
    eapply step_bind; [apply step_sp_in|]. intros _. eapply step_bind; [apply step_type_variable|]. intros a.
    eapply step_bind; [apply step_sp_in|]. intros _. eapply step_bind; [apply step_bar|]. intros _.
    eapply step_bind; [apply step_sp_in|]. intros _. eapply step_bind; [apply step_pairs_f|]. intros l.
    eapply step_bind; [apply step_sp_in|]. intros _. apply step_ret.
  Qed.
  Lemma step_type_record_f i d : step (X d) (X d) (type_record_f T i) (type_record_f T' i).
  Proof.
    unfold type_record_f. eapply step_delimited.
    - eapply step_preceded; [apply step_open; reflexivity|apply step_opt_sp].
    - apply step_map, step_pairs_f.
    - eapply step_terminated; [apply step_opt_sp|apply step_close; reflexivity].
  Qed.
  Lemma step_type_parens_f i d : step (X d) (X d) (type_parens_f T i) (type_parens_f T' i).
  Proof.
    unfold type_parens_f. eapply step_delimited.
    - eapply step_preceded; [apply step_open; reflexivity|apply step_opt_sp].
    - apply step_annotation_f.
    - eapply step_terminated; [apply step_opt_sp|apply step_close; reflexivity].
  Qed.
  Lemma step_parameter_f i d : step (X d) (X d) (type_parameter_f T i) (type_parameter_f T' i).
  Proof.
    unfold type_parameter_f, type_constant. apply step_alt; [apply step_type_variable|]. apply step_alt; [apply step_map, step_dots|].
    apply step_alt; [apply step_extension_f|]. apply step_alt; [apply step_type_record_f|]. apply step_alt; [apply step_type_tuple_f|].
    apply step_type_parens_f.
  Qed.
  Lemma step_constructor_f i d : step (X d) (X d) (type_constructor_f T i) (type_constructor_f T' i).
  Proof.
    unfold type_constructor_f. eapply step_bind; [apply step_dots|]. intros q. eapply step_bind; [|intros l; apply step_ret].
    apply step_many0. eapply step_bind; [apply (step_sp_gt v v' v0 v0' Hv Hv')|]. intros n.
    eapply step_bind; [eapply step_in; [|apply step_parameter_f]; inc|]. intros t. apply step_ret.
  Qed.
  Lemma step_type_f i d : step (X d) (X d) (type_f T i) (type_f T' i).
  Proof.
    unfold type_f. apply step_alt; [apply step_constructor_f|]. apply step_alt; [apply step_type_variable|].
    apply step_alt; [apply step_extension_f|]. apply step_alt; [apply step_type_record_f|]. apply step_alt; [apply step_type_tuple_f|].
    apply step_type_parens_f.
  Qed.
End T.
Lemma step_type_n n : forall n' i d, step (at_ typed on d v v') (at_ typed on d v v') (type_n n i) (type_n n' i).
Proof.
  induction n as [|n IH]; intros [|n'] i d s s' Hs; try exact I; [apply agree_abort|]. cbn [type_n]. apply (step_type_f (type_n n) (type_n n') (IH n')). exact Hs.
Qed.
Lemma step_annotation i d : step (at_ typed on d v v') (at_ typed on d v v') (type_annotation i) (type_annotation i).
Proof. apply step_annotation_f. intros j e s s' Hs. apply step_type_n. exact Hs. Qed.
End Types.

(** ** Expressions *)
Section Expressions.
Variables (v v' v0 v0' : str).
Hypotheses (Hv : apart v v0) (Hv' : apart v' v0') (Hw : no_word v0) (Hw' : no_word v0').
Notation X d := (at_ either on d v v').

Lemma step_op_in d : step (at_ either on d v v') (at_ either on d v v') (delimited (char_ (C "(")) operator (char_ (C ")"))) (delimited (char_ (C "(")) operator (char_ (C ")"))).
Proof.
  eapply step_delimited; [apply step_paren|eapply step_out; [|apply step_operator]; inc|]. eapply step_in; [|apply step_close; reflexivity]. inc.
Qed.
Lemma step_variable d : step (X d) (X d) variable variable.
Proof.
  unfold variable, lower_case, upper_with_dots, op. apply step_alt; [apply step_map, step_lo_name|].
  apply step_alt; [apply step_map, step_dots|]. apply step_map. eapply step_delimited; [apply step_paren| |apply step_close; reflexivity].
  apply step_alt; [eapply step_out; [|apply step_operator]; inc|eapply step_in; [|apply step_commas]; inc].
Qed.
Lemma step_dot d : step (X d) (X d) (char_ (C ".")) (char_ (C ".")).
Proof. by_step ltac:(apply (step_op_char either d v v'); [reflexivity|discriminate|discriminate|discriminate]). Qed.
Lemma step_equals d : step (X d) (at_ either busy d v v') (char_ (C "=")) (char_ (C "=")).
Proof. by_step ltac:(apply step_eq). Qed.
Lemma step_equals_in d : step (X d) (X d) (char_ (C "=")) (char_ (C "=")).
Proof. by_step ltac:(apply step_eq). Qed.
Lemma step_access d : step (X d) (X d) access access.
Proof.
  unfold access. eapply step_bind; [apply step_variable|]. intros a. eapply step_bind; [|intros l; apply step_ret].
  apply step_many1. eapply step_bind; [apply step_dot|]. intros _. eapply step_bind; [apply step_lo_name|]. intros n. apply step_ret.
Qed.
Lemma step_access_function d : step (X d) (X d) access_function access_function.
Proof. unfold access_function. eapply step_bind; [apply step_dot|]. intros _. eapply step_bind; [apply step_lo_name|]. intros n. apply step_ret. Qed.
Lemma step_binding_name d : step (X d) (X d) binding_name binding_name.
Proof. unfold binding_name. apply step_alt; [apply step_lo_name|apply step_op_in]. Qed.

(** after a colon *)
Lemma sp_on_op i ir c s : is_op_char c = true -> ~ dashes (c :: s) -> no_ok (spaces_or_new_lines_and_indent i ir (c :: s)).
Proof.
  intros Hc Hd. destruct (spaces_or_new_lines_and_indent i ir (c :: s)) as [r n| |] eqn:E; try exact I. cbn.
  apply sp_iff in E as (t & (E & Ht & _) & Hne & _). destruct Ht as [|t Ht|t Ht|x t Hx Hle Ht]; [congruence|..].
  - injection E as -> _. discriminate Hc.
  - injection E as -> _. discriminate Hc.
  - apply Hd. exists ((x ++ t) ++ r). rewrite E, <- !app_assoc. reflexivity.
Qed.
Lemma step_colon_type {B} i d (k k' : N -> parser B) : (forall n, step (at_ typed on d v v') (at_ typed on d v v') (k n) (k' n)) ->
  step (X d) (X d) (char_ (C ":") ;;; bind (spaces_or_new_lines_and_indent i IR_GT) k) (char_ (C ":") ;;; bind (spaces_or_new_lines_and_indent i IR_GT) k').
Proof.
  intros Hk s s' (b & w & _ & Hw0 & _ & -> & ->). destruct w as [|c w]; [exact I|].
  unfold bind at 1, char_ at 1. unfold bind at 2, char_ at 1. cbn [app].
  destruct (N.eqb_spec c (C ":")) as [->|]; [|exact I].
  apply inv_op in Hw0; [|reflexivity]. destruct Hw0 as [(K1 & K2 & K3 & K4)|(x & y & E & _)]; [|discriminate E].
  destruct w as [|c w]; [exfalso; apply K1; constructor|].
  apply (agree_shift _ [C ":"]). destruct (is_op_char c) eqn:Ec.
  - assert (K : forall u, ~ dashes ((c :: w) ++ newline :: u)).
    { intros u (r & E). apply K3. destruct w as [|x w]; [discriminate E|]. injection E as -> -> _. exists w. reflexivity. }
    pose proof (sp_on_op i IR_GT c (w ++ newline :: v) Ec (K v)) as N1. pose proof (sp_on_op i IR_GT c (w ++ newline :: v') Ec (K v')) as N2.
    unfold bind. cbn [app]. destruct (spaces_or_new_lines_and_indent i IR_GT (c :: w ++ newline :: v)); [destruct N1|..];
      destruct (spaces_or_new_lines_and_indent i IR_GT (c :: w ++ newline :: v')); try destruct N2; exact I.
  - assert (Hat : at_ typed on d v v' ((c :: w) ++ newline :: v) ((c :: w) ++ newline :: v')).
    { exists true, (c :: w). split; [reflexivity|]. split; [|split; [exact I|auto]]. unfold after_op in K4.
      change ((C ":" =? C "=")%N) with false in K4. change ((C ":" =? C ":")%N) with true in K4. cbv iota in K4. rewrite Ec in K4. exact K4. }
    revert Hat. generalize ((c :: w) ++ newline :: v), ((c :: w) ++ newline :: v'). intros s s' Hs.
    assert (Hst : step (at_ typed on d v v') (X d) (bind (spaces_or_new_lines_and_indent i IR_GT) k) (bind (spaces_or_new_lines_and_indent i IR_GT) k')).
    { eapply step_bind; [apply (step_sp_gt v v' v0 v0' Hv Hv')|]. intros n. by_step ltac:(apply Hk). }
    apply Hst, Hs.
Qed.
Lemma step_signature i d : step (X d) (X d) (function_signature i) (function_signature i).
Proof.
  unfold function_signature. eapply step_bind; [apply step_binding_name|]. intros n. eapply step_bind; [apply step_spaces|]. intros _.
  apply step_colon_type. intros m. eapply step_bind; [apply (step_annotation v v' v0 v0' Hv Hv')|]. intros t. apply step_ret.
Qed.
Lemma step_same_indent i d : step (X (S d)) (X (S d)) (new_line_and_same_indent i) (new_line_and_same_indent i).
Proof.
  unfold new_line_and_same_indent. apply step_map_res. intros s s' (b & w & _ & Hw0 & _ & -> & ->).
  destruct w as [|c w]; [apply inv_nil in Hw0; discriminate|]. unfold preceded, bind, char_ at 1. unfold char_ at 1. cbn [app].
  destruct (N.eqb_spec c 10) as [->|]; [|exact I]. apply (agree_shift _ [newline]).
  apply inv_other in Hw0; [|reflexivity]. assert (Hs : X (S d) (w ++ newline :: v) (w ++ newline :: v')) by (exists b, w; repeat split; auto).
  revert Hs. generalize (w ++ newline :: v), (w ++ newline :: v'). change (step (X (S d)) (X (S d)) (map_ len_u32 spaces0) (map_ len_u32 spaces0)).
  apply step_map. unfold spaces0. apply step_map, step_opt, step_spaces.
Qed.
(** places where no expression goes on *)
Lemma word_dead {B} k (f : str -> parser B) u : In k [L "as"; L "of"; L "then"; L "else"] -> stops (f k) -> no_word u -> no_ok (bind (tag k) f u).
Proof. intros Hk Hf Hu. rewrite tag_stops; [exact I| |exact Hf]. intros r ->. eapply Hu; eauto. Qed.
Lemma operator_dead {B} (f : expr -> parser B) u : ends is_op_char u -> no_word u -> (forall o, stops (f o)) -> no_ok (bind operator_or_as f u).
Proof.
  intros Hu Hn Hf. unfold operator_or_as, bind, map_, alt. destruct (tag (L "as") u) as [r a| |] eqn:E; [|..|exact I].
  - apply tag_iff in E as [-> ->]. rewrite Hf; [exact I|]. eapply Hn; [|reflexivity]. cbn; tauto.
  - destruct (operator u) as [r a| |] eqn:E2; try exact I. apply operator_iff in E2 as (-> & (Hne & Ha & _) & _).
    exfalso. destruct a as [|c a]; [congruence|]. cbn [app ends forallb] in *. apply andb_true_iff in Ha as [Ha _]. congruence.
Qed.
Lemma step_tag_else {A} (Y : str -> str -> Prop) P d k (K K' q q' : parser A) : ~ In newline k ->
  step (at_ either P d v v') Y (tag k ;;; K) (tag k ;;; K') -> step (at_ either P d v v') Y q q' ->
  step (at_ either P d v v') Y (fun s => match tag k s with Ok r _ => K r | Err => q s | Abort w => Abort w end)
    (fun s => match tag k s with Ok r _ => K' r | Err => q' s | Abort w => Abort w end).
Proof.
  intros Hk H1 H2 s s' Hs. specialize (H1 s s' Hs). specialize (H2 s s' Hs). destruct Hs as (b & w & _ & _ & _ & -> & ->).
  unfold bind in H1. destruct (tag k (w ++ newline :: v)) as [r a| |] eqn:E1; destruct (tag k (w ++ newline :: v')) as [r' a'| |] eqn:E2; try exact I; try apply agree_abort; auto.
  - exfalso. apply tag_iff in E1 as [E1 _]. symmetry in E1. destruct (prefix_in _ _ _ _ E1 Hk) as (w2 & -> & _).
    rewrite <- app_assoc, (proj2 (tag_iff k (k ++ w2 ++ newline :: v') (w2 ++ newline :: v') k)) in E2 by auto. discriminate E2.
  - exfalso. apply tag_iff in E2 as [E2 _]. symmetry in E2. destruct (prefix_in _ _ _ _ E2 Hk) as (w2 & -> & _).
    rewrite <- app_assoc, (proj2 (tag_iff k (k ++ w2 ++ newline :: v) (w2 ++ newline :: v) k)) in E1 by auto. discriminate E1.
Qed.
Lemma sep_sp {A} i ir d (p p' : parser A) : (i = 0%N -> no_ok (p v0) /\ no_ok (p' v0')) ->
  sep_step (X d) (spaces_or_new_lines_and_indent i ir) (spaces_or_new_lines_and_indent i ir) p p'.
Proof.
  intros Hp s s' (b & w & _ & Hw0 & _ & -> & ->).
  destruct (spaces_or_new_lines_and_indent i ir (w ++ newline :: v)) as [r n| |] eqn:E1; [|..|exact I].
  - destruct (sp_cases i ir w v v0 r n Hv E1) as [(t & w2 & -> & -> & Ht & Hc & Hne & Hn & E2)|(Hi & -> & -> & H0 & Hir & E2)].
    + rewrite E2. left. split; [exists b, w2; repeat split; auto; eapply drop_trivia; eauto|]. exists t. rewrite <- !app_assoc. auto.
    + rewrite (E2 _ _ Hv'). right. split; [apply Hp, H0|]. split; [apply Hp, H0|].
      destruct Hv as (_ & _ & _ & z & -> & _). destruct Hv' as (_ & _ & _ & z' & -> & _). split; rewrite app_length; cbn [length]; rewrite app_length; lia.
  - destruct (spaces_or_new_lines_and_indent i ir (w ++ newline :: v')) as [r n| |] eqn:E2; try exact I.
    destruct (sp_cases i ir w v' v0' r n Hv' E2) as [(t & w2 & _ & _ & _ & _ & _ & _ & E3)|(_ & _ & _ & _ & _ & E3)].
    + rewrite E3 in E1. discriminate E1.
    + rewrite (E3 _ _ Hv) in E1. discriminate E1.
Qed.

Ltac go := eapply step_bind; [|intros ?].
Section E.
  Variables E E' : N -> parser expr.
  Hypothesis HE : forall i d, step (X d) (X d) (E i) (E' i).
  Hypotheses (Hd : no_ok (case_f E 0 v0)) (Hd' : no_ok (case_f E' 0 v0')).
  Lemma step_E_code i d : step (at_ either code d v v') (X d) (E i) (E' i).
  Proof. eapply step_in; [|apply HE]. inc. Qed.

  Lemma step_tuple_f i d : step (X d) (X d) (tuple_f E i) (tuple_f E' i).
  Proof.
    unfold tuple_f. apply step_map. eapply step_delimited; [apply step_open; reflexivity| |apply step_close; reflexivity].
    apply step_list; [apply step_comma|]. eapply step_delimited; [apply (step_multispace0_in v v' v0 v0' Hv Hv')|apply HE|apply (step_multispace0_in v v' v0 v0' Hv Hv')].
  Qed.
  Lemma step_list_f i d : step (X d) (X d) (list_f E i) (list_f E' i).
  Proof.
    unfold list_f. apply step_map. eapply step_delimited.
    - eapply step_preceded; [apply step_open; reflexivity|apply (step_opt_sp v v' v0 v0' Hv Hv')].
    - apply step_opt, step_list; [apply (step_comma_sep v v' v0 v0' Hv Hv')|apply HE].
    - eapply step_terminated; [apply (step_opt_sp v v' v0 v0' Hv Hv')|apply step_close; reflexivity].
  Qed.
  Lemma step_record_field_f i d : step (X (S d)) (X (S d)) (record_field_f E i) (record_field_f E' i).
  Proof.
    unfold record_field_f, separated_pair. go; [apply step_lo_name|]. go.
    - eapply step_delimited; [apply (step_opt_sp v v' v0 v0' Hv Hv')|apply step_equals_in|apply (step_opt_sp v v' v0 v0' Hv Hv')].
    - go; [apply HE|apply step_ret].
  Qed.
  Lemma step_record_f i d : step (X d) (X d) (record_f E i) (record_f E' i).
  Proof.
    unfold record_f. apply step_map. eapply step_delimited.
    - eapply step_preceded; [apply step_open; reflexivity|apply (step_opt_sp v v' v0 v0' Hv Hv')].
    - apply step_list; [apply (step_comma_sep v v' v0 v0' Hv Hv')|apply step_record_field_f].
    - eapply step_terminated; [apply (step_opt_sp v v' v0 v0' Hv Hv')|apply step_close; reflexivity].
  Qed.
  Lemma step_simplified_record d : step (X d) (X d) simplified_record simplified_record.
  Proof.
    unfold simplified_record, simplified_field. apply step_map. eapply step_delimited; [apply step_open; reflexivity| |apply step_close; reflexivity].
    apply step_list; [apply step_comma|]. go; [apply (step_multispace0_in v v' v0 v0' Hv Hv')|]. go; [apply step_lo_name|].
    go; [apply (step_multispace0_in v v' v0 v0' Hv Hv')|apply step_ret].
  Qed.
  Lemma step_update_field_f i d : step (X (S d)) (X (S d)) (update_field_f E i) (update_field_f E' i).
  Proof.
    unfold update_field_f. go; [apply step_lo_name|]. go; [apply (step_multispace0_in v v' v0 v0' Hv Hv')|]. go; [apply step_equals_in|].
    go; [apply (step_multispace0_in v v' v0 v0' Hv Hv')|]. go; [apply HE|apply step_ret].
  Qed.
  Lemma step_record_update_f i d : step (X d) (X d) (record_update_f E i) (record_update_f E' i).
  Proof.
    unfold record_update_f. eapply step_delimited.
    - eapply step_preceded; [apply step_open; reflexivity|apply (step_opt_spaces v v' v0 v0' Hv Hv')].
    - go; [apply step_lo_name|]. go; [apply (step_opt_spaces v v' v0 v0' Hv Hv')|]. go; [apply step_bar|]. go; [apply (step_multispace0_in v v' v0 v0' Hv Hv')|].
      go; [|apply step_ret]. apply step_list; [|apply step_update_field_f].
      eapply step_delimited; [apply (step_opt_spaces v v' v0 v0' Hv Hv')|apply step_comma|apply (step_opt_spaces v v' v0 v0' Hv Hv')].
    - eapply step_terminated; [apply (step_sp_in v v' v0 v0' Hv Hv')|apply step_close; reflexivity].
  Qed.
  Lemma step_parens_f i d : step (X d) (X d) (parens_f E i) (parens_f E' i).
  Proof. unfold parens_f. eapply step_delimited; [apply step_open; reflexivity|apply HE|apply step_close; reflexivity]. Qed.
  Lemma step_term_f i d : step (X d) (X d) (term_f E i) (term_f E' i).
  Proof.
    unfold term_f. apply step_alt; [apply step_access|]. apply step_alt; [apply step_variable|]. apply step_alt; [apply step_access_function|].
    apply step_alt; [apply step_string|]. apply step_alt; [apply step_float|]. apply step_alt; [apply step_integer|]. apply step_alt; [apply step_character|].
    apply step_alt; [apply step_parens_f|]. apply step_alt; [apply step_list_f|]. apply step_alt; [apply step_tuple_f|].
    apply step_alt; [apply step_record_update_f|]. apply step_alt; [apply step_record_f|apply step_simplified_record].
  Qed.
  Lemma step_arrow_tail i d {A} (g : expr -> A) : step (at_ either on d v v') (X d)
    (tag (L "->") ;;; n <- spaces_or_new_lines_and_indent i IR_GTE ;; e <- E n ;; ret (g e))
    (tag (L "->") ;;; n <- spaces_or_new_lines_and_indent i IR_GTE ;; e <- E' n ;; ret (g e)).
  Proof.
    go; [apply step_arrow|]. go; [eapply step_in; [|apply (step_sp_busy v v' v0 v0' Hv Hv')]; inc|]. go; [apply step_E_code|apply step_ret].
  Qed.
  Lemma step_backslash d : step (X d) (X d) (char_ 92%N) (char_ 92%N).
  Proof. by_step ltac:(apply (step_op_char either d v v'); [reflexivity|discriminate|discriminate|discriminate]). Qed.
  Lemma step_lambda_f i d : step (X d) (X d) (lambda_f E i) (lambda_f E' i).
  Proof.
    unfold lambda_f. go; [apply step_backslash|].
    go; [apply step_list1; [apply step_space1|apply step_term_f]|].
    apply (step_sp_then v v' v0 v0' Hv Hv'); [|exact (proj2 (arrow_dead _ v v0 Hv))|exact (proj2 (arrow_dead _ v' v0' Hv'))]. intros n. eapply step_in; [|apply step_arrow_tail]. inc.
  Qed.
  Lemma step_application_f i d : step (X d) (X d) (application_or_var_f E i) (application_or_var_f E' i).
  Proof.
    unfold application_or_var_f. apply step_map_res, step_list; [|apply step_term_f]. by_step ltac:(apply (step_sp_gt v v' v0 v0' Hv Hv')).
  Qed.
  Lemma step_definition_f i d : step (X d) (X d) (function_definition_f E i) (function_definition_f E' i).
  Proof.
    unfold function_definition_f. go; [apply step_binding_name|]. go; [apply step_many0; eapply step_preceded; [apply step_spaces|apply step_term_f]|].
    go; [apply step_spaces|]. go; [apply step_equals_in|]. go; [apply (step_sp_gt v v' v0 v0' Hv Hv')|]. go; [apply step_E_code|apply step_ret].
  Qed.
  Lemma step_function_f i d : step (X (S d)) (X (S d)) (function_f E i) (function_f E' i).
  Proof.
    unfold function_f. go; [apply step_opt; eapply step_terminated; [apply step_signature|apply step_same_indent]|].
    go; [apply step_definition_f|apply step_ret].
  Qed.
  Lemma step_let_binding_f i d : step (X (S d)) (X (S d)) (let_binding_f E i) (let_binding_f E' i).
  Proof.
    unfold let_binding_f, let_binding_target_f.
    go; [apply step_alt; [apply step_variable|apply step_alt; [apply step_list_f|apply step_alt; [apply step_tuple_f|apply step_simplified_record]]]|].
    go; [apply (step_sp_in v v' v0 v0' Hv Hv')|]. go; [apply step_equals_in|]. go; [apply (step_sp_in v v' v0 v0' Hv Hv')|]. go; [apply HE|apply step_ret].
  Qed.
  Lemma step_let_bindings_f i d : step (X (S d)) (X (S d)) (let_bindings_f E i) (let_bindings_f E' i).
  Proof.
    unfold let_bindings_f. apply step_list1; [apply (step_sp_in v v' v0 v0' Hv Hv')|]. apply step_alt; [apply step_let_binding_f|apply step_map, step_function_f].
  Qed.
  Lemma step_let_f i d : step (X d) (X d) (let_expression_f E i) (let_expression_f E' i).
  Proof.
    unfold let_expression_f. apply step_let; [apply stops_bind, stops_sp|apply stops_bind, stops_sp|].
    go; [by_step ltac:(apply (step_sp_busy v v' v0 v0' Hv Hv'))|]. go; [eapply step_in; [|apply step_let_bindings_f]; inc|].
    go; [apply (step_sp_in v v' v0 v0' Hv Hv')|]. apply step_in_word; [apply stops_bind, stops_sp|apply stops_bind, stops_sp|].
    go; [apply (step_sp_busy v v' v0 v0' Hv Hv')|]. go; [apply step_E_code|apply step_ret].
  Qed.
  Lemma step_case_f i d : step (X d) (X d) (case_f E i) (case_f E' i).
  Proof.
    unfold case_f. go; [apply HE|].
    apply (step_sp_then v v' v0 v0' Hv Hv'); [|exact (proj2 (arrow_dead _ v v0 Hv))|exact (proj2 (arrow_dead _ v' v0' Hv'))]. intros n. eapply step_in; [|apply step_arrow_tail]. inc.
  Qed.
  Lemma step_cases_f i d : step (X d) (X d) (cases_f E i) (cases_f E' i).
  Proof. unfold cases_f. apply step_separated_nonempty_at; [apply sep_sp; intros ->; auto|apply step_case_f]. Qed.
  Ltac dead := first [eapply word_dead; [|apply stops_bind, stops_sp|eassumption]; cbn; tauto].
  Lemma step_keyword_sp {A} k d i ir (f f' : N -> parser A) : In k inner_words -> (forall n, step (X d) (X d) (f n) (f' n)) ->
    step (at_ either on d v v') (X d) (tag k ;;; bind (spaces_or_new_lines_and_indent i ir) f) (tag k ;;; bind (spaces_or_new_lines_and_indent i ir) f').
  Proof.
    intros Hk Hf. apply step_keyword; [exact Hk|apply stops_bind, stops_sp|apply stops_bind, stops_sp|].
    go; [apply (step_sp_busy v v' v0 v0' Hv Hv')|]. eapply step_in; [|apply Hf]. inc.
  Qed.
  Lemma step_case_expression_f i d : step (X d) (X d) (case_expression_f E i) (case_expression_f E' i).
  Proof.
    unfold case_expression_f. apply step_keyword_sp; [cbn; tauto|]. intros _. go; [apply HE|].
    apply (step_sp_then v v' v0 v0' Hv Hv'); [|dead|dead]. intros _. eapply step_in; [|apply step_keyword_sp; [cbn; tauto|]]; [inc|].
    intros n. go; [apply step_cases_f|apply step_ret].
  Qed.
  Lemma step_if_f i d : step (X d) (X d) (if_expression_f E i) (if_expression_f E' i).
  Proof.
    unfold if_expression_f. apply step_keyword_sp; [cbn; tauto|]. intros _. go; [apply HE|].
    apply (step_sp_then v v' v0 v0' Hv Hv'); [|dead|dead]. intros _. eapply step_in; [|apply step_keyword_sp; [cbn; tauto|]]; [inc|].
    intros n. go; [apply HE|].
    apply (step_sp_then v v' v0 v0' Hv Hv'); [|dead|dead]. intros _. eapply step_in; [|apply step_keyword_sp; [cbn; tauto|]]; [inc|].
    intros m. go; [apply HE|apply step_ret].
  Qed.
  Lemma step_operator_tail i d : step (at_ either code d v v') (X d)
    (bind operator_or_as (fun o => multispace ;;; e <- E i ;; ret (o, e))) (bind operator_or_as (fun o => multispace ;;; e <- E' i ;; ret (o, e))).
  Proof.
    set (K := fun (F : N -> parser expr) (o : str) => multispace ;;; e <- F i ;; ret (Variable_ [o], e)).
    assert (Hs : forall F s, bind operator_or_as (fun o => multispace ;;; e <- F i ;; ret (o, e)) s =
                   match tag (L "as") s with Ok r _ => K F (L "as") r | Err => bind operator (K F) s | Abort w => Abort w end).
    { intros F s. unfold operator_or_as, K, bind, map_, alt. destruct (tag (L "as") s) as [r a| |] eqn:Et; [|destruct (operator s); reflexivity|reflexivity].
      apply tag_iff in Et as [_ ->]. reflexivity. }
    assert (HK : forall o, step (at_ either busy d v v') (X d) (K E o) (K E' o)).
    { intros o. unfold K. go; [apply (step_multispace_busy v v' v0 v0' Hv Hv')|]. go; [apply HE|apply step_ret]. }
    intros s s' HX. rewrite !Hs. revert s s' HX.
    apply (step_tag_else (X d) code d (L "as") (K E (L "as")) (K E' (L "as")) (bind operator (K E)) (bind operator (K E'))).
    - apply (no_newline_class is_name_char); reflexivity.
    - eapply step_in; [|apply step_keyword; [cbn; tauto|apply stops_bind, stops_multispace|apply stops_bind, stops_multispace|apply HK]]. inc.
    - go; [apply step_operator|]. eapply step_in; [|apply HK]. inc.
  Qed.
  Lemma step_operator_exp_f i d : step (X d) (X d) (operator_exp_f E i) (operator_exp_f E' i).
  Proof.
    unfold operator_exp_f. apply (step_sp_then v v' v0 v0' Hv Hv').
    - intros _. apply step_operator_tail.
    - apply operator_dead; [apply Hv|exact Hw|]. intros o. apply stops_bind, stops_multispace.
    - apply operator_dead; [apply Hv'|exact Hw'|]. intros o. apply stops_bind, stops_multispace.
  Qed.
  Lemma step_expression_f i d : step (X d) (X d) (expression_f E i) (expression_f E' i).
  Proof.
    unfold expression_f, binary_f.
    apply step_alt; [go; [apply step_application_f|]; go; [apply step_opt, step_operator_exp_f|apply step_ret]|].
    apply step_alt; [apply step_let_f|]. apply step_alt; [apply step_case_expression_f|]. apply step_alt; [apply step_if_f|apply step_lambda_f].
  Qed.
End E.
Hypotheses (Hdead : forall n, no_ok (case_f (expression_n n) 0 v0)) (Hdead' : forall n, no_ok (case_f (expression_n n) 0 v0')).
Lemma step_expression_n n : forall n' i d, step (X d) (X d) (expression_n n i) (expression_n n' i).
Proof.
  induction n as [|n IH]; intros [|n'] i d s s' Hs; try exact I; [apply agree_abort|].
  cbn [expression_n]. apply (step_expression_f (expression_n n) (expression_n n') (IH n')); auto.
Qed.
Lemma step_expression i d : step (X d) (X d) (expression i) (expression i).
Proof. intros s s' Hs. apply step_expression_n. exact Hs. Qed.
End Expressions.
