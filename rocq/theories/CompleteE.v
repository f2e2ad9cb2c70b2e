(** * The expression parser reads every rendering of an expression *)
From Verif Require Import Base Nom Regex Ast Good Spec Helpers Types Expr Stmt Lexers Total
  Layout Seqs Grammar Follow Sound SoundE SoundS LexProps Heads Rules Render CompleteT.

(** ** Where no expression starts *)

Definition never0 (c : char) : bool :=
  negb (is_upper c || is_lower c || is_dec c || mem_char c (quote :: squote :: L "_([{.+-\")).

Lemma never_no_term c s : never0 c = true -> no_term (c :: s).
Proof.
  intros H. unfold never0 in H. repeat split.
  - chr.
  - chr.
  - chr.
  - intros Hl. exfalso. chr.
  - intros ->. discriminate.
  - intros [-> | ->]; discriminate.
Qed.

Lemma longest_head P w c s r : longest P w (c :: s) r -> P c = false -> w = [].
Proof.
  intros (He & Hw & _) Hc. destruct w as [|d w]; [reflexivity|].
  injection He as <- _. simpl in Hw. rewrite Hc in Hw. discriminate.
Qed.

Lemma no_expr_intro c s : no_term (c :: s) -> c <> backslash -> is_lower c = false ->
  no_expr (c :: s).
Proof.
  intros Ht Hb Hl. split; [exact Ht|]. split; [apply N.eqb_neq, Hb|].
  intros (w & r & (He & _ & _) & Hin). simpl in Hin.
  destruct Hin as [<-|[<-|[<-|[]]]]; injection He as -> _; discriminate.
Qed.

Lemma never_no_expr c s : never0 c = true -> no_expr (c :: s).
Proof.
  intros H. apply no_expr_intro; [apply never_no_term, H|..]; unfold never0 in H.
  - intros ->. discriminate.
  - chr.
Qed.

Lemma minus_no_term c s : is_dec c = false -> no_term (C "-" :: c :: s).
Proof.
  intros H. repeat split; intros Hc; try discriminate Hc. exact H.
Qed.
Lemma minus_no_expr c s : is_dec c = false -> no_expr (C "-" :: c :: s).
Proof. intros H. apply no_expr_intro; [apply minus_no_term, H|discriminate|reflexivity]. Qed.

Lemma expr_some i s r e : expression i s = Ok r e -> ~ no_expr s.
Proof. intros H Hn. rewrite (no_expr_Err i s Hn) in H. discriminate. Qed.
Lemma term_some i s r e : term i s = Ok r e -> ~ no_term s.
Proof. intros H Hn. rewrite (no_term_Err i s Hn) in H. discriminate. Qed.

Lemma expr_never i c s r e : expression i (c :: s) = Ok r e -> never0 c = false.
Proof.
  intros H. destruct (never0 c) eqn:Hc; [|reflexivity]. exfalso.
  eapply expr_some; [exact H|]. apply never_no_expr, Hc.
Qed.
Lemma term_never i c s r e : term i (c :: s) = Ok r e -> never0 c = false.
Proof.
  intros H. destruct (never0 c) eqn:Hc; [|reflexivity]. exfalso.
  eapply term_some; [exact H|]. apply never_no_term, Hc.
Qed.

Lemma expr_no_trivia i s r e : expression i s = Ok r e -> no_trivia s.
Proof.
  intros H. destruct s as [|c s]; [exact I|]. repeat split.
  - intros ->. apply expr_never in H. discriminate.
  - intros ->. apply expr_never in H. discriminate.
  - intros [-> [s' ->]]. eapply expr_some; [exact H|]. apply minus_no_expr. reflexivity.
Qed.
Lemma term_no_trivia i s r e : term i s = Ok r e -> no_trivia s.
Proof.
  intros H. destruct s as [|c s]; [exact I|]. repeat split.
  - intros ->. apply term_never in H. discriminate.
  - intros ->. apply term_never in H. discriminate.
  - intros [-> [s' ->]]. eapply term_some; [exact H|]. apply minus_no_term. reflexivity.
Qed.

(** texts on which an expression or term is read do not start with [P] *)
Lemma expr_ends P i s r e : expression i s = Ok r e ->
  (forall c, P c = true -> never0 c = true) -> ends P s.
Proof.
  intros H HP. destruct s as [|c s]; [exact I|]. cbn [ends].
  destruct (P c) eqn:Hc; [|reflexivity]. apply HP in Hc. apply expr_never in H. congruence.
Qed.
Lemma term_ends P i s r e : term i s = Ok r e ->
  (forall c, P c = true -> never0 c = true) -> ends P s.
Proof.
  intros H HP. destruct s as [|c s]; [exact I|]. cbn [ends].
  destruct (P c) eqn:Hc; [|reflexivity]. apply HP in Hc. apply term_never in H. congruence.
Qed.

Lemma blank_never c : is_blank c = true -> never0 c = true.
Proof. intros H. unfold never0. chr. Qed.
Lemma tab_never c : is_space_or_tab c = true -> never0 c = true.
Proof. intros H. unfold never0. chr. Qed.
Lemma sp_never c : is_sp_char c = true -> never0 c = true.
Proof. intros H. unfold never0. chr. Qed.

(** ** Shortening *)

Lemma ok_term n i : ok 1 n (term i) (term i).
Proof. apply ok_down, ok_term_f. intros; apply ok_expression. Qed.
Lemma ok_term' n i : ok 1 n (term_f expression i) (term_f expression i).
Proof. apply ok_term. Qed.
#[export] Hint Resolve ok_term ok_term' : okdb.
Lemma eats_term i : eats (term i).
Proof. apply ok_eats. intros; oks. Qed.
Lemma eats_expression i : eats (expression i).
Proof. apply ok_eats. intros; oks. Qed.
Lemma eats_sp i ir : eats (sp i ir).
Proof. apply ok_eats. intros; oks. Qed.
Lemma eats_char c : eats (char_ c).
Proof. apply ok_eats. intros; oks. Qed.
Lemma eats_space1 : eats space1.
Proof. apply ok_eats. intros; oks. Qed.

(** ** Variables and names *)

Lemma complete_variable e s r : RVar e s r -> variable s = Ok r e.
Proof.
  intros [n r' Hn Hr|q r' Hq Hr|o r' Ho|o r' Hne Ho]; unfold variable.
  - apply alt_left. unfold lower_case. apply (map_intro (fun v => Variable_ [v])).
    apply lo_name_intro; assumption.
  - apply alt_right.
    { apply map_Err. destruct Hq as [Hqn Hq]. destruct q as [|n q]; [congruence|].
      inversion Hq as [|? ? Hn _]; subst. destruct Hn as (c & t & -> & Hc & _).
      rewrite dotted_concat. eapply heads_Err; [apply heads_lo_name|oks|].
      cbn [app ends]. unfold name0. chr. }
    apply alt_left. unfold upper_with_dots. apply map_intro. apply module_name_intro; assumption.
  - apply alt_right; [apply map_Err; nohead heads_lo_name|].
    apply alt_right; [apply map_Err; nohead (heads_sep is_upper (char_ (C ".")) up_name heads_up_name)|].
    unfold op. apply (map_intro (fun v => Variable_ [v])).
    eapply delimited_intro; [apply char_intro| |apply char_intro].
    apply alt_left. apply operator_intro; [exact Ho|reflexivity].
  - apply alt_right; [apply map_Err; nohead heads_lo_name|].
    apply alt_right; [apply map_Err; nohead (heads_sep is_upper (char_ (C ".")) up_name heads_up_name)|].
    unfold op. apply (map_intro (fun v => Variable_ [v])).
    eapply delimited_intro; [apply char_intro| |apply char_intro].
    apply alt_right.
    { eapply heads_Err; [apply heads_operator|oks|]. destruct o as [|c o]; [congruence|].
      simpl in Ho. apply andb_true_iff in Ho as [Ho _]. apply N.eqb_eq in Ho. subst c. reflexivity. }
    unfold is_a, take_while1.
    rewrite (span_ext _ (fun c => (c =? C ",")%N)).
    2:{ intros c. unfold mem_char. cbn [existsb]. apply orb_false_r. }
    rewrite (span_all (fun c => (c =? C ",")%N) o (L ")" ++ r') Ho eq_refl).
    destruct o; [congruence|reflexivity].
Qed.

Lemma complete_name n s r : RName n s r -> binding_name s = Ok r n.
Proof.
  intros [n' r' Hn Hr|o r' Ho]; unfold binding_name.
  - apply alt_left, lo_name_intro; assumption.
  - apply alt_right; [nohead heads_lo_name|].
    eapply delimited_intro; [apply char_intro| |apply char_intro].
    apply operator_intro; [exact Ho|reflexivity].
Qed.

Lemma RName_RVar n s r : RName n s r -> RVar (Variable_ [n]) s r.
Proof. intros [n' r' Hn Hr|o r' Ho]; constructor; assumption. Qed.

Definition access_step : parser str := char_ (C ".") ;;; name <- lo_name ;; ret name.
Lemma eats_access_step : eats access_step.
Proof. apply ok_eats. intros n. ok0. unfold access_step. oks. Qed.

Lemma no_access_Err r : no_access r -> access_step r = Err.
Proof.
  intros H. unfold access_step. destruct r as [|c r]; [reflexivity|].
  destruct (N.eqb_spec c (C ".")) as [->|Hc].
  - eapply bind_Err2; [apply char_intro|]. apply bind_Err1.
    eapply heads_Err; [apply heads_lo_name|oks|]. exact (H eq_refl).
  - apply bind_Err1, char_Err. cbn. apply N.eqb_neq, Hc.
Qed.

Lemma RAccess_head fs s r : RAccess fs s r -> exists s', s = C "." :: s'.
Proof. intros []; cbn [app]; eauto. Qed.

Lemma complete_access fs s r : RAccess fs s r ->
  exists f fs' s1, fs = f :: fs' /\ access_step s = Ok s1 f /\ manys access_step s1 fs' r.
Proof.
  induction 1 as [f r Hf Hr Ha|f fs s r Hf Hs (g & fs' & s1 & -> & Hg & Hm)].
  - exists f, [], r. split; [reflexivity|]. split.
    + eapply bind_intro; [apply char_intro|]. eapply bind_intro; [|reflexivity].
      apply lo_name_intro; assumption.
    + apply manys_stop, many_stop_Err, no_access_Err, Ha.
  - exists f, (g :: fs'), s. split; [reflexivity|]. split.
    + eapply bind_intro; [apply char_intro|]. eapply bind_intro; [|reflexivity].
      apply lo_name_intro; [assumption|]. right.
      destruct (RAccess_head _ _ _ Hs) as [s' ->]. reflexivity.
    + eapply manys_cons; [apply eats_access_step|exact Hg|exact Hm].
Qed.

(** [{ a, b }] *)
Lemma eats_names : eats simplified_field.
Proof. apply ok_eats. intros n. ok0. unfold simplified_field. oks. Qed.

Lemma lower_name_ends P n s : lower_name n ->
  (forall c, is_lower c = true -> P c = false) -> P (C "_") = false -> ends P (n ++ s).
Proof.
  intros Hn H1 H2. destruct (lower_name_head n Hn) as (c & t & -> & [->|Hc]); cbn [app ends]; auto.
Qed.

Lemma field_intro b1 n b2 r : blanks b1 -> lower_name n -> blanks b2 ->
  ends is_blank r -> ends is_name_char r ->
  simplified_field (b1 ++ n ++ b2 ++ r) = Ok r (n, Variable_ [n]).
Proof.
  intros H1 Hn H2 Hr Hr2. unfold simplified_field.
  eapply bind_intro; [apply multispace0_intro; [exact H1|]|].
  { apply lower_name_ends; [exact Hn|intros; chr|reflexivity]. }
  eapply bind_intro; [apply lo_name_intro; [exact Hn|]|].
  { right. destruct b2 as [|c b2]; [exact Hr2|]. cbn [app ends]. unfold blanks in H2. simpl in H2.
    apply andb_true_iff in H2 as [H2 _]. chr. }
  eapply bind_intro; [apply multispace0_intro; [exact H2|exact Hr]|]. reflexivity.
Qed.

Lemma complete_names fs s r : RNames fs s r ->
  elems (char_ (C ",")) simplified_field s fs (L "}" ++ r).
Proof.
  induction 1 as [b1 n b2 r H1 Hn H2|b1 n b2 fs s r H1 Hn H2 _ IH].
  - apply elems_one. apply field_intro; try assumption; reflexivity.
  - eapply elems_cons; [apply eats_char|apply eats_names| |apply char_intro|exact IH].
    apply (field_intro b1 n b2 (L "," ++ s)); try assumption; reflexivity.
Qed.

Lemma complete_name_record fs s r : RNames fs s r ->
  simplified_record (L "{" ++ s) = Ok r (Record_ fs).
Proof.
  intros H. apply map_intro. eapply delimited_intro; [apply char_intro| |apply char_intro].
  eapply elems_list; [apply eats_char|apply eats_names|apply complete_names, H|].
  apply sep_stop_Err. reflexivity.
Qed.

Lemma complete_sig i sg s r : RSig i sg s r -> function_signature i s = Ok r sg.
Proof.
  intros [i' n sn b t1 j t s' r' Hn Hb Ht H]. unfold function_signature.
  eapply bind_intro; [apply complete_name, Hn|].
  eapply bind_intro; [apply spaces_intro; [exact Hb|reflexivity]|].
  eapply bind_intro; [apply char_intro|].
  pose proof (complete_ann _ _ _ _ H) as Ha.
  eapply bind_intro; [apply (sp_gt _ t1 j s'); [exact Ht|]|].
  { unfold type_annotation, type_annotation_f in Ha. apply map_res_Ok in Ha as (l & Ha & _).
    apply separated_nonempty_list_Ok in Ha as (x & l' & s1 & _ & Hx & _).
    eapply type_no_trivia, Hx. }
  eapply bind_intro; [exact Ha|reflexivity].
Qed.

(** ** Layout before and after *)

Lemma no_arg_stop i r : no_arg i r -> sep_stop (sp i IR_GT) (term i) r.
Proof.
  intros (t & r' & Hrun & H).
  destruct (sp_cases i IR_GT _ _ _ Hrun) as [He|[Hne He]]; [apply sep_stop_Err, He|].
  destruct H as [->|[[Hn Hw]|H]].
  - congruence.
  - apply sep_stop_Err. eapply sp_Err; [exact Hrun|]. right. split; [exact Hn|]. cbn. lia.
  - eapply sep_stop_next; [exact He|]. apply no_term_Err, H.
Qed.

Lemma no_infix_Err i r : no_infix i r -> operator_exp_f expression i r = Err.
Proof.
  intros (t & r' & Hrun & H). unfold operator_exp_f.
  destruct (sp_cases i IR_GTE _ _ _ Hrun) as [He|[Hne He]]; [apply bind_Err1, He|].
  destruct H as [->|[[Hn Hw]|H]].
  - congruence.
  - apply bind_Err1. eapply sp_Err; [exact Hrun|]. right. split; [exact Hn|]. cbn. lia.
  - eapply bind_Err2; [exact He|]. apply no_operator_Err, H.
Qed.

Lemma sep_nonempty_Err {A B} (sep : parser B) (p : parser A) s :
  p s = Err -> separated_nonempty_list sep p s = Err.
Proof. unfold separated_nonempty_list. intros ->. reflexivity. Qed.

(** ** Infix operators *)

Lemma op_cases c (P : char -> Prop) : is_op_char c = true -> Forall P op_chars -> P c.
Proof.
  intros H HP. unfold is_op_char, mem_char in H. apply existsb_exists in H as (d & Hin & Hd).
  apply N.eqb_eq in Hd. subst d. rewrite Forall_forall in HP. auto.
Qed.
(** facts about an operator character, case by case *)
Ltac opc H :=
  match type of H with
  | is_op_char ?c = true =>
      pattern c; apply (op_cases c); [exact H|];
      unfold op_chars; repeat (apply Forall_cons; [first [reflexivity | discriminate]|]);
      apply Forall_nil
  end.

Lemma blanks1_head b : blanks1 b -> exists c b', b = c :: b' /\ is_blank c = true.
Proof.
  intros [Hne Hb]. destruct b as [|c b]; [congruence|]. unfold blanks in Hb. simpl in Hb.
  apply andb_true_iff in Hb as [Hb _]. eauto.
Qed.

Lemma op_no_term c o d s : is_op_char c = true -> forallb is_op_char o = true ->
  is_op_char d = false -> is_dec d = false -> is_lower d = false -> d <> C "_" ->
  no_term (c :: o ++ d :: s).
Proof.
  intros Hc Ho Hd Hd1 Hd2 Hd3.
  assert (Hnext : ends is_dec (o ++ d :: s) /\ ends (fun x => is_lower x || (x =? C "_")%N) (o ++ d :: s)).
  { destruct o as [|x o]; cbn [app ends].
    - rewrite Hd1, Hd2. apply N.eqb_neq in Hd3. auto.
    - simpl in Ho. apply andb_true_iff in Ho as [Hx _]. split; opc Hx. }
  destruct Hnext. repeat split.
  - opc Hc.
  - opc Hc.
  - opc Hc.
  - intros Hl. exfalso. assert (H' : is_lower c = false) by opc Hc. congruence.
  - intros _. assumption.
  - intros _. assumption.
Qed.

Lemma infix_no_term o b s : infix_operator o -> blanks1 b -> no_term (o ++ b ++ s).
Proof.
  intros Ho Hb. destruct (blanks1_head b Hb) as (d & b' & -> & Hd).
  destruct Ho as [->|[(Hne & Hop & _) _]].
  - repeat split; intros Hx; try discriminate Hx.
    + exists (L "as"), ((d :: b') ++ s). split; [|simpl; auto 8].
      split; [reflexivity|]. split; [reflexivity|]. cbn [app ends]. chr.
  - destruct o as [|c o]; [congruence|]. simpl in Hop. apply andb_true_iff in Hop as [Hc Ho].
    apply (op_no_term c o d (b' ++ s)); try assumption; clear -Hd; chr.
Qed.

Lemma infix_no_trivia o b s : infix_operator o -> blanks1 b -> no_trivia (o ++ b ++ s).
Proof.
  intros Ho Hb. destruct (blanks1_head b Hb) as (d & b' & -> & Hd).
  destruct Ho as [->|[(Hne & Hop & _) Hc]].
  - apply no_trivia_char; discriminate.
  - destruct o as [|c o]; [congruence|]. simpl in Hop. apply andb_true_iff in Hop as [Hc1 Ho].
    repeat split.
    + opc Hc1.
    + opc Hc1.
    + intros [-> [y Hy]]. destruct o as [|x o].
      * cbn [app] in Hy. injection Hy as -> _. discriminate Hd.
      * cbn [app] in Hy. injection Hy as -> _. apply Hc. exists o. reflexivity.
Qed.

Lemma infix_parse o b s : infix_operator o -> blanks1 b ->
  operator_or_as (o ++ b ++ s) = Ok (b ++ s) (Variable_ [o]).
Proof.
  intros Ho Hb. destruct (blanks1_head b Hb) as (d & b' & -> & Hd).
  unfold operator_or_as. apply (map_intro (fun o => Variable_ [o])).
  destruct Ho as [->|[Hop _]].
  - apply alt_left, tag_intro.
  - apply alt_right; [|apply operator_intro; [exact Hop|cbn [app ends]; clear -Hd; chr]].
    destruct Hop as (Hne & Hop & _). destruct o as [|c o]; [congruence|].
    simpl in Hop. apply andb_true_iff in Hop as [Hc _].
    eapply heads_Err; [apply heads_tag|oks|]. cbn [app ends]. opc Hc.
Qed.

(** a parenthesised operator is not a parenthesised expression *)
Lemma op_close_Err i o r : o <> [] -> forallb is_op_char o = true ->
  expression i (o ++ L ")" ++ r) = Err.
Proof.
  intros Hne Ho. destruct o as [|c o]; [congruence|]. simpl in Ho. apply andb_true_iff in Ho as [Hc Ho].
  assert (Ht : no_term (c :: o ++ C ")" :: r)) by (apply op_no_term; try assumption; reflexivity || discriminate).
  destruct (N.eqb_spec c backslash) as [->|Hb].
  - rewrite expression_eq. unfold expression_f.
    apply alt_Err; [apply binary_Err, no_term_Err, Ht|].
    apply alt_Err; [reflexivity|]. apply alt_Err; [reflexivity|]. apply alt_Err; [reflexivity|].
    unfold lambda_f. eapply bind_Err2; [apply char_intro|]. apply bind_Err1.
    apply sep_nonempty_Err. apply (no_term_Err i).
    { destruct o as [|x o]; [apply never_no_term; reflexivity|].
      simpl in Ho. apply andb_true_iff in Ho as [Hx Ho].
      apply op_no_term; try assumption; reflexivity || discriminate. }
  - apply no_expr_Err. apply no_expr_intro; [exact Ht|exact Hb|]. opc Hc.
Qed.

Lemma op_Err s : (forall o r, s = o ++ L ")" ++ r -> o <> [] ->
    forallb is_op_char o = true \/ forallb (fun c => (c =? C ",")%N) o = true -> False) ->
  variable (L "(" ++ s) = Err.
Proof.
  intros H. unfold variable.
  apply alt_Err; [apply map_Err; nohead heads_lo_name|].
  apply alt_Err; [apply map_Err; nohead (heads_sep is_upper (char_ (C ".")) up_name heads_up_name)|].
  apply map_Err. eapply err_of_no_ok; [oks|]. intros r a Ha.
  apply delimited_Ok in Ha as (s1 & x1 & s2 & x2 & E1 & E2 & E3).
  apply char_Ok in E1 as [E1 _], E3 as [-> _]. injection E1 as ->.
  apply alt_Ok in E2 as [E2|[_ E2]].
  - apply operator_iff in E2 as (-> & (Hne & Ho & _) & _).
    eapply (H a r); [reflexivity|exact Hne|left; exact Ho].
  - unfold is_a, take_while1 in E2.
    rewrite (span_ext _ (fun c => (c =? C ",")%N)) in E2.
    2:{ intros c. unfold mem_char. cbn [existsb]. apply orb_false_r. }
    destruct (span (fun c => (c =? C ",")%N) s1) as [w y] eqn:Hw. destruct w as [|c w]; [discriminate|].
    injection E2 as -> <-. apply span_longest in Hw as (-> & Hw & _).
    eapply (H (c :: w) r); [reflexivity|discriminate|right; exact Hw].
Qed.

Lemma op_Err_expr i b s r e : blanks b -> expression i s = Ok r e ->
  variable (L "(" ++ b ++ s) = Err.
Proof.
  intros Hb H. apply op_Err. intros o x He Hne Ho.
  destruct b as [|c b].
  - cbn [app] in He. subst s. destruct Ho as [Ho|Ho].
    + pose proof (op_close_Err i o x Hne Ho) as Hc. cbn [app] in Hc, H. congruence.
    + destruct o as [|c o]; [congruence|]. simpl in Ho. apply andb_true_iff in Ho as [Ho _].
      apply N.eqb_eq in Ho. subst c. apply expr_never in H. discriminate.
  - unfold blanks in Hb. simpl in Hb. apply andb_true_iff in Hb as [Hc _].
    destruct o as [|d o]; [congruence|]. cbn [app] in He. injection He as <- _.
    simpl in Ho. destruct Ho as [Ho|Ho]; apply andb_true_iff in Ho as [Ho _]; clear -Hc Ho; chr.
Qed.

(** ** Terms after variables *)

Definition others (i : N) : parser expr :=
  access_function <|> string_ <|> float <|> integer <|> character
  <|> parens_f expression i <|> list_f expression i <|> tuple_f expression i
  <|> record_update_f expression i <|> record_f expression i <|> simplified_record.

Lemma term_others i s : variable s = Err -> term i s = others i s.
Proof.
  intros H. unfold term, term_f.
  assert (Ha : access s = Err) by (apply bind_Err1; exact H).
  unfold alt at 1. rewrite Ha. unfold alt at 1. rewrite H. reflexivity.
Qed.

(** ** Applications *)

Lemma application_of_list_fold f es :
  application_of_list (f :: es) = Some (fold_left Application es f).
Proof. destruct es as [|x es]; reflexivity. Qed.

Definition app_at (i : N) (e : expr) (s r : str) : Prop :=
  exists f es s1, term i s = Ok s1 f /\ e = fold_left Application es f /\
    forall l r', seps (sp i IR_GT) (term i) r l r' -> seps (sp i IR_GT) (term i) s1 (es ++ l) r'.

Lemma app_ok i e s r : app_at i e s r -> sep_stop (sp i IR_GT) (term i) r ->
  application_or_var i s = Ok r e.
Proof.
  intros (f & es & s1 & Hf & -> & Hes) Hst. unfold application_or_var, application_or_var_f.
  apply map_res_Ok. exists (f :: es). split; [|apply application_of_list_fold].
  change (term_f expression i) with (term i).
  eapply sep_list; [apply eats_sp|apply eats_term|exact Hf|].
  rewrite <- (app_nil_r es). apply Hes. apply seps_stop, Hst.
Qed.

Lemma app_term i e s r : app_at i e s r -> exists s1 f, term i s = Ok s1 f.
Proof. intros (f & es & s1 & H & _). eauto. Qed.

(** ** Keywords *)

Lemma kw_no_term w R i t j s : lay R i t j -> In w reserved_words -> no_term (w ++ t ++ s).
Proof.
  intros Ht Hin.
  assert (Hl : longest is_name_char w (w ++ t ++ s) (t ++ s)).
  { split; [reflexivity|]. split.
    - simpl in Hin. repeat (destruct Hin as [<-|Hin]; [reflexivity|]). contradiction.
    - eapply ends_lay; [exact Ht|reflexivity..]. }
  assert (Hex : exists w' r', longest is_name_char w' (w ++ t ++ s) r' /\ In w' reserved_words) by eauto.
  simpl in Hin. repeat (destruct Hin as [<-|Hin];
    [repeat split; intros Hx; first [exact Hex | discriminate Hx | destruct Hx as [Hx|Hx]; discriminate Hx]|]).
  contradiction.
Qed.

(** ** Parser names *)

Definition entry (m : N) : parser let_entry :=
  let_binding_f expression m <|> map_ LetFunction (function_f expression m).
Definition target (m : N) : parser expr := let_binding_target_f expression m.
Definition tuple_elem (i : N) : parser expr := delimited multispace0 (expression i) multispace0.
Definition comma2 (i : N) : parser char :=
  delimited (opt_spaces_or_new_lines_and_indent i IR_GTE) (char_ (C ","))
            (opt_spaces_or_new_lines_and_indent i IR_GTE).

Lemma eats_entry m : eats (entry m).
Proof. apply ok_eats. intros n. unfold entry. apply ok_alt; [apply ok_E_binding|]. apply ok_map.
  apply ok_down, ok_function_f. intros; apply ok_expression. Qed.
Lemma eats_tuple_elem i : eats (tuple_elem i).
Proof. apply ok_eats. intros n. ok0. unfold tuple_elem. apply ok_delimited_mid; oks. Qed.
Lemma eats_comma2 i : eats (comma2 i).
Proof. apply ok_eats. intros n. ok0. unfold comma2. oks. Qed.
Lemma eats_field i : eats (record_field_f expression i).
Proof. apply ok_eats. intros n. ok0. unfold record_field_f. oks. Qed.
Lemma eats_update i : eats (update_field_f expression i).
Proof. apply ok_eats. intros n. ok0. unfold update_field_f. oks. Qed.
Lemma eats_case i : eats (case_f expression i).
Proof. apply ok_eats. intros n. ok0. unfold case_f. oks. Qed.
