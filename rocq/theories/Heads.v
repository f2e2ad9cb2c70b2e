(** * Failure: parsers reject texts by their first characters *)
From Verif Require Import Base Nom Regex Ast Good Spec Helpers Types Expr Stmt Lexers Total
  Layout Seqs Grammar Follow Sound SoundE SoundS LexProps.

(** ** Reasoning about characters *)

Ltac chr_unfold H :=
  unfold is_name_char, is_tyvar_char, is_lower, is_upper, is_dec, between, is_op_char, op_chars,
    is_blank, is_space_or_newline, is_space_or_tab, is_sp_char, not_newline, not_quote, mem_char, newline, space, quote,
    squote, backslash in H; cbn [existsb] in H;
  rewrite ?orb_true_iff, ?andb_true_iff, ?orb_false_iff, ?andb_false_iff, ?negb_true_iff, ?negb_false_iff,
    ?N.leb_le, ?N.leb_gt, ?N.eqb_eq, ?N.eqb_neq in H.
Ltac chr :=
  try match goal with
  | |- ?b = true => apply not_false_is_true; let H := fresh "H" in intros H
  | |- ?b = false => apply not_true_is_false; let H := fresh "H" in intros H
  | |- ?a <> ?b => let H := fresh "H" in intros H
  end;
  repeat match goal with
  | H : _ = true |- _ => progress chr_unfold H
  | H : _ = false |- _ => progress chr_unfold H
  end; unfold newline, space, quote, squote, backslash in *;
  first [lia | intuition lia].

(** ** Totality *)

Lemma err_of_no_ok {A} (p : parser A) s :
  ok 0 (S (length s)) p p -> (forall r a, p s <> Ok r a) -> p s = Err.
Proof.
  intros Ho Hn. destruct (Ho s (le_n _)) as [_ H].
  destruct (p s) as [r a| |w]; [exfalso; eapply Hn; reflexivity|reflexivity|contradiction].
Qed.

Lemma ok_short {A} k (p : parser A) s r a :
  ok k (S (length s)) p p -> p s = Ok r a -> length r + k <= length s.
Proof. intros Ho H. destruct (Ho s (le_n _)) as [_ Hr]. rewrite H in Hr. exact Hr. Qed.

Lemma alt_left {A} (p q : parser A) s r a : p s = Ok r a -> (p <|> q) s = Ok r a.
Proof. intros H. apply alt_Ok. auto. Qed.
Lemma alt_right {A} (p q : parser A) s r a : p s = Err -> q s = Ok r a -> (p <|> q) s = Ok r a.
Proof. intros H1 H2. apply alt_Ok. auto. Qed.
Lemma alt_Err {A} (p q : parser A) s : p s = Err -> q s = Err -> (p <|> q) s = Err.
Proof. unfold alt. intros -> H. exact H. Qed.
Lemma bind_Err1 {A B} (p : parser A) (f : A -> parser B) s : p s = Err -> bind p f s = Err.
Proof. unfold bind. intros ->. reflexivity. Qed.
Lemma bind_Err2 {A B} (p : parser A) (f : A -> parser B) s s' a :
  p s = Ok s' a -> f a s' = Err -> bind p f s = Err.
Proof. unfold bind. intros -> H. exact H. Qed.
Lemma bind_intro {A B} (p : parser A) (f : A -> parser B) s s' a r b :
  p s = Ok s' a -> f a s' = Ok r b -> bind p f s = Ok r b.
Proof. unfold bind. intros -> H. exact H. Qed.
Lemma map_Err {A B} (f : A -> B) p s : p s = Err -> map_ f p s = Err.
Proof. unfold map_. intros ->. reflexivity. Qed.
Lemma map_res_Err {A B} (f : A -> option B) p s : p s = Err -> map_res f p s = Err.
Proof. unfold map_res. intros ->. reflexivity. Qed.
Lemma map_intro {A B} (f : A -> B) p s r a : p s = Ok r a -> map_ f p s = Ok r (f a).
Proof. unfold map_. intros ->. reflexivity. Qed.
Lemma delimited_intro {A B D} (p : parser A) (q : parser B) (t : parser D) s s1 a s2 b r d :
  p s = Ok s1 a -> q s1 = Ok s2 b -> t s2 = Ok r d -> delimited p q t s = Ok r b.
Proof. intros. apply delimited_Ok. eauto 8. Qed.
Lemma preceded_intro {A B} (p : parser A) (q : parser B) s s1 a r b :
  p s = Ok s1 a -> q s1 = Ok r b -> preceded p q s = Ok r b.
Proof. intros. apply preceded_Ok. eauto. Qed.
Lemma terminated_intro {A B} (p : parser A) (q : parser B) s s1 a r b :
  p s = Ok s1 a -> q s1 = Ok r b -> terminated p q s = Ok r a.
Proof. intros. apply terminated_Ok. eauto. Qed.
Lemma opt_None {A} (p : parser A) s : p s = Err -> opt p s = Ok s None.
Proof. unfold opt. intros ->. reflexivity. Qed.
Lemma opt_Some {A} (p : parser A) s r a : p s = Ok r a -> opt p s = Ok r (Some a).
Proof. unfold opt. intros ->. reflexivity. Qed.

Lemma char_intro c s : char_ c (c :: s) = Ok s c.
Proof. apply char_Ok. auto. Qed.
Lemma tag_intro t s : tag t (t ++ s) = Ok s t.
Proof. apply tag_Ok. auto. Qed.
Lemma char_Err c s : ends (fun d => (d =? c)%N) s -> char_ c s = Err.
Proof.
  destruct s as [|d s]; [reflexivity|]. simpl. intros ->. reflexivity.
Qed.

(** ** First characters *)

(** Whenever [p] succeeds, the text starts with a character satisfying [P]. *)
Definition heads {A} (P : char -> bool) (p : parser A) : Prop :=
  forall s r a, p s = Ok r a -> exists c s', s = c :: s' /\ P c = true.

Lemma heads_Err {A} P (p : parser A) s :
  heads P p -> ok 0 (S (length s)) p p -> ends P s -> p s = Err.
Proof.
  intros Hh Ho He. eapply err_of_no_ok; [exact Ho|]. intros r a H.
  apply Hh in H as (c & s' & -> & Hc). simpl in He. congruence.
Qed.

Lemma heads_weaken {A} (P Q : char -> bool) (p : parser A) :
  (forall c, P c = true -> Q c = true) -> heads P p -> heads Q p.
Proof. intros H Hp s r a Ha. apply Hp in Ha as (c & s' & -> & Hc). eauto. Qed.

Lemma heads_char c : heads (fun d => (d =? c)%N) (char_ c).
Proof. intros s r a H. apply char_Ok in H as [-> _]. exists c, r. rewrite N.eqb_refl. auto. Qed.
Lemma heads_tag c t : heads (fun d => (d =? c)%N) (tag (c :: t)).
Proof. intros s r a H. apply tag_Ok in H as [-> _]. exists c, (t ++ r). rewrite N.eqb_refl. auto. Qed.
Lemma heads_bind {A B} P (p : parser A) (f : A -> parser B) : heads P p -> heads P (bind p f).
Proof. intros H s r a Ha. apply bind_Ok in Ha as (s' & b & Hb & _). eauto. Qed.
Lemma heads_map {A B} P (f : A -> B) (p : parser A) : heads P p -> heads P (map_ f p).
Proof. intros H s r a Ha. apply map_Ok in Ha as (b & Hb & _). eauto. Qed.
Lemma heads_map_res {A B} P (f : A -> option B) (p : parser A) : heads P p -> heads P (map_res f p).
Proof. intros H s r a Ha. apply map_res_Ok in Ha as (b & Hb & _). eauto. Qed.
Lemma heads_alt {A} P (p q : parser A) : heads P p -> heads P q -> heads P (p <|> q).
Proof. intros H1 H2 s r a Ha. apply alt_Ok in Ha as [Ha|[_ Ha]]; eauto. Qed.
Lemma heads_delimited {A B D} P (p : parser A) (q : parser B) (t : parser D) :
  heads P p -> heads P (delimited p q t).
Proof. apply heads_bind. Qed.
Lemma heads_preceded {A B} P (p : parser A) (q : parser B) : heads P p -> heads P (preceded p q).
Proof. apply heads_bind. Qed.
Lemma heads_terminated {A B} P (p : parser A) (q : parser B) : heads P p -> heads P (terminated p q).
Proof. apply heads_bind. Qed.
Lemma heads_sep {A B} P (sep : parser B) (p : parser A) :
  heads P p -> heads P (separated_nonempty_list sep p).
Proof. intros H s r a Ha. apply separated_nonempty_list_Ok in Ha as (x & l & s1 & _ & Hx & _). eauto. Qed.

Definition name0 (c : char) : bool := is_lower c || (c =? C "_")%N.

Lemma heads_lo_name : heads name0 lo_name.
Proof.
  intros s r a H. rewrite lo_name_eq in H. destruct s as [|c s]; [discriminate|].
  exists c, s. split; [reflexivity|]. unfold name0.
  destruct (c =? C "_")%N; [apply orb_true_r|]. destruct (is_lower c); [reflexivity|discriminate].
Qed.
Lemma heads_up_name : heads is_upper up_name.
Proof.
  intros s r a H. apply up_name_iff in H as (-> & (c & t & -> & Hc & _) & _). cbn [app]. eauto.
Qed.
Lemma heads_type_variable : heads is_lower type_variable.
Proof.
  intros s r a H. apply type_variable_iff in H as (n & -> & -> & (c & t & -> & Hc & _) & _).
  cbn [app]. eauto.
Qed.
Lemma heads_operator : heads is_op_char operator.
Proof.
  intros s r a H. apply operator_iff in H as (-> & (Hne & Ho & _) & _).
  destruct a as [|c a]; [congruence|]. simpl in Ho. apply andb_true_iff in Ho as [Ho _].
  cbn [app]. eauto.
Qed.
Lemma heads_digit : heads is_dec digit.
Proof.
  intros s r a H. apply digit_iff in H as (-> & Hd & _).
  apply digits1_head in Hd as (c & t & -> & Hc). cbn [app]. eauto.
Qed.
Lemma heads_sp i ir :
  heads (fun c => (c =? space)%N || (c =? newline)%N || (c =? C "-")%N)
        (spaces_or_new_lines_and_indent i ir).
Proof.
  intros s r a H. apply sp_Ok in H as (t & -> & _ & [Ht Hne] & _).
  destruct Ht; [congruence|..]; cbn [app]; do 2 eexists; split; try reflexivity.
Qed.
Lemma heads_spaces : heads is_sp_char spaces.
Proof.
  intros s r a H. apply spaces_iff in H as (-> & [Hne Hb] & _). destruct a as [|c a]; [congruence|].
  simpl in Hb. apply andb_true_iff in Hb as [Hb _]. cbn [app]. eauto.
Qed.

Definition var0 (c : char) : bool := is_lower c || is_upper c || mem_char c (L "_(").

Lemma heads_variable : heads var0 variable.
Proof.
  unfold variable, lower_case, upper_with_dots, op. repeat apply heads_alt.
  - eapply heads_weaken; [|apply heads_map, heads_lo_name]. unfold name0, var0. intros; chr.
  - eapply heads_weaken; [|apply heads_map, heads_sep, heads_up_name]. unfold name0, var0. intros; chr.
  - eapply heads_weaken; [|apply heads_map, heads_delimited, heads_char]. unfold name0, var0. intros; chr.
Qed.
Lemma heads_access : heads var0 access.
Proof. apply heads_bind, heads_variable. Qed.
Lemma heads_access_function : heads (fun c => (c =? C ".")%N) access_function.
Proof. apply heads_bind, heads_char. Qed.
Lemma heads_string : heads (fun c => (c =? quote)%N) string_.
Proof. apply heads_map, heads_alt; [|]; unfold multi_string, single_string; intros s r a H.
  - apply multi_string_iff in H as [-> _]. eexists _, _. split; [reflexivity|reflexivity].
  - apply single_string_iff in H as [-> _]. eexists _, _. split; [reflexivity|reflexivity].
Qed.
Definition number0 (c : char) : bool := is_dec c || (c =? C "+")%N || (c =? C "-")%N.
Lemma number_head sg d r : sign_text sg -> digits1 d ->
  exists c s', sg ++ d ++ r = c :: s' /\ number0 c = true.
Proof.
  intros Hs Hd. apply digits1_head in Hd as (c & t & -> & Hc).
  destruct Hs as [->|[->| ->]]; cbn [app]; do 2 eexists; (split; [reflexivity|]).
  - unfold number0. rewrite Hc. reflexivity.
  - reflexivity.
  - reflexivity.
Qed.
Lemma heads_integer : heads number0 integer.
Proof.
  intros s r a H. apply integer_iff in H as (n & -> & -> & (sg & d & -> & Hs & Hd) & _).
  rewrite <- app_assoc. apply number_head; assumption.
Qed.
Lemma heads_float : heads number0 float.
Proof.
  intros s r a H. apply float_iff in H as (n & -> & -> & (sg & d & e & -> & Hs & Hd & _) & _).
  rewrite <- !app_assoc. apply number_head; assumption.
Qed.
Lemma heads_character : heads (fun c => (c =? squote)%N) character.
Proof. apply heads_map, heads_delimited, heads_char. Qed.
Lemma heads_parens E i : heads (fun c => (c =? C "(")%N) (parens_f E i).
Proof. apply heads_delimited, heads_char. Qed.
Lemma heads_list E i : heads (fun c => (c =? C "[")%N) (list_f E i).
Proof. apply heads_map, heads_delimited, heads_preceded, heads_char. Qed.
Lemma heads_tuple E i : heads (fun c => (c =? C "(")%N) (tuple_f E i).
Proof. apply heads_map, heads_delimited, heads_char. Qed.
Lemma heads_update E i : heads (fun c => (c =? C "{")%N) (record_update_f E i).
Proof. apply heads_delimited, heads_preceded, heads_char. Qed.
Lemma heads_record E i : heads (fun c => (c =? C "{")%N) (record_f E i).
Proof. apply heads_map, heads_delimited, heads_preceded, heads_char. Qed.
Lemma heads_names : heads (fun c => (c =? C "{")%N) simplified_record.
Proof. apply heads_map, heads_delimited, heads_char. Qed.

(** The expression parsers on [expression] itself. *)
Lemma ok_E_tuple n i : ok 1 n (tuple_f expression i) (tuple_f expression i).
Proof. apply ok_down, ok_tuple_f. intros; apply ok_expression. Qed.
Lemma ok_E_list n i : ok 1 n (list_f expression i) (list_f expression i).
Proof. apply ok_down, ok_list_f. intros; apply ok_expression. Qed.
Lemma ok_E_record n i : ok 1 n (record_f expression i) (record_f expression i).
Proof. apply ok_down, ok_record_f. intros; apply ok_expression. Qed.
Lemma ok_E_update n i : ok 1 n (record_update_f expression i) (record_update_f expression i).
Proof. apply ok_down, ok_record_update_f. intros; apply ok_expression. Qed.
Lemma ok_E_parens n i : ok 1 n (parens_f expression i) (parens_f expression i).
Proof. apply ok_down, ok_parens_f. intros; apply ok_expression. Qed.
Lemma ok_E_lambda n i : ok 1 n (lambda_f expression i) (lambda_f expression i).
Proof. apply ok_down, ok_lambda_f. intros; apply ok_expression. Qed.
Lemma ok_E_app n i : ok 1 n (application_or_var_f expression i) (application_or_var_f expression i).
Proof. apply ok_down, ok_application_or_var_f. intros; apply ok_expression. Qed.
Lemma ok_E_binary n i : ok 1 n (binary_f expression i) (binary_f expression i).
Proof. apply ok_down, ok_binary_f. intros; apply ok_expression. Qed.
Lemma ok_E_def n i : ok 1 n (function_definition_f expression i) (function_definition_f expression i).
Proof. apply ok_down, ok_function_definition_f. intros; apply ok_expression. Qed.
Lemma ok_E_target n i : ok 1 n (let_binding_target_f expression i) (let_binding_target_f expression i).
Proof. apply ok_down, ok_let_binding_target_f. intros; apply ok_expression. Qed.
Lemma ok_E_binding n i : ok 1 n (let_binding_f expression i) (let_binding_f expression i).
Proof. apply ok_down, ok_let_binding_f. intros; apply ok_expression. Qed.
Lemma ok_E_opexp n i : ok 1 n (operator_exp_f expression i) (operator_exp_f expression i).
Proof. apply ok_down, ok_operator_exp_f. intros; apply ok_expression. Qed.
Lemma ok_E_field n i : ok 0 n (record_field_f expression i) (record_field_f expression i).
Proof. apply ok_record_field_f. intros; apply ok_expression. Qed.
Lemma ok_E_update_field n i : ok 0 n (update_field_f expression i) (update_field_f expression i).
Proof. apply ok_update_field_f. intros; apply ok_expression. Qed.
Lemma ok_E_case n i : ok 0 n (case_f expression i) (case_f expression i).
Proof. apply ok_case_f. intros; apply ok_expression. Qed.
#[export] Hint Resolve ok_E_tuple ok_E_list ok_E_record ok_E_update ok_E_parens ok_E_lambda
  ok_E_app ok_E_binary ok_E_def ok_E_target ok_E_binding ok_E_opexp ok_E_field ok_E_update_field
  ok_E_case : okdb.

(** ** Terms *)

(** the alternatives of a term after the variables *)
Definition other0 (c : char) : bool :=
  is_dec c || mem_char c (quote :: squote :: L ".+-([{").

Ltac skip_first H :=
  eapply heads_Err; [solve [apply H] | solve [oks] | try (cbn [ends]; chr)].

Lemma term_Err i s : variable s = Err ->
  match s with
  | [] => True
  | c :: s' => is_dec c = false /\ mem_char c (quote :: squote :: L "([{") = false /\
      (c = C "." -> lo_name s' = Err) /\
      (c = C "+" \/ c = C "-" -> ends is_dec s')
  end -> term i s = Err.
Proof.
  intros Hv Hs. unfold term, term_f.
  assert (Hac : access s = Err) by (apply bind_Err1; exact Hv).
  destruct s as [|c s'].
  { repeat (apply alt_Err; [first [assumption|reflexivity]|]). reflexivity. }
  destruct Hs as (Hd & Hm & Hdot & Hnum).
  apply alt_Err; [exact Hac|]. apply alt_Err; [exact Hv|].
  apply alt_Err.
  { unfold access_function. destruct (N.eqb_spec c (C ".")) as [->|Hc].
    - eapply bind_Err2; [apply char_intro|]. apply bind_Err1. auto.
    - apply bind_Err1, char_Err. cbn. apply N.eqb_neq. exact Hc. }
  apply alt_Err; [skip_first heads_string|].
  assert (Hnumber : forall sg d x, sign_text sg -> digits1 d -> c :: s' = sg ++ d ++ x -> False).
  { intros sg d x Hsg Hdg He. apply digits1_head in Hdg as (c0 & t & -> & Hc0).
    destruct Hsg as [->|[->| ->]]; cbn [app] in He; injection He as -> He.
    - congruence.
    - subst s'. cbn [ends] in Hnum. rewrite Hnum in Hc0; [discriminate|auto].
    - subst s'. cbn [ends] in Hnum. rewrite Hnum in Hc0; [discriminate|auto]. }
  apply alt_Err.
  { eapply err_of_no_ok; [oks|]. intros r a H.
    apply float_iff in H as (n & -> & He & (sg & d & e & -> & Hsg & Hdg & _) & _).
    rewrite <- !app_assoc in He. eapply Hnumber; eassumption. }
  apply alt_Err.
  { eapply err_of_no_ok; [oks|]. intros r a H.
    apply integer_iff in H as (n & -> & He & (sg & d & -> & Hsg & Hdg) & _).
    rewrite <- !app_assoc in He. eapply Hnumber; eassumption. }
  apply alt_Err; [skip_first heads_character|].
  apply alt_Err; [skip_first heads_parens|].
  apply alt_Err; [skip_first heads_list|].
  apply alt_Err; [skip_first heads_tuple|].
  apply alt_Err; [skip_first heads_update|].
  apply alt_Err; [skip_first heads_record|].
  skip_first heads_names.
Qed.

Lemma lo_name_reserved s w r :
  longest is_name_char w s r -> In w reserved_words -> lo_name s = Err.
Proof.
  intros (-> & Hw & Hr) Hin. rewrite lo_name_eq.
  destruct w as [|c w].
  { simpl in Hin. repeat (destruct Hin as [Hin|Hin]; [discriminate|]). contradiction. }
  cbn [app]. destruct (N.eqb_spec c (C "_")) as [->|_].
  { simpl in Hin. repeat (destruct Hin as [Hin|Hin]; [discriminate|]). contradiction. }
  destruct (is_lower c); [|reflexivity]. simpl in Hw. apply andb_true_iff in Hw as [_ Hw].
  rewrite (span_all _ _ _ Hw Hr). apply mem_str_In in Hin. rewrite Hin. reflexivity.
Qed.

Lemma no_term_variable s : no_term s -> variable s = Err.
Proof.
  destruct s as [|c s]; [reflexivity|]. intros (Hu & Hd & Hm & Hl & _).
  unfold variable. apply alt_Err; [|apply alt_Err].
  - apply map_Err. destruct (is_lower c) eqn:Hc.
    + destruct (Hl eq_refl) as (w & r & Hw & Hin). eapply lo_name_reserved; eassumption.
    + skip_first heads_lo_name. cbn [ends]. unfold name0. chr.
  - apply map_Err. eapply heads_Err; [apply heads_sep, heads_up_name|oks|exact Hu].
  - apply map_Err. eapply heads_Err; [apply heads_delimited, heads_char|oks|]. cbn [ends]. chr.
Qed.

Lemma no_term_Err i s : no_term s -> term i s = Err.
Proof.
  intros H. apply term_Err; [apply no_term_variable; exact H|].
  destruct s as [|c s]; [exact I|]. destruct H as (Hu & Hd & Hm & Hl & Hdot & Hnum).
  split; [exact Hd|]. split; [chr|]. split; [|exact Hnum].
  intros Hc. eapply heads_Err; [apply heads_lo_name|oks|]. exact (Hdot Hc).
Qed.

Lemma app_Err i s : term i s = Err -> application_or_var i s = Err.
Proof.
  intros H. unfold application_or_var, application_or_var_f, map_res, separated_list.
  unfold term in H. rewrite H. reflexivity.
Qed.
Lemma binary_Err i s : term i s = Err -> binary i s = Err.
Proof. intros H. apply bind_Err1. apply (app_Err _ _ H). Qed.

(** [tag w] followed by layout: [w] is the whole first word *)
Lemma keyword_sp {B} w i ir (f : N -> parser B) s w' r' :
  longest is_name_char w' s r' -> forallb is_name_char w = true -> w' <> w ->
  (tag w ;;; n <- spaces_or_new_lines_and_indent i ir ;; f n) s = Err.
Proof.
  intros (-> & Hw' & Hr') Hw Hne. unfold bind.
  destruct (tag w (w' ++ r')) as [s1 a| |a] eqn:Ht; [|reflexivity|].
  2:{ unfold tag in Ht. destruct (strip w (w' ++ r')); discriminate. }
  apply tag_Ok in Ht as [He _].
  destruct (spaces_or_new_lines_and_indent i ir s1) as [s2 j| |x] eqn:Hs; [|reflexivity|].
  - exfalso. apply Hne. apply heads_sp in Hs as (c & s' & -> & Hc).
    assert (Hcn : ends is_name_char (c :: s')) by (cbn [ends]; chr).
    assert (H1 : span is_name_char (w' ++ r') = (w', r')) by (apply span_all; assumption).
    rewrite He, (span_all is_name_char w (c :: s') Hw Hcn) in H1. congruence.
  - exfalso. destruct (ok_sp (S (length s1)) i ir s1 (le_n _)) as [_ Ho]. rewrite Hs in Ho. exact Ho.
Qed.

Lemma longest_exists P s : exists w r, longest P w s r.
Proof. destruct (span P s) as [w r] eqn:H. exists w, r. apply span_longest. exact H. Qed.
Lemma longest_unique P s w r w' r' : longest P w s r -> longest P w' s r' -> w = w' /\ r = r'.
Proof. intros H1 H2. apply span_longest in H1, H2. rewrite H1 in H2. injection H2; auto. Qed.

Lemma no_expr_Err i s : no_expr s -> expression i s = Err.
Proof.
  intros (Ht & Hb & Hk). rewrite expression_eq. unfold expression_f.
  assert (Hkw : forall w, In w [L "let"; L "case"; L "if"] ->
                forall w' r', longest is_name_char w' s r' -> w' <> w).
  { intros w Hw w' r' H ->. apply Hk. eauto. }
  destruct (longest_exists is_name_char s) as (w & r & Hw).
  apply alt_Err; [apply binary_Err, no_term_Err, Ht|].
  apply alt_Err.
  { unfold let_expression_f. eapply keyword_sp; [exact Hw|reflexivity|].
    eapply Hkw; [|exact Hw]. simpl; auto. }
  apply alt_Err.
  { unfold case_expression_f. eapply keyword_sp; [exact Hw|reflexivity|].
    eapply Hkw; [|exact Hw]. simpl; auto. }
  apply alt_Err.
  { unfold if_expression_f. eapply keyword_sp; [exact Hw|reflexivity|].
    eapply Hkw; [|exact Hw]. simpl; auto. }
  apply bind_Err1, char_Err. exact Hb.
Qed.

(** ** Operators *)

Lemma no_operator_Err i s : no_operator s ->
  (o <- operator_or_as ;; multispace ;;; e <- expression i ;; ret (o, e)) s = Err.
Proof.
  intros H. unfold bind at 1.
  destruct (operator_or_as s) as [s1 o| |] eqn:Ho; [|reflexivity|].
  - apply bind_Err1. unfold operator_or_as in Ho. apply map_Ok in Ho as (x & Ho & ->).
    unfold multispace, take_while1.
    destruct (span is_multispace s1) as [b s2] eqn:Hb. destruct b as [|b0 b]; [reflexivity|].
    exfalso. apply H. apply span_longest in Hb as (-> & Hb & _).
    simpl in Hb. apply andb_true_iff in Hb as [Hb _].
    apply alt_Ok in Ho as [Ho|[_ Ho]].
    + apply tag_Ok in Ho as [-> ->]. exists (L "as"), b0, (b ++ s2). auto.
    + apply operator_iff in Ho as (-> & Ho & _). exists x, b0, (b ++ s2). auto.
  - exfalso. destruct (ok_operator_or_as (S (length s)) s (le_n _)) as [_ Hk]. rewrite Ho in Hk. exact Hk.
Qed.
