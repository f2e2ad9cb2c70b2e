(** * Phrases in parentheses, read alone and with any text behind them *)
From Verif Require Import Base Nom Regex Ast Good Spec Helpers Types Expr Stmt Lexers Total Layout Seqs Grammar Follow Sound SoundE SoundS LexProps Heads Rules Render
  CompleteT CompleteE CompleteX CompleteS Keywords Language Chains Exact Brackets TwoRuns RenameSim Whole CommentSpec LiteralSpec Literals LiteralsAll Steps Indep Inside InsideAll.

(** ** Lists of exported names *)
Section Exports.
Variables v v' : str.
Notation X d := (in_ on (S d) v v').
Notation Y d := (in_ on d v v').
Lemma in_all_export d : step (X d) (X d) all_export all_export.
Proof.
  unfold all_export. apply step_map. apply (in_token _ (fun t a => t = L ".." /\ a = L "..") (fun _ _ => True)).
  - intros s r a. apply tag_word.
  - intros t a [-> _]. apply (run_no_close is_op_char); [exact op_not_4|reflexivity].
  - intros t. apply near_true.
  - intros t a w u _ Hw _ [-> _] _. split; [|exact I]. apply (shut_ops _ (L "..")); [reflexivity| |exact Hw]. intros (x & E). discriminate E.
Qed.
Lemma in_comma_space d : step (X d) (X d) (tag (L ", ")) (tag (L ", ")).
Proof.
  apply (in_token _ (fun t a => t = L ", " /\ a = L ", ") (fun _ _ => True)).
  - intros s r a. apply tag_word.
  - intros t a [-> _] c Hc. destruct Hc as [<-|[<-|[]]]; reflexivity.
  - intros t. apply near_true.
  - intros t a w u _ Hw _ [-> _] _. split; [|exact I]. revert Hw. apply shut_plains. intros c Hc. destruct Hc as [<-|[<-|[]]]; right; reflexivity.
Qed.
Lemma in_export_item d : step (X d) (X d) (function_export <|> type_export) (function_export <|> type_export).
Proof.
  apply step_alt.
  - unfold function_export. apply step_map, step_alt; [unfold function_name; apply step_map, in_lo_name|].
    eapply (step_delimited (place v v' (S d))); [apply open_code|apply in_operator|apply in_close; reflexivity].
  - unfold type_export. eapply step_bind; [apply in_up_name|]. intros n. eapply step_bind; [|intros c; apply step_ret].
    unfold constructor_exports. apply step_opt.
    eapply (step_delimited (place v v' (S d))); [apply open_on; reflexivity| |apply in_close; reflexivity].
    apply step_alt; [apply in_all_export|]. unfold constructor_subset_exports. apply step_map, in_list1; [apply in_comma_space|apply step_map, in_up_name].
Qed.
Lemma at_exports d : step (place v v' d) (Y d) exports exports.
Proof.
  unfold exports. eapply step_delimited; [apply open_sp; reflexivity| |apply shut_at; reflexivity].
  apply step_alt; [apply in_all_export|]. unfold subset_export. apply step_map, in_list1; [|apply in_export_item].
  eapply step_delimited; [apply step_opt, in_spnl|apply in_comma|apply step_opt, in_spnl].
Qed.
End Exports.
(** a list of constructors, as behind the name of a type, is a list of exported names *)
Lemma constructors_exports s r a : delimited (char_ (C "(")) (all_export <|> constructor_subset_exports) (char_ (C ")")) s = Ok r a ->
  exists e, exports s = Ok r e.
Proof.
  intros H. apply delimited_Ok in H as (s1 & x & s2 & y & H1 & H2 & H3).
  apply char_Ok in H1 as [-> _]. apply char_Ok in H3 as [-> _]. apply alt_Ok in H2 as [H2|[_ H2]].
  - unfold all_export in H2. apply Seqs.map_Ok in H2 as (k & H2 & ->). apply tag_Ok in H2 as [-> _].
    exists AllExport. apply complete_exports. apply (RExports_all [] []); left; reflexivity.
  - apply sound_constructor_subset_exports in H2 as (w & -> & cs & -> & Hq & ->).
    exists (SubsetExport (map (fun n => TypeExport n None) cs)). apply complete_exports.
    apply (RExports_some [] _ (join (L ", ") cs ++ C ")" :: r) []); [left; reflexivity| |left; reflexivity]. destruct Hq as [Hne Hq].
    revert Hne. induction Hq as [|c cs Hc Hcs IH]; [congruence|]. intros _. destruct cs as [|c' cs].
    + cbn [map join]. apply RExportItems_one. apply RExport_type; [exact Hc|reflexivity].
    + cbn [map]. change (join (L ", ") (c :: c' :: cs)) with (c ++ L ", " ++ join (L ", ") (c' :: cs)). rewrite <- !app_assoc.
      apply (RExportItems_cons _ _ [] (L " ") _ (join (L ", ") (c' :: cs) ++ C ")" :: r)); [|reflexivity|reflexivity|apply IH; discriminate].
      apply RExport_type; [exact Hc|reflexivity].
Qed.

(** ** From the phrase alone to the phrase with text behind it *)
Section Phrase.
Variables (u : str) (e : expr).
Hypotheses (Hw : closes 1 (u ++ [C ")"])) (Hd : ~ dashes (u ++ [C ")"])).
Local Notation t := (u ++ [41%N]).
Notation x := (t, e).
Lemma here s : top s [] (round x s) (C "(" :: t).
Proof. unfold round. cbn [fst]. rewrite <- (app_nil_r (C "(" :: t)). apply top_here; auto. Qed.
Lemma agree_Err {A} (Z : str -> str -> Prop) s s' (y : res A) : agree Z s s' y Err -> failing y.
Proof. destruct y; cbn; auto. Qed.
Lemma agree_Ok {A} v s s' (y : res A) a : agree (in_ on 0 v []) s s' y (Ok [] a) -> aborts y \/ y = Ok v a.
Proof.
  destruct y as [r b| |m]; cbn; [|tauto|tauto]. intros (-> & (w & H & _ & -> & E) & _). inversion H; subst. right. reflexivity.
Qed.
Lemma no_type_alone T : (forall v v' n i d, step (in_ on (S d) v v') (in_ on (S d) v v') (T i) (type_n n i)) ->
  (forall i, type_ i (C "(" :: t) = Err) -> no_type T x.
Proof.
  intros HT H i s. specialize (H i). rewrite (type_is_bracket (C "(") t eq_refl (fun _ => Hd)) in H.
  set (n := length (C "(" :: t)) in *.
  assert (Ht : forall p q : parser type_ast, (p <|> q) (C "(" :: t) = Err -> p (C "(" :: t) = Err /\ q (C "(" :: t) = Err)
    by (intros p q; unfold alt; destruct (p (C "(" :: t)); try discriminate; auto).
  apply Ht in H as [_ H]. apply Ht in H as [_ H]. apply Ht in H as [H1 H2]. split.
  - eapply agree_Err. rewrite <- H1. apply (at_type_tuple_f s [] T (type_n n) (fun i d => HT s [] n i d) i 0), here.
  - eapply agree_Err. rewrite <- H2. apply (at_type_parens_f s [] T (type_n n) (fun i d => HT s [] n i d) i 0), here.
Qed.
Lemma nothing_else_alone : (forall i, type_ i (C "(" :: t) = Err) -> exports (C "(" :: t) = Err -> op (C "(" :: t) = Err -> nothing_else x.
Proof.
  intros H1 H2 H3. split; [|split].
  - apply no_type_alone; [|exact H1]. intros v v' n i d w w' Hww. apply in_type_n. exact Hww.
  - intros m. apply no_type_alone; [|exact H1]. intros v v' n i d. apply in_type_n.
  - intros s. assert (He : failing (exports (round x s))) by (eapply agree_Err; rewrite <- H2; apply (at_exports s [] 0), here).
    split; [eapply agree_Err; rewrite <- H3; apply (at_op s [] 0), here|]. split; [exact He|].
    destruct (delimited _ _ _ (round x s)) as [r a| |] eqn:E; [|exact I..]. apply constructors_exports in E as (a' & E). rewrite E in He. exact He.
Qed.
Lemma reads_parens_alone F : (forall v v' i d, step (in_ on (S d) v v') (in_ on (S d) v v') (F i) (expression i)) ->
  (forall i, expression i t = Ok (L ")") e) -> reads_parens F x.
Proof.
  intros HF H i s. cbn [snd]. split.
  - eapply agree_Ok. replace (Ok [] e) with (parens_f expression i (C "(" :: t)); [apply (at_parens_f s [] F expression (HF s []) i 0), here|].
    unfold parens_f. eapply delimited_intro; [apply char_intro|apply H|apply char_intro].
  - eapply agree_Ok. replace (Ok [] (Tuple [e])) with (tuple_f expression i (C "(" :: t)); [apply (at_tuple_f s [] F expression (HF s []) i 0), here|].
    unfold tuple_f. apply map_intro. eapply delimited_intro; [apply char_intro| |apply char_intro].
    change (delimited multispace0 (expression i) multispace0) with (tuple_elem i). apply padded_list. right. exists e, [], (L ")").
    split; [reflexivity|]. split; [|split; [apply items_nil|intros k s2 y r' E -> _; discriminate E]].
    exists [], t, []. repeat split. apply H.
Qed.
Lemma reads_tuple_alone F l : (forall v v' i d, step (in_ on (S d) v v') (in_ on (S d) v v') (F i) (expression i)) ->
  e = Tuple l -> (forall i, term i (C "(" :: t) = Ok [] e) -> (forall i a, expression i t <> Ok (L ")") a) -> reads_tuple F x.
Proof.
  intros HF He H Hn i s. cbn [snd]. specialize (H i). specialize (Hn i).
  assert (Hp : parens_f expression i (C "(" :: t) = Err).
  { apply err_of_no_ok; [unfold parens_f; oks|]. intros r a E. unfold parens_f in E.
    apply delimited_Ok in E as (s1 & y & s2 & z & E1 & E2 & E3). apply char_Ok in E1 as [E1 _]. injection E1 as <-.
    apply char_Ok in E3 as [-> _].
    pose proof (at_parens_f [] [] expression expression (in_expression [] []) i 0 (C "(" :: t) (C "(" :: t)) as K.
    assert (Hh : top [] [] (C "(" :: t) (C "(" :: t)) by (rewrite <- (app_nil_r (C "(" :: t)); apply top_here; auto).
    specialize (K Hh). assert (E : parens_f expression i (C "(" :: t) = Ok r a) by (unfold parens_f; eapply delimited_intro; [apply char_intro|exact E2|apply char_intro]).
    rewrite E in K. cbn in K. destruct K as (_ & (w & Hwr & _ & -> & _) & _). inversion Hwr; subst. exact (Hn a E2). }
  split; [eapply agree_Err; rewrite <- Hp; apply (at_parens_f s [] F expression (HF s []) i 0), here|].
  eapply agree_Ok. replace (Ok [] e) with (tuple_f expression i (C "(" :: t)); [apply (at_tuple_f s [] F expression (HF s []) i 0), here|].
  rewrite (term_is_bracket (C "(") t eq_refl (fun _ => Hd)) in H. apply alt_Ok in H as [H|[_ H]].
  { unfold access in H. apply bind_Ok in H as (s1 & a & _ & H). apply bind_Ok in H as (s2 & b & _ & H). apply ret_Ok in H as [_ H]. congruence. }
  apply alt_Ok in H as [H|[_ H]].
  { unfold op in H. apply Seqs.map_Ok in H as (o & _ & H). congruence. }
  unfold bracket_term in H. rewrite dead_alt in H by exact Hp. rewrite dead_alt in H by (eapply heads_Err; [apply heads_list|oks|reflexivity]).
  apply alt_Ok in H as [H|[_ H]]; [exact H|].
  exfalso. apply alt_Ok in H as [H|[_ H]]; [|apply alt_Ok in H as [H|[_ H]]].
  - apply heads_update in H as (c & y & E & K). injection E as <- _. discriminate K.
  - apply heads_record in H as (c & y & E & K). injection E as <- _. discriminate K.
  - apply heads_names in H as (c & y & E & K). injection E as <- _. discriminate K.
Qed.
End Phrase.

(** ** The same for a phrase in braces *)
Definition effect_list : parser (list (str * str)) := delimited (char_ (C "{")) (separated_list (tag (L ", ")) effect_field) (char_ (C "}")).
Lemma at_effect_list v v' d : step (place v v' d) (in_ on d v v') effect_list effect_list.
Proof.
  unfold effect_list. eapply step_delimited; [apply open_on; reflexivity| |apply in_close; reflexivity].
  apply in_list; [apply in_comma_space|]. unfold effect_field.
  eapply step_bind; [apply in_lo_name|]. intros n. eapply step_bind; [apply step_opt, in_run, class_mem; reflexivity|]. intros o.
  eapply step_bind; [apply in_symbol; [reflexivity|discriminate]|]. intros c.
  eapply step_bind; [apply step_opt, in_run, class_mem; reflexivity|]. intros o2. eapply step_bind; [apply in_up_name|]. intros m. apply step_ret.
Qed.
Section Curly.
Variables (t : str) (e : expr).
Hypothesis Hw : closes 1 t.
Notation x := (t, e).
Lemma no_dash : C "{" = C "(" -> ~ dashes t.
Proof. discriminate. Qed.
Lemma here_curly s : top s [] (curly x s) (C "{" :: t).
Proof. unfold curly. cbn [fst]. rewrite <- (app_nil_r (C "{" :: t)). apply top_here; [reflexivity|exact no_dash|exact Hw]. Qed.
Lemma no_curly_type_alone T : (forall v v' n i d, step (in_ on (S d) v v') (in_ on (S d) v v') (T i) (type_n n i)) ->
  (forall i, type_ i (C "{" :: t) = Err) -> no_curly_type T x.
Proof.
  intros HT H i s. specialize (H i). rewrite (type_is_bracket (C "{") t eq_refl no_dash) in H.
  set (n := length (C "{" :: t)) in *.
  assert (Ht : forall p q : parser type_ast, (p <|> q) (C "{" :: t) = Err -> p (C "{" :: t) = Err /\ q (C "{" :: t) = Err)
    by (intros p q; unfold alt; destruct (p (C "{" :: t)); try discriminate; auto).
  apply Ht in H as [H1 H]. apply Ht in H as [H2 _]. split.
  - eapply agree_Err. rewrite <- H1. apply (at_extension_f s [] T (type_n n) (fun i d => HT s [] n i d) i 0), here_curly.
  - eapply agree_Err. rewrite <- H2. apply (at_type_record_f s [] T (type_n n) (fun i d => HT s [] n i d) i 0), here_curly.
Qed.
Lemma only_value_alone : (forall i, type_ i (C "{" :: t) = Err) -> effect_list (C "{" :: t) = Err -> only_value x.
Proof.
  intros H1 H2. split; [|split].
  - apply no_curly_type_alone; [|exact H1]. intros v v' n i d w w' Hww. apply in_type_n. exact Hww.
  - intros m. apply no_curly_type_alone; [|exact H1]. intros v v' n i d. apply in_type_n.
  - intros s. eapply agree_Err. rewrite <- H2. apply (at_effect_list s [] 0), here_curly.
Qed.
Lemma curly_term i : term i (C "{" :: t) = (record_update_f expression i <|> record_f expression i <|> simplified_record) (C "{" :: t).
Proof.
  rewrite (term_is_bracket (C "{") t eq_refl no_dash).
  assert (Hv : variable (C "{" :: t) = Err) by (eapply heads_Err; [apply heads_variable|oks|reflexivity]).
  rewrite dead_alt by (unfold access, bind; rewrite Hv; reflexivity). rewrite dead_alt by reflexivity.
  unfold bracket_term. rewrite dead_alt by (eapply heads_Err; [apply heads_parens|oks|reflexivity]).
  rewrite dead_alt by (eapply heads_Err; [apply heads_list|oks|reflexivity]). rewrite dead_alt by (eapply heads_Err; [apply heads_tuple|oks|reflexivity]). reflexivity.
Qed.
(** a phrase is not read in part *)
Lemma curly_whole r a : simplified_record (C "{" :: t) = Ok r a -> r = [].
Proof.
  intros E. assert (Hh : top [] [] (C "{" :: t) (C "{" :: t)) by (rewrite <- (app_nil_r (C "{" :: t)); apply top_here; [reflexivity|exact no_dash|exact Hw]).
  pose proof (at_simplified_record [] [] 0 _ _ Hh) as K. rewrite E in K. cbn in K. destruct K as (_ & (w & Hwr & _ & -> & _) & _). inversion Hwr; subst. reflexivity.
Qed.
Lemma at_values v v' E E' i d : (forall i d, step (in_ on (S d) v v') (in_ on (S d) v v') (E i) (E' i)) ->
  step (place v v' d) (in_ on d v v') (record_update_f E i <|> record_f E i) (record_update_f E' i <|> record_f E' i).
Proof. intros HE. apply step_alt; [apply at_record_update_f, HE|apply at_record_f, HE]. Qed.
Lemma reads_values_alone F : (forall v v' i d, step (in_ on (S d) v v') (in_ on (S d) v v') (F i) (expression i)) ->
  (forall i, term i (C "{" :: t) = Ok [] e) -> simplified_record (C "{" :: t) = Err -> reads_values F x.
Proof.
  intros HF H Hn i s. cbn [snd]. specialize (H i). split.
  - eapply agree_Ok. replace (Ok [] e) with ((record_update_f expression i <|> record_f expression i) (C "{" :: t)); [apply (at_values s [] F expression i 0 (HF s [])), here_curly|].
    rewrite curly_term, alt_assoc in H. apply alt_Ok in H as [H|[_ H]]; [exact H|congruence].
  - eapply agree_Err. rewrite <- Hn. apply (at_simplified_record s [] 0), here_curly.
Qed.
Lemma reads_names_alone F : (forall v v' i d, step (in_ on (S d) v v') (in_ on (S d) v v') (F i) (expression i)) ->
  (forall i, record_update_f expression i (C "{" :: t) = Err /\ record_f expression i (C "{" :: t) = Err) ->
  simplified_record (C "{" :: t) = Ok [] e -> reads_names F x.
Proof.
  intros HF H Hn i s. cbn [snd]. destruct (H i) as [H1 H2]. split.
  - eapply agree_Err. replace Err with ((record_update_f expression i <|> record_f expression i) (C "{" :: t)) by (unfold alt; rewrite H1, H2; reflexivity).
    apply (at_values s [] F expression i 0 (HF s [])), here_curly.
  - assert (K : aborts (simplified_record (curly x s)) \/ simplified_record (curly x s) = Ok s e) by (eapply agree_Ok; rewrite <- Hn; apply (at_simplified_record s [] 0), here_curly).
    destruct K as [K|K]; [|exact K]. destruct (simplified_record (curly x s)) as [| |m] eqn:E; [destruct K..|].
    exfalso. destruct (ok_simplified_record (S (length (curly x s))) (curly x s) (le_n _)) as [_ Ho]. rewrite E in Ho. exact Ho.
Qed.
End Curly.
