(** * Cutting declarations: the statements *)
From Verif Require Import Base Nom Regex Ast Good Spec Helpers Types Expr Stmt Lexers Total
  Layout Seqs Grammar Follow Sound SoundE SoundS LexProps Heads Rules Render CompleteT CompleteE
  CompleteX CompleteS Round Language Chains Exact Keywords Decls Brackets TypesExact Solution Errors Front Cut.

(** The declarations without expressions *)
Definition without_expression (st : statement_ast) : bool :=
  match st with Function_ _ | PortDeclaration _ _ _ => false | _ => true end.

(** ** Export lists: nothing depends on what follows the last parenthesis *)
Lemma item_param e s x r : RExportItem e s (x :: r) ->
  exists p, s = p ++ x :: r /\ forall r', RExportItem e (p ++ x :: r') (x :: r').
Proof.
  intros H. remember (x :: r) as r0 eqn:E. destruct H as [n r0 Hn He|o r0 Ho|n r0 Hn He|n r0 Hn|n cs r0 Hn Hc]; subst r0.
  - exists n. split; [reflexivity|]. intros r'. constructor; [exact Hn|exact He].
  - exists (L "(" ++ o ++ L ")"). rewrite <- !app_assoc. split; [reflexivity|]. intros r'. rewrite <- !app_assoc. constructor. exact Ho.
  - exists n. split; [reflexivity|]. intros r'. constructor; [exact Hn|exact He].
  - exists (n ++ L "(..)"). rewrite <- !app_assoc. split; [reflexivity|]. intros r'. rewrite <- !app_assoc. constructor. exact Hn.
  - exists (n ++ L "(" ++ join (L ", ") cs ++ L ")"). rewrite <- !app_assoc. split; [reflexivity|]. intros r'. rewrite <- !app_assoc. constructor; assumption.
Qed.
Lemma item_param2 e s (b : str) x r : RExportItem e s (b ++ x :: r) ->
  exists p, s = p ++ b ++ x :: r /\ forall r', RExportItem e (p ++ b ++ x :: r') (b ++ x :: r').
Proof.
  destruct b as [|y b]; cbn [app]; [apply item_param|]. intros H. apply item_param in H as (p & -> & H). eauto.
Qed.
Lemma items_param es s (b : str) x r : RExportItems es s (b ++ x :: r) ->
  exists p, s = p ++ b ++ x :: r /\ forall r', RExportItems es (p ++ b ++ x :: r') (b ++ x :: r').
Proof.
  intros H. remember (b ++ x :: r) as r0 eqn:E. revert b x r E.
  induction H as [e s r0 H|e s b1 b2 es s' r0 H H1 H2 Hs IH]; intros b x r E; subst r0.
  - apply item_param2 in H as (p & -> & H). exists p. split; [reflexivity|]. intros r'. constructor. apply H.
  - destruct (IH b x r eq_refl) as (p & -> & Hp). change (L "," ++ b2 ++ p ++ b ++ x :: r) with (C "," :: b2 ++ p ++ b ++ x :: r) in H.
    apply item_param2 in H as (p' & -> & H). exists (p' ++ b1 ++ L "," ++ b2 ++ p). rewrite <- !app_assoc.
    split; [reflexivity|]. intros r'. rewrite <- !app_assoc. econstructor; [apply H|exact H1|exact H2|apply Hp].
Qed.
Lemma exports_param e s r : RExports e s r -> exists p, s = p ++ r /\ forall r', RExports e (p ++ r') r'.
Proof.
  intros [t1 t2 r0 H1 H2|t1 es s0 t2 r0 H1 H H2].
  - exists (L "(" ++ t1 ++ L ".." ++ t2 ++ L ")"). rewrite <- !app_assoc. split; [reflexivity|]. intros r'. rewrite <- !app_assoc.
    constructor; assumption.
  - apply (items_param es s0 t2 (C ")") r0) in H as (p & -> & H). exists (L "(" ++ t1 ++ p ++ t2 ++ L ")"). rewrite <- !app_assoc.
    split; [reflexivity|]. intros r'. rewrite <- !app_assoc. econstructor; [exact H1|apply H|exact H2].
Qed.
Lemma effect_param fs s r : REffectFields fs s r -> exists p r0, s = p ++ r /\ r = L "}" ++ r0 /\
  forall r', REffectFields fs (p ++ L "}" ++ r') (L "}" ++ r').
Proof.
  induction 1 as [r|f s r H|f s fs s' r H Hf Hs (p & r0 & -> & -> & Hp)].
  - exists [], r. split; [reflexivity|]. split; [reflexivity|]. intros r'. constructor.
  - remember (L "}" ++ r) as r0 eqn:E. destruct H as [n b1 b2 u r0 H1 H2 H3 H4 H5]; subst r0.
    exists (n ++ b1 ++ L "=" ++ b2 ++ u), r. rewrite <- !app_assoc. split; [reflexivity|]. split; [reflexivity|].
    intros r'. rewrite <- !app_assoc. constructor. constructor; assumption.
  - remember (L ", " ++ p ++ L "}" ++ r0) as r1 eqn:E. destruct H as [n b1 b2 u r1 H1 H2 H3 H4 H5]; subst r1.
    exists (n ++ b1 ++ L "=" ++ b2 ++ u ++ L ", " ++ p), r0. rewrite <- !app_assoc. split; [reflexivity|]. split; [reflexivity|].
    intros r'. rewrite <- !app_assoc. econstructor; [|exact Hf|apply Hp]. constructor; assumption.
Qed.

Lemma newline_split c o a b : has_newline c = false -> has_newline o = false ->
  c ++ newline :: a = o ++ newline :: b -> a = b.
Proof.
  revert o. induction c as [|x c IH]; intros o Hc Ho E; destruct o as [|y o]; cbn in *.
  - injection E as E. exact E.
  - injection E as <- _. discriminate Ho.
  - injection E as -> _. discriminate Hc.
  - injection E as -> E. apply orb_false_iff in Hc as [_ Hc]. apply orb_false_iff in Ho as [_ Ho]. exact (IH o Hc Ho E).
Qed.
Lemma trivia_tail s : trivia s -> forall o m, s = o ++ newline :: m -> has_newline o = false -> trivia (newline :: m).
Proof.
  induction 1 as [|t Ht IH|t Ht IH|c t Hc Hl Ht IH]; intros o m E Ho.
  - destruct o; discriminate E.
  - destruct o as [|x o]; [discriminate E|]. injection E as <- E. exact (IH o m E Ho).
  - destruct o as [|x o]; [injection E as <-; constructor; exact Ht|]. injection E as <- _. discriminate Ho.
  - apply not_newline_no_newline in Hc.
    assert (Hc' : has_newline (L "--" ++ c) = false) by exact Hc.
    destruct t as [|d t].
    + exfalso. rewrite app_nil_r in E. rewrite E, has_newline_app in Hc'. cbn in Hc'. rewrite orb_true_r in Hc'. discriminate Hc'.
    + cbn in Hl. subst d. rewrite app_assoc in E. rewrite <- (newline_split _ _ _ _ Hc' Ho E). exact Ht.
Qed.

Lemma all_spaces_trivia b : all_spaces b = true -> trivia b /\ closed b.
Proof.
  intros H. apply spnl_trivia. unfold all_spaces in H. rewrite forallb_forall in H |- *. intros c Hc. specialize (H c Hc).
  unfold is_space_or_newline. rewrite H. reflexivity.
Qed.

Section CutS.
  Variable w : str.
  Hypothesis Hw : exists h w', w = h :: w' /\ is_blank h = true.

  Lemma exports_w e s r : RExports e (s ++ w) (r ++ w) <-> RExports e s r.
  Proof.
    split; intros H; apply exports_param in H as (p & E & H).
    - rewrite app_assoc in E. apply app_inv_tail in E. subst s. apply H.
    - subst s. rewrite <- app_assoc. apply H.
  Qed.
  Lemma alias_w s n r : alias_text (s ++ w) n (r ++ w) <-> alias_text s n r.
  Proof.
    unfold alias_text. split; intros (b1 & b2 & E & H1 & H2 & H3 & H4); exists b1, b2.
    - split; [apply (app_inv_tail w); rewrite E, <- !app_assoc; reflexivity|]. do 3 (split; [assumption|]).
      apply (ends_w w Hw is_name_char r blank_name), H4.
    - split; [rewrite E, <- !app_assoc; reflexivity|]. do 3 (split; [assumption|]).
      apply (ends_w w Hw is_name_char r blank_name), H4.
  Qed.
  Lemma exposing_w s e r : exposing_text (s ++ w) e (r ++ w) <-> exposing_text s e r.
  Proof.
    unfold exposing_text. split; intros (b1 & b2 & s' & E & H1 & H2 & H3).
    - pose proof H3 as H4. apply exports_param in H4 as (p & -> & _). exists b1, b2, (p ++ r).
      split; [apply (app_inv_tail w); rewrite E, <- !app_assoc; reflexivity|]. do 2 (split; [assumption|]).
      apply exports_w. rewrite <- app_assoc. exact H3.
    - exists b1, b2, (s' ++ w). split; [rewrite E, <- !app_assoc; reflexivity|]. do 2 (split; [assumption|]).
      apply exports_w, H3.
  Qed.
  Lemma optional_cut {A} (P : str -> A -> str -> Prop) s o r :
    (forall s a r, P (s ++ w) a (r ++ w) <-> P s a r) -> optional P (s ++ w) o (r ++ w) -> optional P s o r.
  Proof.
    intros HP. destruct o as [a|]; cbn; [apply HP|]. intros [E H]. apply app_inv_tail in E. split; [exact E|].
    intros a r' Ha. apply (H a (r' ++ w)), HP, Ha.
  Qed.
  Lemma alias_suffix s n r : alias_text s n r -> exists p, s = p ++ r.
  Proof. intros (b1 & b2 & -> & _). exists (b1 ++ L "as" ++ b2 ++ n). rewrite <- !app_assoc. reflexivity. Qed.
  Lemma exposing_suffix s e r : exposing_text s e r -> exists p, s = p ++ r.
  Proof.
    intros (b1 & b2 & s' & -> & _ & _ & H). apply exports_param in H as (p & -> & _).
    exists (b1 ++ L "exposing" ++ b2 ++ p). rewrite <- !app_assoc. reflexivity.
  Qed.
  Lemma optional_suffix {A} (P : str -> A -> str -> Prop) s o r : (forall s a r, P s a r -> exists p, s = p ++ r) ->
    optional P s o r -> exists p, s = p ++ r.
  Proof. intros HP. destruct o as [a|]; cbn; [apply HP|]. intros [-> _]. exists []. reflexivity. Qed.

  Lemma closed_blank t : trivia t -> closed t -> t <> [] -> exists c, In c t /\ is_blank c = true.
  Proof.
    intros H Hc Hn. destruct H as [|t H|t H|c t H1 H2 H3]; [congruence| | |].
    - exists space. split; [left; reflexivity|reflexivity].
    - exists newline. split; [left; reflexivity|reflexivity].
    - destruct t as [|d t].
      + exfalso. rewrite app_nil_r in Hc. unfold closed in Hc. rewrite last_line_no_newline in Hc; [discriminate Hc|].
        cbn. clear -H1. induction c as [|x c IH]; [reflexivity|]. cbn in H1 |- *. apply andb_true_iff in H1 as [H1 H2].
        unfold not_newline in H1. apply negb_true_iff in H1. rewrite H1. auto.
      + cbn in H2. subst d. exists newline. split; [|reflexivity]. apply in_or_app. right. apply in_or_app. right. left. reflexivity.
  Qed.
  Lemma no_definition_nil o : operator_name o -> no_definition o [].
  Proof.
    intros (_ & Ho & _) o' -> t r' (E & Ht & Hr & Hc). rewrite app_nil_r in E. destruct t as [|x t]; [left; reflexivity|].
    right. right. destruct Hc as [Hc| ->]; [|apply no_expr_nil].
    exfalso. destruct (closed_blank _ Ht Hc) as (c & Hin & Hb); [discriminate|].
    pose proof (no_blanks_forallb _ _ blank_op Ho) as Hnb. rewrite (Hnb c) in Hb; [discriminate|].
    apply in_or_app. right. rewrite E. apply in_or_app. left. exact Hin.
  Qed.

  Lemma constructed_suffix m : suffix (constructed_rule reads_type m).
  Proof.
    intros s t r H. apply (suffix_type m s t r). apply type_iff. left. exact H.
  Qed.

  Theorem plain_cut c st : without_expression st = true -> statement (c ++ w) = Ok w st -> statement c = Ok [] st.
  Proof.
    intros Hp H. apply statement_rule_iff in H. apply statement_rule_iff.
    destruct st as [q e|q e|q fs e|q al ex|n ty|n cs|n ty|n args e|f|a v n|x]; try discriminate Hp; cbn [statement_rule] in H |- *.
    - destruct H as (t1 & t2 & t3 & s' & H1 & H2 & H3 & Hq & He & E). exists t1, t2, t3.
      pose proof He as He'. apply exports_param in He' as (p & -> & He'). exists p. do 4 (split; [assumption|]).
      split; [rewrite <- (app_nil_r p); apply He'|]. apply (app_inv_tail w). rewrite E, <- !app_assoc. reflexivity.
    - destruct H as (t0 & t1 & t2 & t3 & s' & H0 & H1 & H2 & H3 & Hq & He & E). exists t0, t1, t2, t3.
      pose proof He as He'. apply exports_param in He' as (p & -> & He'). exists p. do 5 (split; [assumption|]).
      split; [rewrite <- (app_nil_r p); apply He'|]. apply (app_inv_tail w). rewrite E, <- !app_assoc. reflexivity.
    - destruct H as (t0 & t1 & t2 & t3 & sf & t4 & t5 & s' & H0 & H1 & H2 & H3 & H4 & H5 & Hq & Hf & He & E).
      pose proof He as He'. apply exports_param in He' as (p & -> & He'). apply effect_param in Hf as (pf & rf & -> & _ & Hf).
      exists t0, t1, t2, t3, (pf ++ L "}" ++ t4 ++ L "exposing" ++ t5 ++ p), t4, t5, p. do 7 (split; [assumption|]).
      split; [apply Hf|]. split; [rewrite <- (app_nil_r p); apply He'|].
      apply (app_inv_tail w). rewrite E, <- !app_assoc. reflexivity.
    - destruct H as (b & s1 & s2 & E & Hb & Hq & Hs1 & Ha & He).
      destruct (optional_suffix _ _ _ _ exposing_suffix He) as (p2 & ->).
      destruct (optional_suffix _ _ _ _ alias_suffix Ha) as (p1 & ->).
      exists b, (p1 ++ p2), p2. split; [apply (app_inv_tail w); rewrite E, <- !app_assoc; reflexivity|]. do 2 (split; [assumption|]).
      split; [apply (ends_dotted_w w Hw); rewrite <- app_assoc; exact Hs1|].
      split; [apply (optional_cut _ _ _ _ alias_w); rewrite <- app_assoc; exact Ha|apply (optional_cut _ _ _ [] exposing_w He)].
    - destruct H as (b1 & b2 & s1 & b3 & t & j & s2 & E & H1 & H2 & Hn & H3 & H4 & Hd).
      destruct (annotation_suffix 1 _ _ _ Hd) as (p2 & _ & ->). destruct (suffix_type 0 _ _ _ Hn) as (p1 & _ & ->).
      exists b1, b2, (p1 ++ b3 ++ L "=" ++ t ++ p2), b3, t, j, p2.
      split; [apply (app_inv_tail w); rewrite E, <- !app_assoc; reflexivity|]. do 2 (split; [assumption|]).
      split; [apply (type_cut w Hw); rewrite <- !app_assoc; exact Hn|]. do 2 (split; [assumption|]).
      apply (annotation_cut w Hw 1 p2 ty []), Hd.
    - destruct H as (b & s1 & t1 & m & t2 & j & s2 & k & cs' & s3 & E & Hb & Hn & H1 & H2 & Hk & Hcs & Hno & ->).
      destruct (items_suffix _ _ (constructed_suffix m) _ _ _ Hcs) as (p3 & ->).
      destruct (constructed_suffix m _ _ _ Hk) as (p2 & _ & ->). destruct (suffix_type 0 _ _ _ Hn) as (p1 & _ & ->).
      exists b, (p1 ++ t1 ++ L "=" ++ t2 ++ p2 ++ p3), t1, m, t2, j, (p2 ++ p3), k, cs', p3.
      split; [apply (app_inv_tail w); rewrite E, <- !app_assoc; reflexivity|]. split; [assumption|].
      split; [apply (type_cut w Hw); rewrite <- !app_assoc; exact Hn|]. do 2 (split; [assumption|]).
      split; [apply (constructed_cut w Hw); rewrite <- app_assoc; exact Hk|]. split; [|split; [|reflexivity]].
      + eapply (items_shrink w (bar m) _ (S (length p3)) (constructed_suffix m)) with (r := []); [|lia|exact Hcs].
        intros c0 x r0 _. apply (constructed_cut w Hw).
      + intros t s x r' E' (u1 & j' & u2 & -> & _) _. destruct u1; discriminate E'.
    - destruct H as (b1 & b2 & t & j & s' & E & H1 & H2 & H3 & H4 & H5).
      destruct (annotation_suffix j _ _ _ H5) as (p & _ & ->). exists b1, b2, t, j, p.
      split; [apply (app_inv_tail w); rewrite E, <- !app_assoc; reflexivity|]. do 4 (split; [assumption|]).
      apply (annotation_cut w Hw j p ty []), H5.
    - destruct H as [(u & b & d & b' & E & Hu & H1 & H2 & H3 & -> & H4 & H5) _].
      assert (c = u ++ b ++ d ++ b' ++ n) as -> by (apply (app_inv_tail w); rewrite E, <- !app_assoc; reflexivity).
      assert (HR : RStmt (InfixDeclaration a (dec_value d) n) (assoc_word a ++ b ++ d ++ b' ++ n ++ []) []).
      { destruct H5 as [[H5 _]|[H5 _]].
        - constructor; try assumption; [lia|]. exists [], []. auto.
        - constructor; try assumption; [lia|exact I|apply no_definition_nil, H5]. }
      assert (Hu' : assoc_word a = u) by (destruct Hu; reflexivity). rewrite Hu', app_nil_r in HR.
      apply complete_statement in HR. apply statement_rule_iff in HR. exact HR.
    - destruct H as [(E & H1 & H2)|(E & H1)]; [left|right].
      + split; [apply (app_inv_tail w); rewrite E, app_nil_r, <- !app_assoc; reflexivity|]. split; [exact H1|exact I].
      + split; [apply (app_inv_tail w); rewrite E, app_nil_r, <- !app_assoc; reflexivity|exact H1].
  Qed.

  (** *** Joining *)
  Hypothesis Hnl : exists w', w = newline :: w'.
  Hypothesis Hfresh : fresh w.

  Lemma no_alias s : (s = [] \/ exists e r, exposing_text s e r) -> forall n r, ~ alias_text (s ++ w) n r.
  Proof.
    intros Hs n r (b1 & b2 & E & [H1 H1'] & _). destruct Hs as [->|(e & r' & (b & b' & s' & -> & [Hb Hb'] & _))].
    - cbn [app] in E. destruct Hnl as (w' & Ew). rewrite Ew in E. destruct b1 as [|x b1]; [congruence|].
      injection E as <- _. discriminate H1'.
    - rewrite <- !app_assoc in E. clear -E Hb' H1'. revert b1 H1' E.
      induction b as [|x b IH]; intros b1 H1 E; destruct b1 as [|y b1]; cbn in *; try discriminate E.
      + injection E as <- _. discriminate H1.
      + injection E as -> _. discriminate Hb'.
      + injection E as -> E. apply andb_true_iff in Hb' as [_ Hb']. apply andb_true_iff in H1 as [_ H1].
        exact (IH Hb' b1 H1 E).
  Qed.
  Lemma no_exposing e r : ~ exposing_text w e r.
  Proof.
    intros (b1 & b2 & s & E & [H1 H1'] & _). destruct Hnl as (w' & Ew). rewrite Ew in E.
    destruct b1 as [|x b1]; [congruence|]. injection E as <- _. discriminate H1'.
  Qed.
  Lemma last_line_no_blank o b : has_newline b = true -> last_line (o ++ b) = last_line b.
  Proof. apply last_line_app_newline. Qed.
  Lemma no_definition_w o : operator_name o -> no_definition o w.
  Proof.
    intros (_ & Ho & _) o' -> t r' (E & Ht & Hr & Hc).
    pose proof (no_blanks_forallb _ _ blank_op Ho) as Hnb.
    destruct (split_app _ _ _ _ (eq_sym E)) as [(m & -> & ->)|(m & Hm & -> & Ew)].
    - destruct t as [|x t]; [left; reflexivity|]. exfalso.
      destruct Hc as [Hc|Hc].
      + destruct (closed_blank _ Ht Hc) as (c & Hin & Hb); [discriminate|]. rewrite (Hnb c) in Hb; [discriminate|].
        apply in_or_app. right. apply in_or_app. left. exact Hin.
      + destruct Hnl as (w' & Ew). rewrite Ew in Hc. destruct m; discriminate Hc.
    - destruct Hfresh as (b & s & Hb & Hnb' & Hcol & _).
      destruct Hnl as (w' & En). destruct m as [|x m]; [congruence|].
      assert (x = newline) as -> by (rewrite En in Ew; injection Ew as <- _; reflexivity).
      assert (Hno : has_newline o' = false).
      { apply not_true_iff_false. intros H. apply existsb_exists in H as (c & Hc1 & Hc2). apply N.eqb_eq in Hc2. subst c.
        assert (Hb' : is_blank newline = false) by (apply Hnb, in_or_app; right; exact Hc1). discriminate Hb'. }
      pose proof (trivia_tail _ Ht o' m eq_refl Hno) as Htm.
      rewrite last_line_app_newline in Hc by reflexivity.
      destruct (trivia_run_unique w b s (newline :: m) r') as [-> <-].
      + exact Hb.
      + split; [exact Ew|]. auto.
      + destruct Hcol as [->|Hcol]; [right; right; apply no_expr_nil|].
        right. left. split; [rewrite has_newline_app; cbn; apply orb_true_r|]. unfold width.
        rewrite last_line_app_newline, Hcol by reflexivity. rewrite has_newline_app. cbn. rewrite orb_true_r. reflexivity.
  Qed.

  Theorem plain_join c st : without_expression st = true -> statement c = Ok [] st -> statement (c ++ w) = Ok w st.
  Proof.
    intros Hp H. apply statement_rule_iff in H. apply statement_rule_iff.
    destruct st as [q e|q e|q fs e|q al ex|n ty|n cs|n ty|n args e|f|a v n|x]; try discriminate Hp; cbn [statement_rule] in H |- *.
    - destruct H as (t1 & t2 & t3 & s' & H1 & H2 & H3 & Hq & He & ->). exists t1, t2, t3, (s' ++ w). do 4 (split; [assumption|]).
      split; [apply (exports_w e s' []), He|]. rewrite <- !app_assoc. reflexivity.
    - destruct H as (t0 & t1 & t2 & t3 & s' & H0 & H1 & H2 & H3 & Hq & He & ->). exists t0, t1, t2, t3, (s' ++ w).
      do 5 (split; [assumption|]). split; [apply (exports_w e s' []), He|]. rewrite <- !app_assoc. reflexivity.
    - destruct H as (t0 & t1 & t2 & t3 & sf & t4 & t5 & s' & H0 & H1 & H2 & H3 & H4 & H5 & Hq & Hf & He & ->).
      apply effect_param in Hf as (pf & rf & -> & _ & Hf).
      exists t0, t1, t2, t3, (pf ++ L "}" ++ t4 ++ L "exposing" ++ t5 ++ s' ++ w), t4, t5, (s' ++ w). do 7 (split; [assumption|]).
      split; [apply Hf|]. split; [apply (exports_w e s' []), He|]. rewrite <- !app_assoc. reflexivity.
    - destruct H as (b & s1 & s2 & -> & Hb & Hq & Hs1 & Ha & He). exists b, (s1 ++ w), (s2 ++ w).
      rewrite <- !app_assoc. split; [reflexivity|]. do 2 (split; [assumption|]). split; [apply (ends_dotted_w w Hw), Hs1|]. split.
      + destruct al as [x|]; cbn in Ha |- *; [apply alias_w, Ha|]. destruct Ha as [-> Ha]. split; [reflexivity|].
        apply no_alias. destruct ex as [e|]; cbn in He; [right; eauto|left; symmetry; apply He].
      + destruct ex as [e|]; cbn in He |- *; [apply (exposing_w s2 e []), He|]. destruct He as [<- He]. split; [reflexivity|].
        apply no_exposing.
    - destruct H as (b1 & b2 & s1 & b3 & t & j & s2 & -> & H1 & H2 & Hn & H3 & H4 & Hd).
      exists b1, b2, (s1 ++ w), b3, t, j, (s2 ++ w). rewrite <- !app_assoc. split; [reflexivity|]. do 2 (split; [assumption|]).
      split; [|do 2 (split; [assumption|]); apply (annotation_last w Hw Hfresh), Hd].
      apply (type_join w Hw) in Hn; [rewrite <- !app_assoc in Hn; exact Hn|].
      exists b3, (C "="), (t ++ s2). destruct H3 as [_ H3]. apply all_spaces_trivia in H3 as [H3 H3'].
      repeat split; auto; try discriminate. intros [E _]. discriminate E.
    - destruct H as (b & s1 & t1 & m & t2 & j & s2 & k & cs' & s3 & -> & Hb & Hn & H1 & H2 & Hk & Hcs & _ & ->).
      exists b, (s1 ++ w), t1, m, t2, j, (s2 ++ w), k, cs', (s3 ++ w). rewrite <- !app_assoc. split; [reflexivity|].
      split; [assumption|].
      split. { apply (type_join w Hw) in Hn; [rewrite <- !app_assoc in Hn; exact Hn|].
        exists t1, (C "="), (t2 ++ s2). destruct H1 as (H1 & H1' & _). repeat split; auto; try discriminate. intros [E _]. discriminate E. }
      do 2 (split; [assumption|]).
      assert (Hbar : forall t s, bar m t -> follow no_open (t ++ s)).
      { intros t s (u1 & j' & u2 & -> & (U1 & U2 & _) & _). exists u1, (C "|"), (u2 ++ s). rewrite <- !app_assoc.
        repeat split; auto; try discriminate. intros [E _]. discriminate E. }
      assert (Hone : forall s x r l, constructed_rule reads_type m s x r -> items (bar m) (constructed_rule reads_type m) r l [] ->
        constructed_rule reads_type m (s ++ w) x (r ++ w)).
      { intros s x r l Hx Hl. inversion Hl; subst; [apply (constructed_last w Hw Hfresh), Hx|].
        apply (constructed_join w Hw); [exact Hx|]. apply Hbar. assumption. }
      split; [eapply Hone; eassumption|]. split; [|split; [apply (no_bar_w w Hfresh)|reflexivity]].
      clear -Hone Hcs. remember [] as r eqn:Er. induction Hcs as [r|t s x s' l r Ht Hx Hl IH]; subst; [constructor|].
      rewrite <- app_assoc. econstructor; [exact Ht|eapply Hone; eassumption|apply IH; [reflexivity|exact Hone]].
    - destruct H as (b1 & b2 & t & j & s' & -> & H1 & H2 & H3 & H4 & H5). exists b1, b2, t, j, (s' ++ w).
      rewrite <- !app_assoc. split; [reflexivity|]. do 4 (split; [assumption|]). apply (annotation_last w Hw Hfresh), H5.
    - destruct H as [(u & b & d & b' & -> & Hu & H1 & H2 & H3 & -> & H4 & H5) _].
      assert (HR : RStmt (InfixDeclaration a (dec_value d) n) (assoc_word a ++ b ++ d ++ b' ++ n ++ w) w).
      { destruct H5 as [[H5 _]|[H5 _]].
        - constructor; try assumption; [lia|]. exists [], w. destruct Hnl as (w' & ->). auto.
        - constructor; try assumption; [lia| |apply no_definition_w, H5]. destruct Hw as (h & w' & -> & Hh). exact Hh. }
      assert (Hu' : assoc_word a = u) by (destruct Hu; reflexivity). rewrite Hu' in HR.
      apply complete_statement in HR. apply statement_rule_iff in HR. rewrite app_nil_r, <- !app_assoc. exact HR.
    - destruct H as [(-> & H1 & H2)|(-> & H1)]; [left|right]; rewrite app_nil_r, <- !app_assoc.
      + split; [reflexivity|]. split; [exact H1|]. destruct Hnl as (w' & ->). reflexivity.
      + split; [reflexivity|exact H1].
  Qed.
End CutS.
