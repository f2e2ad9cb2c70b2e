(** * Chains: applications, operators, function types

    The exact meaning of "a term followed by anything": how many arguments are
    taken, when an operator is taken, and what the result is. *)
From Verif Require Import Base Nom Regex Ast Good Spec Helpers Types Expr Stmt Lexers Total
  Layout Seqs Grammar Follow Sound SoundE SoundS LexProps Heads Rules Render CompleteT CompleteE
  CompleteX CompleteS Round Language.

(** ** Vocabulary *)

(** [arguments i s xs r]: the text [s] starts with the terms [xs], each preceded
    by layout that leads to a column beyond [i] (or stays on its line), and [r]
    is what follows them. *)
Inductive arguments (i : N) : str -> list expr -> str -> Prop :=
| arguments_nil r : arguments i r [] r
| arguments_cons t j s x s' xs r :
    lay_gt i t j -> term i s = Ok s' x -> arguments i s' xs r -> arguments i (t ++ s) (x :: xs) r.

(** no further argument follows *)
Definition no_more_arguments (i : N) (r : str) : Prop :=
  forall t j s r' x, r = t ++ s -> lay_gt i t j -> term i s <> Ok r' x.

(** [operation i s o e r]: the text [s] continues with the operator [o] at a
    column not left of [i], blanks and the expression [e]; [r] follows. *)
Definition operation (i : N) (s o : str) (e : expr) (r : str) : Prop :=
  exists t j b s', s = t ++ o ++ b ++ s' /\ lay_ge i t j /\ infix_operator o /\ blanks1 b /\
    expression i s' = Ok r e.

Definition no_operation (i : N) (s : str) : Prop := forall o e r, ~ operation i s o e r.

(** ** Applications *)

Lemma sp_lay i ir s r n : sp i ir s = Ok r n ->
  (exists t, s = t ++ r /\ lay (ir_rel ir) i t n) \/ r = [].
Proof.
  intros H. apply sp_iff in H as (t & (-> & Ht & Hr & Hc) & Hne & Ha & ->).
  destruct Hc as [Hc|Hc]; [left|right; exact Hc]. exists t. split; [reflexivity|]. repeat split; assumption.
Qed.

Lemma term_nil i r e : term i [] <> Ok r e.
Proof. intros H. apply eats_term in H. simpl in H. lia. Qed.
Lemma expression_nil i r e : expression i [] <> Ok r e.
Proof. intros H. apply eats_expression in H. simpl in H. lia. Qed.

Lemma stop_arguments i r : sep_stop (sp i IR_GT) (term i) r <-> no_more_arguments i r.
Proof.
  split.
  - intros Hst t j s r' x -> Ht Hx. unfold sep_stop in Hst.
    assert (Hsp : sp i IR_GT (t ++ s) = Ok s j) by (apply sp_gt; [exact Ht|eapply term_no_trivia, Hx]).
    rewrite Hsp, Hx in Hst. apply eats_sp in Hsp. apply eats_term in Hx. lia.
  - intros Hn. destruct (sp i IR_GT r) as [s j| |w] eqn:Hsp.
    + eapply sep_stop_next; [exact Hsp|]. apply err_of_no_ok; [oks|]. intros r' x Hx.
      apply sp_lay in Hsp as [(t & -> & Ht)| ->]; [|eapply term_nil, Hx].
      eapply Hn; [reflexivity|exact Ht|exact Hx].
    + apply sep_stop_Err, Hsp.
    + exfalso. destruct (ok_sp (S (length r)) i IR_GT r (le_n _)) as [_ H].
      fold (sp i IR_GT) in H. rewrite Hsp in H. exact H.
Qed.

Lemma seps_arguments i s xs r : seps (sp i IR_GT) (term i) s xs r <->
  arguments i s xs r /\ no_more_arguments i r.
Proof.
  split.
  - induction 1 as [s Hst|s s2 j s3 x xs r Hsp _ Hx _ _ [IH IH']].
    + split; [constructor|apply stop_arguments, Hst].
    + split; [|exact IH']. apply sp_lay in Hsp as [(t & -> & Ht)| ->]; [|exfalso; eapply term_nil, Hx].
      econstructor; [exact Ht|exact Hx|exact IH].
  - intros [H Hn]. induction H as [r|t j s x s' xs r Ht Hx _ IH].
    + apply seps_stop, stop_arguments, Hn.
    + eapply seps_cons; [apply eats_sp|apply eats_term| |exact Hx|apply IH, Hn].
      apply sp_gt; [exact Ht|eapply term_no_trivia, Hx].
Qed.

Lemma application_iff i s r e : application_or_var i s = Ok r e <->
  exists f s1 xs, term i s = Ok s1 f /\ arguments i s1 xs r /\ no_more_arguments i r /\
    e = fold_left Application xs f.
Proof.
  split.
  - intros H. unfold application_or_var, application_or_var_f in H.
    apply map_res_Ok in H as (l & H & He).
    apply separated_list_Ok in H as [(-> & _)|(f & xs & s1 & -> & Hf & _ & Hl)]; [discriminate He|].
    change (term_f expression i) with (term i) in *. apply seps_arguments in Hl as [Hl Hn].
    rewrite application_of_list_fold in He. injection He as <-. exists f, s1, xs. auto.
  - intros (f & s1 & xs & Hf & Hxs & Hn & ->). apply app_ok; [|apply stop_arguments, Hn].
    exists f, xs, s1. split; [exact Hf|]. split; [reflexivity|]. intros l r' Hl.
    clear Hf Hn. induction Hxs as [r|t j s0 x s' xs r Ht Hx _ IH]; [exact Hl|].
    cbn [app]. eapply seps_cons; [apply eats_sp|apply eats_term| |exact Hx|apply IH, Hl].
    apply sp_gt; [exact Ht|eapply term_no_trivia, Hx].
Qed.

(** ** Operators *)

Lemma operator_exp_iff i s r oe : operator_exp_f expression i s = Ok r oe <->
  exists o e, oe = (Variable_ [o], e) /\ operation i s o e r.
Proof.
  split.
  - unfold operator_exp_f. intros H. apply bind_Ok in H as (s1 & j & Hsp & H).
    apply bind_Ok in H as (s2 & o & Ho & H). apply bind_Ok in H as (s3 & b & Hb & H).
    apply bind_Ok in H as (s4 & e & He & H). apply ret_Ok in H as [-> ->].
    assert (Hnt : no_trivia s1).
    { apply sp_iff in Hsp as (t & (_ & _ & Hr & _) & _). exact Hr. }
    apply (operator_or_as_Ok _ _ _ Hnt) in Ho as (o' & -> & -> & Ho).
    exists o', e. split; [reflexivity|]. apply sp_lay in Hsp as [(t & -> & Ht)|Hnil].
    + apply sound_multispace in Hb as (w & -> & -> & Hb). exists t, j, b, s3. auto.
    + destruct Ho as [->|[(Hne & _) _]]; [discriminate Hnil|]. destruct o'; [congruence|discriminate Hnil].
  - intros (o & e & -> & t & j & b & s' & -> & Ht & Ho & Hb & He). unfold operator_exp_f.
    assert (Hn : no_trivia (o ++ b ++ s')) by (apply infix_no_trivia; assumption).
    eapply bind_intro; [apply sp_ge; [exact Ht|exact Hn]|].
    eapply bind_intro; [apply infix_parse; assumption|].
    eapply bind_intro; [apply multispace_intro; [exact Hb|]|].
    { eapply expr_ends; [exact He|apply blank_never]. }
    eapply bind_intro; [exact He|reflexivity].
Qed.

Lemma operation_unique i s o e r o' e' r' :
  operation i s o e r -> operation i s o' e' r' -> o = o' /\ e = e' /\ r = r'.
Proof.
  intros H H'.
  assert (E : operator_exp_f expression i s = Ok r (Variable_ [o], e)) by (apply operator_exp_iff; eauto).
  assert (E' : operator_exp_f expression i s = Ok r' (Variable_ [o'], e')) by (apply operator_exp_iff; eauto).
  rewrite E in E'. injection E' as -> -> ->. auto.
Qed.

Lemma no_operation_Err i s : no_operation i s -> operator_exp_f expression i s = Err.
Proof.
  intros H. apply err_of_no_ok; [oks|]. intros r oe E. apply operator_exp_iff in E as (o & e & _ & E).
  eapply H, E.
Qed.

Lemma no_operation_of_Err i s : operator_exp_f expression i s = Err -> no_operation i s.
Proof.
  intros H o e r Ho. assert (E : operator_exp_f expression i s = Ok r (Variable_ [o], e))
    by (apply operator_exp_iff; eauto). congruence.
Qed.

(** ** Expressions that start with a term *)

Lemma sep_loop_Err {A B} (sep : parser B) (p : parser A) n : forall s, sep_loop n sep p s <> Err.
Proof.
  induction n as [|n IH]; intros s; cbn [sep_loop]; [discriminate|].
  destruct (sep s) as [s2 x| |]; try discriminate.
  destruct (Nat.eqb (length s2) (length s)); try discriminate.
  destruct (p s2) as [s3 a| |]; try discriminate.
  destruct (Nat.eqb (length s3) (length s2)); try discriminate.
  specialize (IH s3). destruct (sep_loop n sep p s3); congruence.
Qed.

Theorem expression_iff i s s1 f r e : term i s = Ok s1 f ->
  (expression i s = Ok r e <->
   exists xs r1, arguments i s1 xs r1 /\ no_more_arguments i r1 /\
     ((r = r1 /\ e = fold_left Application xs f /\ no_operation i r1) \/
      (exists o e2, operation i r1 o e2 r /\ e = BinOp (Variable_ [o]) (fold_left Application xs f) e2))).
Proof.
  intros Hf. split.
  - intros H. rewrite expression_eq in H. unfold expression_f in H.
    assert (Hb : binary_f expression i s = Ok r e).
    { apply alt_Ok in H as [H|[H _]]; [exact H|]. exfalso.
      revert H. unfold binary_f. 
      destruct (application_or_var_f expression i s) as [r1 a| |w] eqn:Ha.
      - intros H. unfold bind in H. rewrite Ha in H. unfold opt in H.
        destruct (operator_exp_f expression i r1) as [r2 oe| |w]; discriminate H.
      - intros _. unfold application_or_var_f, map_res, separated_list in Ha.
        change (term_f expression i) with (term i) in Ha. rewrite Hf in Ha.
        destruct (Nat.eqb_spec (length s1) (length s)) as [Hl|Hl].
        { apply eats_term in Hf. lia. }
        destruct (sep_loop _ _ _ _) as [r1 l| |] eqn:Hl'; [|eapply sep_loop_Err, Hl'|discriminate Ha].
        rewrite application_of_list_fold in Ha. discriminate Ha.
      - intros H. unfold bind in H. rewrite Ha in H. discriminate H. }
    clear H. unfold binary_f in Hb. apply bind_Ok in Hb as (r1 & a & Ha & H).
    apply bind_Ok in H as (r2 & oe & Ho & H). apply ret_Ok in H as [-> ->].
    apply application_iff in Ha as (f' & s1' & xs & Hf' & Hxs & Hn & ->).
    rewrite Hf in Hf'. injection Hf' as <- <-. exists xs, r1. split; [exact Hxs|]. split; [exact Hn|].
    apply opt_Ok in Ho as [(oe' & Ho & ->)|(Ho & -> & ->)].
    + apply operator_exp_iff in Ho as (o & e2 & -> & Ho). right. exists o, e2. auto.
    + left. split; [reflexivity|]. split; [reflexivity|]. intros o e2 r' H.
      assert (E : operator_exp_f expression i r1 = Ok r' (Variable_ [o], e2))
        by (apply operator_exp_iff; eauto). congruence.
  - intros (xs & r1 & Hxs & Hn & H). rewrite expression_eq. apply alt_left. unfold binary_f.
    eapply bind_intro. { apply application_iff. exists f, s1, xs. eauto. }
    destruct H as [(-> & -> & Hno)|(o & e2 & Ho & ->)].
    + eapply bind_intro; [apply opt_None, no_operation_Err, Hno|reflexivity].
    + eapply bind_intro; [apply opt_Some, operator_exp_iff; eauto|reflexivity].
Qed.

(** ** Chains of operators *)

(** [operand i s a r]: one term and its arguments *)
Definition operand (i : N) (s : str) (a : expr) (r : str) : Prop :=
  exists f s1 xs, term i s = Ok s1 f /\ arguments i s1 xs r /\ no_more_arguments i r /\
    a = fold_left Application xs f.

(** the last operand may also be one of the other expressions (let, case, if,
    lambda), which do not start with a term *)
Definition last_operand (i : N) (s : str) (a : expr) (r : str) : Prop :=
  (operand i s a r /\ no_operation i r) \/ (term i s = Err /\ expression i s = Ok r a).

(** [chain i s a l r]: the text [s] reads [a o1 b1 ... on bn] where [l] lists the
    pairs [(ok, bk)] *)
Inductive chain (i : N) : str -> expr -> list (str * expr) -> str -> Prop :=
| chain_last s a r : last_operand i s a r -> chain i s a [] r
| chain_more s a t j o b s' a' l r :
    operand i s a (t ++ o ++ b ++ s') -> lay_ge i t j -> infix_operator o -> blanks1 b ->
    chain i s' a' l r -> chain i s a ((o, a') :: l) r.

(** [a o1 (b1 o2 (b2 ...))] *)
Fixpoint nest_right (a : expr) (l : list (str * expr)) : expr :=
  match l with
  | [] => a
  | (o, b) :: l' => BinOp (Variable_ [o]) a (nest_right b l')
  end.

Theorem chain_parse i s a l r : chain i s a l r -> expression i s = Ok r (nest_right a l).
Proof.
  induction 1 as [s a r [[(f & s1 & xs & Hf & Hxs & Hn & ->) Hno]|[_ H]]
                 |s a t j o b s' a' l r (f & s1 & xs & Hf & Hxs & Hn & ->) Ht Ho Hb _ IH].
  - apply (expression_iff _ _ _ _ _ _ Hf). exists xs, r. split; [exact Hxs|]. split; [exact Hn|]. left. auto.
  - exact H.
  - apply (expression_iff _ _ _ _ _ _ Hf). exists xs, (t ++ o ++ b ++ s'). split; [exact Hxs|].
    split; [exact Hn|]. right. exists o, (nest_right a' l). split; [|reflexivity].
    exists t, j, b, s'. auto.
Qed.

Theorem chain_exists i : forall n s r e, length s < n -> expression i s = Ok r e ->
  exists a l, chain i s a l r /\ e = nest_right a l.
Proof.
  induction n as [|n IH]; intros s r e Hn H; [lia|].
  destruct (term i s) as [s1 f| |w] eqn:Hf.
  - destruct (proj1 (expression_iff _ _ _ _ _ _ Hf) H) as (xs & r1 & Hxs & Hst & H').
    clear H. rename H' into H.
    assert (Hop : operand i s (fold_left Application xs f) r1) by (exists f, s1, xs; auto).
    destruct H as [(-> & -> & Hno)|(o & e2 & (t & j & b & s' & -> & Ht & Ho & Hb & He) & ->)].
    + exists (fold_left Application xs f), []. split; [|reflexivity]. constructor. left. auto.
    + apply IH in He as (a & l & Hc & ->).
      * exists (fold_left Application xs f), ((o, a) :: l). split; [|reflexivity].
        econstructor; eassumption.
      * apply eats_term in Hf. clear -Hf Hn Hxs Ht.
        assert (Hl : length (t ++ o ++ b ++ s') <= length s1).
        { revert Hxs. generalize (t ++ o ++ b ++ s'). intros r Hxs. clear -Hxs.
          induction Hxs as [r|t j s x s' xs r Ht Hx _ IH]; [lia|]. apply eats_term in Hx.
          rewrite app_length. lia. }
        rewrite !app_length in Hl. destruct Ht as (_ & _ & Hne & _). destruct t; [congruence|].
        simpl in Hl. lia.
  - exists e, []. split; [|reflexivity]. constructor. right. auto.
  - exfalso. assert (Ho : ok 0 (S (length s)) (term i) (term i)) by oks.
    destruct (Ho s (le_n _)) as [_ H']. rewrite Hf in H'. exact H'.
Qed.

(** ** The off-side rule for arguments *)

Lemma lay_unique R1 R2 i t1 j1 s1 t2 j2 s2 : t1 ++ s1 = t2 ++ s2 ->
  lay R1 i t1 j1 -> lay R2 i t2 j2 -> no_trivia s1 -> no_trivia s2 -> t1 = t2 /\ s1 = s2.
Proof.
  intros E H1 H2 N1 N2. pose proof (lay_run _ _ _ _ _ H1 N1) as R. pose proof (lay_run _ _ _ _ _ H2 N2) as R'.
  rewrite E in R. exact (trivia_run_unique _ _ _ _ _ R R').
Qed.

Lemma arguments_longest i s xs r : arguments i s xs r -> forall zs r1,
  arguments i s zs r1 -> no_more_arguments i r1 -> exists ys, zs = xs ++ ys /\ arguments i r ys r1.
Proof.
  induction 1 as [r|t j s x s' xs r Ht Hx _ IH]; intros zs r1 Hz Hn.
  - exists zs. auto.
  - inversion Hz as [r0 Hr1 Hzs Hr0|t0 j0 s0 x0 s0' zs' r0 Ht0 Hx0 Hz' Es Ezs Hr0]; subst.
    + exfalso. eapply Hn; [reflexivity|exact Ht|exact Hx].
    + destruct (lay_unique _ _ _ _ _ _ _ _ _ Es Ht0 Ht) as [<- <-];
        [eapply term_no_trivia, Hx0|eapply term_no_trivia, Hx|].
      rewrite Hx in Hx0. injection Hx0 as <- <-. destruct (IH _ _ Hz' Hn) as (ys & -> & Hy).
      exists ys. auto.
Qed.

Lemma arguments_app i s xs r ys r' : arguments i s xs r -> arguments i r ys r' ->
  arguments i s (xs ++ ys) r'.
Proof.
  induction 1 as [r|t j s x s' xs r Ht Hx _ IH]; intros H; [exact H|]. cbn [app].
  econstructor; [exact Ht|exact Hx|apply IH, H].
Qed.

(** Every term is the head of an expression. *)
Theorem term_expression i s s1 f : term i s = Ok s1 f -> exists r e, expression i s = Ok r e.
Proof.
  intros Hf. destruct (expression i s) as [r e| |w] eqn:He; [eauto|exfalso..].
  - rewrite expression_eq in He. unfold expression_f, alt in He.
    destruct (binary_f expression i s) as [r e| |w] eqn:Hb; try discriminate He. clear He.
    unfold binary_f, bind in Hb. 
    destruct (application_or_var_f expression i s) as [r1 a| |w] eqn:Ha; try discriminate Hb.
    + unfold opt in Hb. destruct (operator_exp_f expression i r1); discriminate Hb.
    + unfold application_or_var_f, map_res, separated_list in Ha.
      change (term_f expression i) with (term i) in Ha. rewrite Hf in Ha.
      destruct (Nat.eqb_spec (length s1) (length s)) as [Hl|Hl].
      { apply eats_term in Hf. lia. }
      destruct (sep_loop _ _ _ _) as [r1 l| |] eqn:Hl'; [|eapply sep_loop_Err, Hl'|discriminate Ha].
      rewrite application_of_list_fold in Ha. discriminate Ha.
  - assert (Ho : ok 0 (S (length s)) (expression i) (expression i)) by oks.
    destruct (Ho s (le_n _)) as [_ H']. rewrite He in H'. exact H'.
Qed.

Theorem offside_in i s s1 f xs t j s' s2 x : term i s = Ok s1 f -> arguments i s1 xs (t ++ s') ->
  lay_gt i t j -> term i s' = Ok s2 x -> forall r e, expression i s = Ok r e ->
  exists ys r1, arguments i s2 ys r1 /\
    ((r = r1 /\ e = fold_left Application (xs ++ x :: ys) f) \/
     exists o e2, operation i r1 o e2 r /\
       e = BinOp (Variable_ [o]) (fold_left Application (xs ++ x :: ys) f) e2).
Proof.
  intros Hf Hxs Ht Hx r e He.
  destruct (proj1 (expression_iff _ _ _ _ _ _ Hf) He) as (zs & r1 & Hzs & Hn & H).
  assert (Hxs' : arguments i s1 (xs ++ [x]) s2).
  { eapply arguments_app; [exact Hxs|]. econstructor; [exact Ht|exact Hx|constructor]. }
  destruct (arguments_longest _ _ _ _ Hxs' _ _ Hzs Hn) as (ys & -> & Hys).
  rewrite <- app_assoc in H. exists ys, r1. split; [exact Hys|].
  destruct H as [(-> & -> & _)|(o & e2 & Ho & ->)]; [left; auto|right; eauto].
Qed.

Theorem offside_out i s s1 f xs t s' s2 x : term i s = Ok s1 f -> arguments i s1 xs (t ++ s') ->
  trivia t -> closed t -> has_newline t = true -> (width i t <= i)%N -> term i s' = Ok s2 x ->
  expression i s = Ok (t ++ s') (fold_left Application xs f).
Proof.
  intros Hf Hxs Ht Hc Hnl Hw Hx. apply (expression_iff _ _ _ _ _ _ Hf). exists xs, (t ++ s').
  assert (Hs : no_trivia s') by (eapply term_no_trivia, Hx).
  assert (Hr : trivia_run (t ++ s') t s') by (apply trivia_run_intro; assumption).
  split; [exact Hxs|]. split; [|left; repeat split].
  - apply stop_arguments, sep_stop_Err. eapply sp_Err; [exact Hr|]. right. split; [exact Hnl|]. cbn. lia.
  - intros o e r Ho. assert (E : operator_exp_f expression i (t ++ s') = Ok r (Variable_ [o], e))
      by (apply operator_exp_iff; eauto).
    unfold operator_exp_f in E. apply bind_Ok in E as (s3 & j & E1 & E).
    apply sp_iff in E1 as (t' & Hr' & _). destruct (trivia_run_unique _ _ _ _ _ Hr Hr') as [<- <-].
    apply bind_Ok in E as (s4 & o' & E2 & E). apply bind_Ok in E as (s5 & b & E3 & _).
    apply (operator_or_as_Ok _ _ _ Hs) in E2 as (o2 & -> & -> & Ho2).
    apply sound_multispace in E3 as (w & -> & -> & [Hne Hb]).
    apply (term_no_operator _ _ _ _ Hx). destruct b as [|b bs]; [congruence|].
    unfold blanks in Hb. simpl in Hb. apply andb_true_iff in Hb as [Hb _].
    exists o2, b, (bs ++ s5). split; [reflexivity|]. split; [|exact Hb].
    destruct Ho2 as [Ho2|[Ho2 _]]; auto.
Qed.

(** ** Function types *)

(** [arrows i s l r]: the text [s] reads [-> t1 -> ... -> tn], each arrow with
    at least one space or line feed on both sides. *)
Inductive arrows (i : N) : str -> list type_ast -> str -> Prop :=
| arrows_nil r : arrows i r [] r
| arrows_cons b1 b2 s x s' l r :
    spnl1 b1 -> spnl1 b2 -> type_ i s = Ok s' x -> arrows i s' l r ->
    arrows i (b1 ++ L "->" ++ b2 ++ s) (x :: l) r.

Definition no_more_arrows (i : N) (r : str) : Prop :=
  forall b1 b2 s r' x, r = b1 ++ L "->" ++ b2 ++ s -> spnl1 b1 -> spnl1 b2 -> type_ i s <> Ok r' x.

Lemma arrow_of_list_right l : forall a, arrow_of_list (a :: l) = Some (arrow_right a l).
Proof.
  induction l as [|b l IH]; intros a; [reflexivity|]. cbn [arrow_right].
  apply arrow_of_list_cons, IH.
Qed.

Lemma arrow_sep_Ok s r a : arrow_sep s = Ok r a ->
  exists b1 b2, s = b1 ++ L "->" ++ b2 ++ r /\ spnl1 b1 /\ spnl1 b2.
Proof.
  intros Ha. apply delimited_Ok in Ha as (x1 & a1 & x2 & a2 & E1 & E2 & E3).
  apply sn_iff in E1 as (-> & H1 & _). apply tag_Ok in E2 as [-> _].
  apply sn_iff in E3 as (-> & H4 & _). eauto 8.
Qed.

Lemma seps_arrows i s l r : seps arrow_sep (type_ i) s l r <-> arrows i s l r /\ no_more_arrows i r.
Proof.
  split.
  - induction 1 as [s Hst|s s2 j s3 x xs r Hsp _ Hx _ _ [IH IH']].
    + split; [constructor|]. intros b1 b2 s' r' x -> H1 H2 Hx.
      assert (E : arrow_sep (b1 ++ L "->" ++ b2 ++ s') = Ok s' (L "->"))
        by (apply arrow_intro; [assumption..|eapply type_ends_sn, Hx]).
      unfold sep_stop in Hst. rewrite E, Hx in Hst. apply eats_arrow in E. apply eats_type in Hx. lia.
    + split; [|exact IH']. apply arrow_sep_Ok in Hsp as (b1 & b2 & -> & H1 & H2).
      econstructor; eassumption.
  - intros [H Hn]. induction H as [r|b1 b2 s x s' l r H1 H2 Hx _ IH].
    + apply seps_stop. destruct (arrow_sep r) as [s j| |w] eqn:Hsp.
      * eapply sep_stop_next; [exact Hsp|]. apply err_of_no_ok; [oks|]. intros r' x Hx.
        apply arrow_sep_Ok in Hsp as (b1 & b2 & -> & H1 & H2). eapply Hn; [reflexivity|eassumption..].
      * apply sep_stop_Err, Hsp.
      * exfalso. assert (Ho : ok 0 (S (length r)) arrow_sep arrow_sep) by (unfold arrow_sep; oks).
        destruct (Ho r (le_n _)) as [_ H]. rewrite Hsp in H. exact H.
    + eapply seps_cons; [apply eats_arrow|apply eats_type| |exact Hx|apply IH, Hn].
      apply arrow_intro; [assumption..|eapply type_ends_sn, Hx].
Qed.

Theorem annotation_iff i s r t : type_annotation i s = Ok r t <->
  exists a s1 l, type_ i s = Ok s1 a /\ arrows i s1 l r /\ no_more_arrows i r /\ t = arrow_right a l.
Proof.
  unfold type_annotation, type_annotation_f. split.
  - intros H. apply map_res_Ok in H as (v & H & Hv).
    apply separated_nonempty_list_Ok in H as (a & l & s1 & -> & Ha & _ & Hl).
    apply seps_arrows in Hl as [Hl Hn]. rewrite arrow_of_list_right in Hv. injection Hv as <-.
    exists a, s1, l. auto.
  - intros (a & s1 & l & Ha & Hl & Hn & ->). apply ann_ok. exists a, l, s1.
    split; [exact Ha|]. split; [apply seps_arrows; auto|apply arrow_of_list_right].
Qed.

(** ** Parenthesised types *)

Theorem type_parens_one i t1 s t2 r t : olay i t1 -> olay i t2 ->
  type_ i s = Ok (t2 ++ L ")" ++ r) t -> type_ i (L "(" ++ t1 ++ s) = Ok r (TypeTuple [t]).
Proof.
  intros H1 H2 Ht. apply simple_type. 
  apply alt_right; [nohead heads_type_variable|]. apply alt_right; [reflexivity|].
  apply alt_right; [reflexivity|]. apply alt_left. unfold type_tuple_f.
  destruct (open_ok i (C "(") t1 s H1) as [o Ho]; [eapply type_no_trivia, Ht|].
  destruct (close_ok i t2 (C ")") r H2) as [o2 Ho2]; [apply no_trivia_char; discriminate|].
  apply map_intro. eapply delimited_intro; [exact Ho| |exact Ho2].
  eapply elems_list; [apply eats_comma|apply eats_type|apply elems_one, Ht|].
  apply comma_stop'; [exact H2|apply no_trivia_char; discriminate|discriminate].
Qed.

Theorem type_parens_arrow i t1 s s1 a l t2 r : olay i t1 -> olay i t2 -> type_ i s = Ok s1 a ->
  arrows i s1 l (t2 ++ L ")" ++ r) -> l <> [] ->
  type_ i (L "(" ++ t1 ++ s) = Ok r (arrow_right a l).
Proof.
  intros H1 H2 Ha Hl Hne. apply simple_type.
  apply alt_right; [nohead heads_type_variable|]. apply alt_right; [reflexivity|].
  apply alt_right; [reflexivity|].
  destruct (open_ok i (C "(") t1 s H1) as [o Ho]; [eapply type_no_trivia, Ha|].
  destruct (close_ok i t2 (C ")") r H2) as [o2 Ho2]; [apply no_trivia_char; discriminate|].
  assert (Hn : no_more_arrows i (t2 ++ L ")" ++ r)).
  { intros b1 b2 s0 r0 x E Hb1 _ _. pose proof (arrow_run b1 (b2 ++ s0) Hb1) as R.
    assert (R2 : trivia_run (t2 ++ L ")" ++ r) t2 (L ")" ++ r)).
    { destruct H2 as [->|[j H2]]; [apply trivia_run_nil|eapply lay_run; [exact H2|]];
        apply no_trivia_char; discriminate. }
    rewrite E in R2. destruct (trivia_run_unique _ _ _ _ _ R R2) as [_ D]. discriminate D. }
  apply alt_right.
  - destruct Hl as [r0|b1 b2 s0 x s' l r0 Hb1 Hb2 Hx Hl]; [congruence|].
    assert (Hrun : trivia_run (b1 ++ L "->" ++ b2 ++ s0) b1 (L "->" ++ b2 ++ s0))
      by (apply arrow_run; exact Hb1).
    assert (Hhead : exists d y, b1 ++ L "->" ++ b2 ++ s0 = d :: y /\ is_space_or_newline d = true).
    { destruct Hb1 as [Hne1 Hb1]. destruct b1 as [|d b1]; [congruence|].
      simpl in Hb1. apply andb_true_iff in Hb1 as [Hd _]. cbn [app]. eauto. }
    destruct Hhead as (d & y & Hd & Hdb).
    unfold type_tuple_f. apply map_Err. unfold delimited.
    eapply bind_Err2; [exact Ho|]. eapply bind_Err2.
    { eapply sep_list; [apply eats_comma|apply eats_type|exact Ha|].
      apply seps_stop, sep_stop_Err. eapply comma_Err; [exact Hrun|..].
      - rewrite Hd. cbn. chr.
      - reflexivity. }
    apply bind_Err1. eapply close_Err; [exact Hrun|..].
    + rewrite Hd. cbn. chr.
    + reflexivity.
  - unfold type_parens_f. eapply delimited_intro; [exact Ho| |exact Ho2].
    change (type_annotation_f type_ i) with (type_annotation i).
    apply annotation_iff. exists a, s1, l. auto.
Qed.
