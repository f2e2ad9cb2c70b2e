(** * Expressions with keywords, exactly

    When [if], [case], [let] and lambda expressions are read, and what they are
    read as: exact (iff) statements for any text. *)
From Verif Require Import Base Nom Regex Ast Good Spec Helpers Types Expr Stmt Lexers Total
  Layout Seqs Grammar Follow Sound SoundE SoundS LexProps Heads Rules Render CompleteT CompleteE
  CompleteX CompleteS Round Language Chains.

(** ** Vocabulary *)

(** a branch [pattern -> result], both at indentation [m] or more; the result
    fixes its own indentation *)
Definition branch (m : N) (s : str) (b : expr * expr) (r : str) : Prop :=
  exists t1 j1 t2 j2 s', expression m s = Ok (t1 ++ L "->" ++ t2 ++ s') (fst b) /\
    lay_ge m t1 j1 /\ lay_ge m t2 j2 /\ expression j2 s' = Ok r (snd b).

(** an entry of a let: a binding, or a function if no binding can be read *)
Definition let_item (m : N) (s : str) (x : let_entry) (r : str) : Prop :=
  let_binding m s = Ok r x \/
  (let_binding m s = Err /\ exists f, function m s = Ok r f /\ x = LetFunction f).

(** ** Lists with separators *)

Section Items.
  Context {A B : Type} (sep : parser B) (p : parser A) (sepR : str -> Prop) (itemR : str -> A -> str -> Prop).
  Hypothesis Hsep : forall s s2 x, sep s = Ok s2 x -> (exists t, s = t ++ s2 /\ sepR t) \/ s2 = [].
  Hypothesis Hsep2 : forall t s r a, sepR t -> p s = Ok r a -> exists x, sep (t ++ s) = Ok s x.
  Hypothesis Hp : forall s r a, p s = Ok r a <-> itemR s a r.
  Hypothesis Esep : eats sep.
  Hypothesis Ep : eats p.
  Hypothesis Tsep : forall s, (forall r a, sep s <> Ok r a) -> sep s = Err.
  Hypothesis Tp : forall s, (forall r a, p s <> Ok r a) -> p s = Err.

  Lemma p_nil r a : p [] <> Ok r a.
  Proof. intros H. apply Ep in H. cbn in H. lia. Qed.
  Lemma stop_items r : sep_stop sep p r <-> no_item sepR itemR r.
  Proof.
    split.
    - intros Hst t s x r' -> Ht Hx. apply Hp in Hx. destruct (Hsep2 t s r' x Ht Hx) as (y & Hy).
      unfold sep_stop in Hst. rewrite Hy, Hx in Hst. apply Esep in Hy. apply Ep in Hx. lia.
    - intros Hn. destruct (sep r) as [s y| |w] eqn:Hs.
      + eapply sep_stop_next; [exact Hs|]. apply Tp. intros r' x Hx.
        apply Hsep in Hs as [(t & -> & Ht)| ->]; [|eapply p_nil, Hx].
        apply Hp in Hx. eapply Hn; [reflexivity|exact Ht|exact Hx].
      + apply sep_stop_Err, Hs.
      + assert (E : sep r = Err) by (apply Tsep; congruence). congruence.
  Qed.
  Lemma seps_items s l r : seps sep p s l r <-> items sepR itemR s l r /\ no_item sepR itemR r.
  Proof.
    split.
    - induction 1 as [s Hst|s s2 j s3 x xs r Hs _ Hx _ _ [IH IH']].
      + split; [constructor|apply stop_items, Hst].
      + split; [|exact IH']. apply Hsep in Hs as [(t & -> & Ht)| ->]; [|exfalso; eapply p_nil, Hx].
        econstructor; [exact Ht|apply Hp, Hx|exact IH].
    - intros [H Hn]. induction H as [r|t s x s' xs r Ht Hx _ IH].
      + apply seps_stop, stop_items, Hn.
      + apply Hp in Hx. destruct (Hsep2 t s s' x Ht Hx) as (y & Hy). eapply seps_cons; eauto.
  Qed.
  Lemma nonempty_items s l r : separated_nonempty_list sep p s = Ok r l <->
    exists x l' s1, l = x :: l' /\ itemR s x s1 /\ items sepR itemR s1 l' r /\ no_item sepR itemR r.
  Proof.
    split.
    - intros H. apply separated_nonempty_list_Ok in H as (a & l' & s1 & -> & Ha & _ & Hl).
      apply seps_items in Hl. apply Hp in Ha. exists a, l', s1. tauto.
    - intros (a & l' & s1 & -> & Ha & Hl). apply seps_items in Hl. apply Hp in Ha. eapply sep_nonempty; eauto.
  Qed.
  Lemma list_items s l r : separated_list sep p s = Ok r l <->
    (l = [] /\ r = s /\ forall x s', ~ itemR s x s') \/
    exists x l' s1, l = x :: l' /\ itemR s x s1 /\ items sepR itemR s1 l' r /\ no_item sepR itemR r.
  Proof.
    split.
    - intros H. apply separated_list_Ok in H as [(-> & -> & H)|(a & l' & s1 & -> & Ha & _ & Hl)].
      + left. repeat split. intros x s' Hx. apply Hp in Hx. congruence.
      + right. apply seps_items in Hl. apply Hp in Ha. exists a, l', s1. tauto.
    - intros [(-> & -> & H)|(a & l' & s1 & -> & Ha & Hl)].
      + apply sep_list_nil, Tp. intros r a Ha. apply Hp in Ha. exact (H _ _ Ha).
      + apply seps_items in Hl. apply Hp in Ha. eapply sep_list; eauto.
  Qed.
End Items.

(** ** Keywords *)

Lemma word_no_term w s : ends is_name_char s -> In w reserved_words -> no_term (w ++ s).
Proof.
  intros Hs Hin.
  assert (Hl : longest is_name_char w (w ++ s) s).
  { split; [reflexivity|]. split; [|exact Hs].
    simpl in Hin. repeat (destruct Hin as [<-|Hin]; [reflexivity|]). contradiction. }
  assert (Hex : exists w' r', longest is_name_char w' (w ++ s) r' /\ In w' reserved_words) by eauto.
  simpl in Hin. repeat (destruct Hin as [<-|Hin];
    [repeat split; intros Hx; first [exact Hex | discriminate Hx | destruct Hx as [Hx|Hx]; discriminate Hx]|]).
  contradiction.
Qed.
Lemma word_binary w i s : ends is_name_char s -> In w reserved_words -> binary_f expression i (w ++ s) = Err.
Proof. intros Hs Hin. apply binary_Err, no_term_Err, word_no_term; assumption. Qed.

Lemma sp_ge_inv i s r n : sp i IR_GTE s = Ok r n -> (exists t, s = t ++ r /\ lay_ge i t n) \/ r = [].
Proof. intros H. apply sp_lay in H as [(t & -> & H)|H]; [left; exists t; auto|auto]. Qed.
Ltac lays H := apply sp_ge_inv in H as [(? & -> & H)|H];
  [|solve [discriminate H|subst; exfalso; eapply expression_nil; eassumption]].

Ltac exs := repeat match goal with |- exists _, _ => eexists end;
  repeat (split; [first [reflexivity|eassumption]|]); first [reflexivity|eassumption].

(** ** If *)
Theorem if_iff i s r e : ends is_name_char s ->
  expression i (L "if" ++ s) = Ok r e <->
  exists t1 j1 s1 c t2 j2 t3 j3 s2 a t4 j4 t5 j5 s3 b,
    s = t1 ++ s1 /\ lay_ge i t1 j1 /\
    expression i s1 = Ok (t2 ++ L "then" ++ t3 ++ s2) c /\ lay_ge i t2 j2 /\ lay_ge i t3 j3 /\
    expression j3 s2 = Ok (t4 ++ L "else" ++ t5 ++ s3) a /\ lay_ge i t4 j4 /\ lay_ge i t5 j5 /\
    expression j5 s3 = Ok r b /\ e = If_ c a b.
Proof.
  intros Hs. split.
  - intros H. rewrite expression_eq in H. unfold expression_f in H.
    apply alt_Ok in H as [H|[_ H]]; [rewrite word_binary in H by (simpl; auto 25); discriminate H|].
    apply alt_Ok in H as [H|[_ H]]; [discriminate H|]. apply alt_Ok in H as [H|[_ H]]; [discriminate H|].
    apply alt_Ok in H as [H|[_ H]]; [|discriminate H]. unfold if_expression_f in H.
    apply bind_Ok in H as (u & x & Hx & H). apply tag_Ok in Hx as [Hx _]. apply app_inv_head in Hx as <-.
    apply bind_Ok in H as (s1 & j1 & L1 & H). apply bind_Ok in H as (u2 & c & Hc & H).
    apply bind_Ok in H as (u3 & j2 & L2 & H). apply bind_Ok in H as (u4 & x2 & Hx & H). apply tag_Ok in Hx as [-> _].
    apply bind_Ok in H as (s2 & j3 & L3 & H). apply bind_Ok in H as (u5 & a & Ha & H).
    apply bind_Ok in H as (u6 & j4 & L4 & H). apply bind_Ok in H as (u7 & x3 & Hx & H). apply tag_Ok in Hx as [-> _].
    apply bind_Ok in H as (s3 & j5 & L5 & H). apply bind_Ok in H as (u8 & b & Hb & H). apply ret_Ok in H as [-> ->].
    lays L1. lays L2. lays L3. lays L4. lays L5. exs.
  - intros (t1 & j1 & s1 & c & t2 & j2 & t3 & j3 & s2 & a & t4 & j4 & t5 & j5 & s3 & b & -> & H1 & Hc & H2 & H3 & Ha & H4 & H5 & Hb & ->).
    eapply x_if; eassumption.
Qed.

(** ** Case *)
Lemma branch_iff m s r b : case_f expression m s = Ok r b <-> branch m s b r.
Proof.
  split.
  - intros H. unfold case_f in H. apply bind_Ok in H as (u & p & Hp & H).
    apply bind_Ok in H as (u1 & j1 & L1 & H). apply bind_Ok in H as (u2 & x & Hx & H). apply tag_Ok in Hx as [-> _].
    apply bind_Ok in H as (s' & j2 & L2 & H). apply bind_Ok in H as (u3 & e & He & H). apply ret_Ok in H as [-> ->].
    lays L1. lays L2. unfold branch. cbn [fst snd]. exs.
  - intros (t1 & j1 & t2 & j2 & s' & Hp & H1 & H2 & He). destruct b as [p e]. cbn [fst snd] in *. unfold case_f.
    eapply bind_intro; [exact Hp|]. eapply bind_intro; [apply sp_ge; [exact H1|apply no_trivia_arrow]|].
    eapply bind_intro; [apply tag_intro|]. eapply bind_intro; [apply sp_ge; [exact H2|eapply expr_no_trivia, He]|].
    eapply bind_intro; [exact He|reflexivity].
Qed.
Lemma same_column_sep m s s2 x : sp m IR_EQ s = Ok s2 x -> (exists t, s = t ++ s2 /\ same_column m t) \/ s2 = [].
Proof. intros H. apply sp_lay in H as [(t & -> & H)|H]; [left; exists t; split; [reflexivity|exists x; exact H]|auto]. Qed.
Lemma sp_tot m ir s : (forall r a, sp m ir s <> Ok r a) -> sp m ir s = Err.
Proof. apply err_of_no_ok. oks. Qed.
Theorem cases_iff m s r bs : cases_f expression m s = Ok r bs <->
  exists b bs' s1, bs = b :: bs' /\ branch m s b s1 /\ items (same_column m) (branch m) s1 bs' r /\
    no_item (same_column m) (branch m) r.
Proof.
  unfold cases_f. apply nonempty_items.
  - apply same_column_sep.
  - intros t s0 r0 b (j & Ht) Hb. exists j. apply sp_eq; [exact Ht|].
    apply bind_Ok in Hb as (u & p & Hp & _). eapply expr_no_trivia, Hp.
  - apply branch_iff.
  - apply eats_sp.
  - apply eats_case.
  - apply sp_tot.
  - intros s0. apply err_of_no_ok. unfold case_f. oks.
Qed.
Theorem case_iff i s r e : ends is_name_char s ->
  expression i (L "case" ++ s) = Ok r e <->
  exists t1 j1 s1 e0 t2 j2 t3 m s2 b bs s3,
    s = t1 ++ s1 /\ lay_ge i t1 j1 /\
    expression i s1 = Ok (t2 ++ L "of" ++ t3 ++ s2) e0 /\ lay_ge i t2 j2 /\ lay_ge i t3 m /\
    branch m s2 b s3 /\ items (same_column m) (branch m) s3 bs r /\ no_item (same_column m) (branch m) r /\
    e = Case_ e0 (b :: bs).
Proof.
  intros Hs. split.
  - intros H. rewrite expression_eq in H. unfold expression_f in H.
    apply alt_Ok in H as [H|[_ H]]; [rewrite word_binary in H by (simpl; auto 25); discriminate H|].
    apply alt_Ok in H as [H|[_ H]]; [discriminate H|].
    apply alt_Ok in H as [H|[_ H]]; [|apply alt_Ok in H as [H|[_ H]]; discriminate H]. unfold case_expression_f in H.
    apply bind_Ok in H as (u & x & Hx & H). apply tag_Ok in Hx as [Hx _]. apply app_inv_head in Hx as <-.
    apply bind_Ok in H as (s1 & j1 & L1 & H). apply bind_Ok in H as (u2 & c & Hc & H).
    apply bind_Ok in H as (u3 & j2 & L2 & H). apply bind_Ok in H as (u4 & x2 & Hx & H). apply tag_Ok in Hx as [-> _].
    apply bind_Ok in H as (s2 & m & L3 & H). apply bind_Ok in H as (u5 & bs & Hb & H). apply ret_Ok in H as [-> ->].
    apply cases_iff in Hb as (b & bs' & s3 & -> & Hb & Hbs & Hn).
    destruct (Hb) as (? & ? & ? & ? & ? & Hb' & _).
    lays L1. lays L2. lays L3. exs.
  - intros (t1 & j1 & s1 & e0 & t2 & j2 & t3 & m & s2 & b & bs & s3 & -> & H1 & He & H2 & H3 & Hb & Hbs & Hn & ->).
    rewrite expression_eq. apply alt_right; [eapply kw_binary; [exact H1|simpl; auto 25]|].
    apply alt_right; [reflexivity|]. apply alt_left. unfold case_expression_f.
    eapply bind_intro; [apply tag_intro|].
    eapply bind_intro; [apply sp_ge; [exact H1|eapply expr_no_trivia, He]|].
    eapply bind_intro; [exact He|].
    eapply bind_intro; [apply sp_ge; [exact H2|apply letter_no_trivia; reflexivity]|].
    eapply bind_intro; [apply tag_intro|].
    eapply bind_intro; [apply sp_ge; [exact H3|]|].
    { destruct Hb as (? & ? & ? & ? & ? & Hb' & _). eapply expr_no_trivia, Hb'. }
    eapply bind_intro; [apply cases_iff; exs|reflexivity].
Qed.

(** ** Let *)
Lemma entry_iff m s r x : entry m s = Ok r x <-> let_item m s x r.
Proof.
  unfold entry. rewrite alt_Ok. unfold let_item. split.
  - intros [H|[H1 H2]]; [left; exact H|right; split; [exact H1|]]. apply map_Ok in H2 as (f & H2 & ->). eauto.
  - intros [H|[H1 (f & H2 & ->)]]; [left; exact H|right; split; [exact H1|]]. apply map_intro, H2.
Qed.
Lemma entry_no_trivia m s r x : entry m s = Ok r x -> no_trivia s.
Proof. intros H. eapply heads_no_trivia; [apply heads_entry|apply entry0_trivia|exact H]. Qed.
Lemma entry_nil m r x : entry m [] <> Ok r x.
Proof. intros H. apply eats_entry in H. cbn in H. lia. Qed.
Theorem let_bindings_iff m s r es : let_bindings_f expression m s = Ok r es <->
  exists x es' s1, es = x :: es' /\ let_item m s x s1 /\ items (same_column m) (let_item m) s1 es' r /\
    no_item (same_column m) (let_item m) r.
Proof.
  unfold let_bindings_f. fold (entry m). apply nonempty_items.
  - apply same_column_sep.
  - intros t s0 r0 b (j & Ht) Hb. exists j. apply sp_eq; [exact Ht|]. eapply entry_no_trivia, Hb.
  - apply entry_iff.
  - apply eats_sp.
  - apply eats_entry.
  - apply sp_tot.
  - intros s0. apply err_of_no_ok. apply (ok_weaken 1 0 (S (length s0)) (S (length s0))); [lia|lia|]. unfold entry. apply ok_alt; [apply ok_E_binding|]. apply ok_map.
    apply ok_down, ok_function_f. intros; apply ok_expression.
Qed.
Theorem let_iff i s r e : ends is_name_char s ->
  expression i (L "let" ++ s) = Ok r e <->
  exists t1 m s1 x s2 es t2 j2 t3 j3 s3 b,
    s = t1 ++ s1 /\ lay_ge i t1 m /\
    let_item m s1 x s2 /\ items (same_column m) (let_item m) s2 es (t2 ++ L "in" ++ t3 ++ s3) /\
    lay_ge i t2 j2 /\ lay_ge i t3 j3 /\ expression i s3 = Ok r b /\ e = Let_ (x :: es) b.
Proof.
  intros Hs. split.
  - intros H. rewrite expression_eq in H. unfold expression_f in H.
    apply alt_Ok in H as [H|[_ H]]; [rewrite word_binary in H by (simpl; auto 25); discriminate H|].
    apply alt_Ok in H as [H|[_ H]];
      [|apply alt_Ok in H as [H|[_ H]]; [discriminate H|]; apply alt_Ok in H as [H|[_ H]]; discriminate H].
    unfold let_expression_f in H.
    apply bind_Ok in H as (u & x & Hx & H). apply tag_Ok in Hx as [Hx _]. apply app_inv_head in Hx as <-.
    apply bind_Ok in H as (s1 & m & L1 & H). apply bind_Ok in H as (u2 & es & He & H).
    apply bind_Ok in H as (u3 & j2 & L2 & H). apply bind_Ok in H as (u4 & x2 & Hx & H). apply tag_Ok in Hx as [-> _].
    apply bind_Ok in H as (s3 & j3 & L3 & H). apply bind_Ok in H as (u5 & b & Hb & H). apply ret_Ok in H as [-> ->].
    apply let_bindings_iff in He as (y & es' & s2 & -> & Hy & Hes & Hn).
    apply sp_ge_inv in L1 as [(t1 & -> & L1)| ->]; [|apply entry_iff in Hy; destruct (entry_nil _ _ _ Hy)].
    lays L2. lays L3. exs.
  - intros (t1 & m & s1 & x & s2 & es & t2 & j2 & t3 & j3 & s3 & b & -> & H1 & Hx & Hes & H2 & H3 & Hb & ->).
    eapply x_let; [exact H1| |exact H2|exact H3|exact Hb].
    apply entry_iff in Hx. exists x, es, s2. split; [reflexivity|]. split; [exact Hx|].
    assert (Hgen : forall u l v, items (same_column m) (let_item m) u l v ->
      sep_stop (sp m IR_EQ) (entry m) v -> seps (sp m IR_EQ) (entry m) u l v).
    { induction 1 as [v|t u x' u' l v (j & Ht) Hx' _ IH]; intros Hst; [apply seps_stop, Hst|].
      apply entry_iff in Hx'. eapply seps_cons; [apply eats_sp|apply eats_entry| |exact Hx'|apply IH, Hst].
      apply sp_eq; [exact Ht|eapply entry_no_trivia, Hx']. }
    apply Hgen, Hes.
Qed.

(** ** Lambda *)
Definition next_argument (i : N) (s : str) (x : expr) (r : str) : Prop := term i s = Ok r x.
Lemma term_tot i s : (forall r a, term i s <> Ok r a) -> term i s = Err.
Proof. apply err_of_no_ok. unfold term. oks. Qed.
Lemma lambda_args_iff i s r l : separated_nonempty_list space1 (term i) s = Ok r l <->
  exists x l' s1, l = x :: l' /\ next_argument i s x s1 /\ items tabs1 (next_argument i) s1 l' r /\
    no_item tabs1 (next_argument i) r.
Proof.
  apply nonempty_items.
  - intros s0 s2 x H. left. exists x. apply sound_space1 in H as (w & -> & -> & Hw).
    split; [reflexivity|exact Hw].
  - intros t s0 r0 x Ht Hx. exists t. apply space1_intro; [exact Ht|eapply term_ends; [exact Hx|apply tab_never]].
  - intros. reflexivity.
  - apply eats_space1.
  - apply eats_term.
  - intros s0. apply err_of_no_ok. oks.
  - intros s0. apply term_tot.
Qed.
Theorem lambda_iff i s r e : expression i (L "\" ++ s) = Ok r e <->
  exists x s1 xs t1 j1 t2 j2 s2 b,
    term i s = Ok s1 x /\ items tabs1 (next_argument i) s1 xs (t1 ++ L "->" ++ t2 ++ s2) /\
    lay_ge i t1 j1 /\ lay_ge i t2 j2 /\ expression j2 s2 = Ok r b /\ e = Lambda (x :: xs) b.
Proof.
  split.
  - intros H. rewrite expression_eq in H. unfold expression_f in H.
    assert (Hnt : no_term (backslash :: s)).
    { repeat split; intros Hc; try discriminate Hc; destruct Hc; discriminate. }
    apply alt_Ok in H as [H|[_ H]].
    { assert (E : binary_f expression i (backslash :: s) = Err) by apply binary_Err, no_term_Err, Hnt.
      unfold backslash in E. cbn [app] in H. congruence. }
    do 3 (apply alt_Ok in H as [H|[_ H]]; [discriminate H|]). unfold lambda_f in H.
    apply bind_Ok in H as (u & x & Hx & H). apply char_Ok in Hx as [Hx _]. injection Hx as <-.
    apply bind_Ok in H as (u2 & l & Hl & H).
    apply bind_Ok in H as (u3 & j1 & L1 & H). apply bind_Ok in H as (u4 & x2 & Hx & H). apply tag_Ok in Hx as [-> _].
    apply bind_Ok in H as (s2 & j2 & L2 & H). apply bind_Ok in H as (u5 & b & Hb & H). apply ret_Ok in H as [-> ->].
    apply lambda_args_iff in Hl as (y & ys & s1 & -> & Hy & Hys & _). lays L1. lays L2. exs.
  - intros (x & s1 & xs & t1 & j1 & t2 & j2 & s2 & b & Hx & Hxs & H1 & H2 & Hb & ->).
    eapply x_lambda; [|exact H1|exact H2|exact Hb]. exists x, xs, s1. split; [reflexivity|]. split; [exact Hx|].
    assert (Hgen : forall u l v, items tabs1 (next_argument i) u l v ->
      sep_stop space1 (term i) v -> seps space1 (term i) u l v).
    { induction 1 as [v|t u x' u' l v Ht Hx' _ IH]; intros Hst; [apply seps_stop, Hst|].
      eapply seps_cons; [apply eats_space1|apply eats_term| |exact Hx'|apply IH, Hst].
      apply space1_intro; [exact Ht|eapply term_ends; [exact Hx'|apply tab_never]]. }
    apply Hgen, Hxs.
Qed.

(** ** The off-side rule *)
Lemma offside_items {A} m (itemR : str -> A -> str -> Prop) t s x r :
  (forall s x r, itemR s x r -> no_trivia s) ->
  trivia t -> closed t -> has_newline t = true -> itemR s x r ->
  (no_item (same_column m) itemR (t ++ s) <-> width m t <> m).
Proof.
  intros Hnt Ht Hc Hn Hx. split.
  - intros Hno Hw. apply (Hno t s x r eq_refl); [|exact Hx]. exists m. split; [exact Ht|]. split; [exact Hc|].
    split; [intros ->; discriminate Hn|]. split; [intros _; exact Hw|congruence].
  - intros Hw t' s' x' r' E (j & Ht') Hx'.
    assert (Hl : lay (fun _ _ => True) m t (width m t)).
    { split; [exact Ht|]. split; [exact Hc|]. split; [intros ->; discriminate Hn|]. split; [trivial|reflexivity]. }
    destruct (trivia_run_unique (t ++ s) t s t' s') as [<- <-].
    + eapply lay_run; [exact Hl|eapply Hnt, Hx].
    + rewrite E. eapply lay_run; [exact Ht'|eapply Hnt, Hx'].
    + destruct Ht' as (_ & _ & _ & Hw' & _). apply Hw, Hw', Hn.
Qed.
Lemma branch_no_trivia m s b r : branch m s b r -> no_trivia s.
Proof. intros (? & ? & ? & ? & ? & H & _). eapply expr_no_trivia, H. Qed.
Lemma let_item_no_trivia m s x r : let_item m s x r -> no_trivia s.
Proof. intros H. apply entry_iff in H. eapply entry_no_trivia, H. Qed.

(** src/ast/expression/mod.rs:212-219, with the recursive knot tied *)
Definition let_binding_target (i : N) : parser expr := let_binding_target_f expression i.

(** A binding: a pattern, an equals sign and a value, at indentation [m] or more. *)
Theorem let_binding_iff m s r x : let_binding m s = Ok r x <->
  exists p t1 j1 t2 j2 s' e, let_binding_target m s = Ok (t1 ++ L "=" ++ t2 ++ s') p /\
    lay_ge m t1 j1 /\ lay_ge m t2 j2 /\ expression j2 s' = Ok r e /\ x = LetBinding p e.
Proof.
  unfold let_binding, let_binding_f. split.
  - intros H. apply bind_Ok in H as (u & p & Hp & H).
    apply bind_Ok in H as (u1 & j1 & L1 & H). apply bind_Ok in H as (u2 & y & Hx & H). apply char_Ok in Hx as [-> _].
    apply bind_Ok in H as (s' & j2 & L2 & H). apply bind_Ok in H as (u3 & e & He & H). apply ret_Ok in H as [-> ->].
    lays L1. lays L2. do 7 eexists. split; [exact Hp|]. exs.
  - intros (p & t1 & j1 & t2 & j2 & s' & e & Hp & H1 & H2 & He & ->).
    eapply bind_intro; [exact Hp|]. eapply bind_intro; [apply sp_ge; [exact H1|apply no_trivia_char; discriminate]|].
    eapply bind_intro; [apply char_intro|]. eapply bind_intro; [apply sp_ge; [exact H2|eapply expr_no_trivia, He]|].
    eapply bind_intro; [exact He|reflexivity].
Qed.
