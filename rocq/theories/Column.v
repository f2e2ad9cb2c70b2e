(** * Where a definition ends and the next one begins *)
From Verif Require Import Base Nom Regex Ast Good Spec Helpers Types Expr Stmt Lexers Total
  Layout Seqs Grammar Follow Sound SoundE SoundS LexProps Heads Rules Render CompleteT CompleteE
  CompleteX CompleteS Round Language Chains Keywords Decls Errors.

(** [indents w j]: some line of [w] but the first begins with [j] spaces, counted in 32 bits. *)
Definition indents (w : str) (j : N) : Prop :=
  exists a t b, w = a ++ newline :: t ++ b /\ all_spaces t = true /\ j = (N.of_nat (length t) mod 2 ^ 32)%N.
Lemma indents_l v w j : indents v j -> indents (v ++ w) j.
Proof. intros (a & t & b & -> & H). exists a, t, (b ++ w). split; [|exact H]. repeat (rewrite <- app_assoc; cbn [app]). reflexivity. Qed.
Lemma indents_r v w j : indents w j -> indents (v ++ w) j.
Proof. intros (a & t & b & -> & H). exists (v ++ a), t, b. split; [|exact H]. rewrite <- app_assoc. reflexivity. Qed.
Lemma last_line_split t : has_newline t = true -> exists a, t = a ++ newline :: last_line t.
Proof.
  induction t as [|c t IH]; [discriminate|]. intros H. cbn [has_newline existsb last_line] in *. fold (has_newline t) in H.
  destruct (has_newline t) eqn:E.
  - destruct (IH eq_refl) as [a Ha]. exists (c :: a). cbn [app]. rewrite <- Ha. reflexivity.
  - rewrite orb_false_r in H. rewrite H. apply N.eqb_eq in H. subst. exists []. reflexivity.
Qed.
Lemma lay_indents R i t j : lay R i t j -> j = i \/ indents t j.
Proof.
  intros (_ & Hc & _ & _ & ->). unfold width. rewrite Hc. destruct (has_newline t) eqn:E; [|left; reflexivity].
  right. destruct (last_line_split t E) as [a Ha]. exists a, (last_line t), []. rewrite app_nil_r. auto.
Qed.

(** After the expression no argument follows, at an indentation that is the one of the expression
    or the one of one of its lines. *)
Definition tail (i : N) (s r : str) : Prop :=
  exists w j, s = w ++ r /\ (j = i \/ indents w j) /\ no_more_arguments j r.
Lemma tail_step i i' p s r : (i' = i \/ indents p i') -> tail i' s r -> tail i (p ++ s) r.
Proof.
  intros H (w & j & -> & Hj & Hn). exists (p ++ w), j. split; [rewrite app_assoc; reflexivity|]. split; [|exact Hn].
  destruct Hj as [->|Hj]; [|right; apply indents_r, Hj]. destruct H as [->|H]; [left; reflexivity|right; apply indents_l, H].
Qed.
Lemma prefix_expression i s r e : expression i s = Ok r e -> exists w, s = w ++ r.
Proof. intros H. destruct (sound_expression i s r e H) as (w & H1 & _). eauto. Qed.

Lemma expression_tail n : forall i s r e, length s < n -> expression i s = Ok r e -> tail i s r.
Proof.
  induction n as [|n IH]; intros i s r e Hn H; [lia|]. rewrite expression_eq in H. unfold expression_f in H.
  apply alt_Ok in H as [H|[_ H]]; [|apply alt_Ok in H as [H|[_ H]]; [|apply alt_Ok in H as [H|[_ H]]; [|apply alt_Ok in H as [H|[_ H]]]]].
  - (* operators *)
    unfold binary_f in H. apply bind_Ok in H as (r1 & a & Ha & H). pose proof Ha as Hs.
    apply (sound_application_or_var_f expression sound_expression) in Hs as (w & -> & _).
    apply application_iff in Ha as (f & s1 & xs & Hf & Hx & Hno & _).
    apply bind_Ok in H as (r2 & oe & Ho & H). apply ret_Ok in H as [-> _]. unfold opt in Ho.
    destruct (operator_exp_f expression i r1) as [r3 [o e2]| |] eqn:E; [|injection Ho as <- <-; exists w, i; auto|discriminate].
    injection Ho as <- <-. unfold operator_exp_f in E.
    apply bind_Ok in E as (u1 & j1 & L1 & E). apply bind_Ok in E as (u2 & y & Hy & E). apply bind_Ok in E as (u3 & z & Hz & E).
    apply bind_Ok in E as (u4 & q & He & E). apply ret_Ok in E as [-> E]. injection E as -> ->.
    assert (P : exists p, p <> [] /\ r1 = p ++ u3).
    { apply sp_ge_inv in L1. apply sound_multispace in Hz as (wz & -> & -> & Hz & _).
      unfold operator_or_as in Hy. apply map_Ok in Hy as (o & Hy & _).
      assert (X : exists wo, u1 = wo ++ z ++ u3).
      { apply alt_Ok in Hy as [Hy|[_ Hy]]; [apply tag_Ok in Hy as [-> _]; eauto|]. apply sound_operator in Hy as (wo & -> & _). eauto. }
      destruct X as [wo ->]. destruct L1 as [(t & -> & _)|L1].
      - exists (t ++ wo ++ z). split; [|rewrite <- !app_assoc; reflexivity]. destruct t; [|discriminate]. destruct wo; [exact Hz|discriminate].
      - destruct wo; [destruct z; [congruence|discriminate]|discriminate]. }
    destruct P as (p & Hp & ->). rewrite app_assoc. eapply tail_step; [left; reflexivity|]. eapply IH; [|exact He].
    rewrite !app_length in Hn. destruct p; [congruence|]. cbn [length] in Hn. lia.
  - (* let *)
    unfold let_expression_f in H. apply bind_Ok in H as (u1 & x1 & H1 & H). apply tag_Ok in H1 as [-> _].
    apply bind_Ok in H as (u2 & m & L1 & H). apply bind_Ok in H as (u3 & es & Hes & H).
    apply bind_Ok in H as (u4 & j2 & L2 & H). apply bind_Ok in H as (u5 & x5 & H5 & H). apply tag_Ok in H5 as [-> _].
    apply bind_Ok in H as (u6 & j3 & L3 & H). apply bind_Ok in H as (u7 & b & He & H). apply ret_Ok in H as [-> _].
    apply (sound_let_bindings_f expression sound_expression) in Hes as (w & -> & _).
    lays L3. lays L2. apply sp_ge_inv in L1 as [(t1 & -> & L1)|L1]; [|destruct w; [destruct x0; discriminate|discriminate]].
    match goal with |- tail i ?s _ => match type of He with expression _ ?s' = _ => 
      let p := constr:(L "let" ++ t1 ++ w ++ x0 ++ L "in" ++ x) in replace s with (p ++ s') by (rewrite <- !app_assoc; reflexivity) end end.
    eapply tail_step; [left; reflexivity|]. eapply IH; [|exact He]. repeat (rewrite app_length in Hn || cbn [length] in Hn). lia.
  - (* case *)
    unfold case_expression_f in H. apply bind_Ok in H as (u1 & x1 & H1 & H). apply tag_Ok in H1 as [-> _].
    apply bind_Ok in H as (u2 & m & L1 & H). apply bind_Ok in H as (u3 & e0 & He0 & H).
    apply bind_Ok in H as (u4 & j2 & L2 & H). apply bind_Ok in H as (u5 & x5 & H5 & H). apply tag_Ok in H5 as [-> _].
    apply bind_Ok in H as (u6 & j3 & L3 & H). apply bind_Ok in H as (u7 & b & Hb & H). apply ret_Ok in H as [-> _].
    apply cases_iff in Hb as (b1 & bs & s1 & -> & Hb1 & Hbs & _).
    assert (Hbr : forall s b r, length s < n -> branch j3 s b r -> tail j3 s r).
    { intros s b r Hl (t1 & k1 & t2 & k2 & s' & E1 & E2 & E3 & E4). destruct (prefix_expression _ _ _ _ E1) as [w ->].
      replace (w ++ t1 ++ L "->" ++ t2 ++ s') with ((w ++ t1 ++ L "->" ++ t2) ++ s') by (rewrite <- !app_assoc; reflexivity).
      apply lay_indents in E3. eapply tail_step; [|eapply IH; [|exact E4]].
      - destruct E3 as [->|E3]; [left; reflexivity|right; do 3 apply indents_r; exact E3].
      - repeat (rewrite app_length in Hl || cbn [length] in Hl). lia. }
    assert (Hpre : forall s b r, branch j3 s b r -> exists p, s = p ++ r).
    { intros s b r (t1 & k1 & t2 & k2 & s' & E1 & E2 & E3 & E4). destruct (prefix_expression _ _ _ _ E1) as [w ->].
      destruct (prefix_expression _ _ _ _ E4) as [w' ->]. exists (w ++ t1 ++ L "->" ++ t2 ++ w'). rewrite <- !app_assoc. reflexivity. }
    assert (Hall : forall s1 bs r, items (same_column j3) (branch j3) s1 bs r -> forall s0 b, length s0 < n -> branch j3 s0 b s1 -> tail j3 s0 r).
    { induction 1 as [r|t s x s' l r Ht Hx Hl IHl]; intros s0 b Hs0 Hb0; [eapply Hbr; eassumption|].
      destruct (Hpre _ _ _ Hb0) as [p ->]. rewrite app_assoc. eapply tail_step; [left; reflexivity|]. eapply IHl; [|exact Hx].
      rewrite !app_length in Hs0. lia. }
    assert (N6 : u6 <> []). { intros ->. destruct Hb1 as (t1 & k1 & t2 & k2 & s' & E1 & _). eapply expression_nil, E1. }
    apply sp_ge_inv in L3 as [(t3 & -> & L3)|L3]; [|congruence]. lays L2. lays L1.
    destruct (prefix_expression _ _ _ _ He0) as [w ->].
    match goal with |- tail i ?s _ => 
      let p := constr:((L "case" ++ x0 ++ w ++ x ++ L "of") ++ t3) in replace s with (p ++ u6) by (rewrite <- !app_assoc; reflexivity) end.
    eapply tail_step; [|eapply Hall; [exact Hbs| |exact Hb1]].
    + apply lay_indents in L3 as [->|L3]; [left; reflexivity|right; apply indents_r, L3].
    + repeat (rewrite app_length in Hn || cbn [length] in Hn). lia.
  - (* if *)
    unfold if_expression_f in H. apply bind_Ok in H as (u1 & x1 & H1 & H). apply tag_Ok in H1 as [-> _].
    apply bind_Ok in H as (u2 & j1 & L1 & H). apply bind_Ok in H as (u3 & c & Hc & H).
    apply bind_Ok in H as (u4 & j2 & L2 & H). apply bind_Ok in H as (u5 & x5 & H5 & H). apply tag_Ok in H5 as [-> _].
    apply bind_Ok in H as (u6 & j3 & L3 & H). apply bind_Ok in H as (u7 & a & Ha & H).
    apply bind_Ok in H as (u8 & j4 & L4 & H). apply bind_Ok in H as (u9 & x9 & H9 & H). apply tag_Ok in H9 as [-> _].
    apply bind_Ok in H as (u10 & j5 & L5 & H). apply bind_Ok in H as (u11 & b & He & H). apply ret_Ok in H as [-> _].
    lays L5. lays L4. lays L3. lays L2. lays L1.
    destruct (prefix_expression _ _ _ _ Hc) as [w1 ->]. destruct (prefix_expression _ _ _ _ Ha) as [w2 ->].
    match goal with |- tail i (_ ++ ?t1 ++ w1 ++ ?t2 ++ _ ++ ?t3 ++ w2 ++ ?t4 ++ _ ++ ?t5 ++ u10) _ =>
      replace (L "if" ++ t1 ++ w1 ++ t2 ++ L "then" ++ t3 ++ w2 ++ t4 ++ L "else" ++ t5 ++ u10)
        with ((L "if" ++ t1 ++ w1 ++ t2 ++ L "then" ++ t3 ++ w2 ++ t4 ++ L "else" ++ t5) ++ u10) by (rewrite <- !app_assoc; reflexivity) end.
    apply lay_indents in L5. eapply tail_step; [|eapply IH; [|exact He]].
    + destruct L5 as [->|L5]; [left; reflexivity|right]. do 9 apply indents_r. exact L5.
    + repeat (rewrite app_length in Hn || cbn [length] in Hn). lia.
  - (* lambda *)
    unfold lambda_f in H. apply bind_Ok in H as (u1 & x1 & H1 & H). apply char_Ok in H1 as [-> _].
    apply bind_Ok in H as (u2 & args & Hargs & H). apply bind_Ok in H as (u3 & j1 & L1 & H).
    apply bind_Ok in H as (u4 & x4 & H4 & H). apply tag_Ok in H4 as [-> _].
    apply bind_Ok in H as (u5 & j2 & L2 & H). apply bind_Ok in H as (u6 & b & He & H). apply ret_Ok in H as [-> _].
    lays L2. lays L1. fold (term i) in Hargs.
    assert (P : exists w, u1 = w ++ x0 ++ L "->" ++ x ++ u5).
    { apply lambda_args_iff in Hargs as (y & l & s1 & -> & Hy & Hl & _). apply sound_term in Hy as (w & -> & _). clear - Hl.
      revert Hl. generalize (x0 ++ L "->" ++ x ++ u5). intros z Hl. assert (Q : exists p, s1 = p ++ z).
      { induction Hl as [r|t s y' s' l r _ Hx _ [p ->]]; [exists []; reflexivity|]. apply sound_term in Hx as (w' & -> & _). exists (t ++ w' ++ p). rewrite <- !app_assoc. reflexivity. }
      destruct Q as [p ->]. exists (w ++ p). rewrite app_assoc. reflexivity. }
    destruct P as [w ->].
    match goal with |- tail i ?s _ => 
      let p := constr:((92%N :: w) ++ x0 ++ L "->" ++ x) in replace s with (p ++ u5) by (rewrite <- !app_assoc; reflexivity) end.
    apply lay_indents in L2. eapply tail_step; [|eapply IH; [|exact He]].
    + destruct L2 as [->|L2]; [left; reflexivity|right]. do 3 apply indents_r. exact L2.
    + repeat (rewrite app_length in Hn || cbn [length] in Hn). lia.
Qed.

(** ** Texts that begin with a term *)
Lemma variable_term i s r e : variable s = Ok r e -> exists r' x, term i s = Ok r' x.
Proof.
  intros H. destruct (access s) as [r' x| |w] eqn:E.
  - exists r', x. unfold term, term_f. apply alt_left, E.
  - exists r, e. unfold term, term_f. apply alt_right; [exact E|]. apply alt_left, H.
  - exfalso. assert (K : term i s = Abort w) by (unfold term, term_f, alt at 1; rewrite E; reflexivity).
    enough (term i s = Err) by congruence. apply term_tot. congruence.
Qed.
Definition stop_next (s : str) : Prop := match s with [] => False | c :: _ => is_name_char c = false end.
Lemma name_term i n wn s : GName n wn -> stop_next s -> exists r x, term i (wn ++ s) = Ok r x.
Proof.
  intros H Hs. destruct H as [n H|o H].
  - eapply variable_term, complete_variable, RVar_lower; [exact H|]. right. destruct s; [destruct Hs|exact Hs].
  - eapply variable_term. rewrite <- !app_assoc. apply complete_variable, RVar_operator, H.
Qed.
Lemma word_term i c w s : is_lower c = true -> forallb is_name_char w = true -> ~ In (c :: w) reserved_words -> stop_next s ->
  exists r x, term i ((c :: w) ++ s) = Ok r x.
Proof. intros H1 H2 H3 Hs. eapply name_term; [|exact Hs]. constructor. right. split; [exists c, w; auto|exact H3]. Qed.
Lemma stop_spaces b s : spaces1 b -> stop_next (b ++ s).
Proof.
  intros [H0 H]. destruct b as [|c b]; [congruence|]. cbn in *. apply andb_true_iff in H as [H _]. apply N.eqb_eq in H. subst. reflexivity.
Qed.
Lemma stop_lay R i t j s : lay R i t j -> stop_next (t ++ s).
Proof. intros (H & _ & H0 & _). destruct H; try reflexivity. congruence. Qed.
Lemma stop_args i l w s : GDefArgs i l w -> stop_next s -> stop_next (w ++ s).
Proof. intros H Hs. destruct H as [i|i b e w es w' H _ _]; [exact Hs|]. rewrite <- app_assoc. apply stop_spaces, H. Qed.

(** a definition, the declaration of an operator, an effect module *)
Definition begins_with_name (st : statement_ast) : bool :=
  match st with Function_ _ | InfixDeclaration _ _ _ | EffectModuleDeclaration _ _ _ => true | _ => false end.
(** a definition, also of a port *)
Definition ends_with_expression (st : statement_ast) : bool :=
  match st with Function_ _ | PortDeclaration _ _ _ => true | _ => false end.

Lemma named_term i st w s : GStmt st w -> begins_with_name st = true -> exists r x, term i (w ++ s) = Ok r x.
Proof.
  assert (D : forall j d w s, GDef j d w -> exists r x, term i (w ++ s) = Ok r x).
  { intros j d v s' H. destruct H as [j n wn args wa b t k e v Hn Ha Hb _ _]. rewrite <- app_assoc. eapply name_term; [exact Hn|].
    rewrite <- !app_assoc. eapply stop_args; [exact Ha|]. apply stop_spaces, Hb. }
  intros H Hb. destruct H; try discriminate Hb.
  - rewrite <- app_assoc. apply word_term; [reflexivity|reflexivity|vm_compute; intuition discriminate|].
    rewrite <- app_assoc. destruct H as [j H]. eapply stop_lay, H.
  - destruct H as [j d w H|j sg ws b d w Hs _ _ _]; [eapply D, H|]. destruct Hs as [j n wn b' t1 k t w' Hn Hb' _ _].
    rewrite <- !app_assoc. eapply name_term; [exact Hn|]. apply stop_spaces, Hb'.
  - rewrite <- app_assoc. assert (S : stop_next ((b1 ++ d ++ b2 ++ n) ++ s)) by (rewrite <- app_assoc; apply stop_spaces; assumption).
    destruct a; (apply word_term; [reflexivity|reflexivity|vm_compute; intuition discriminate|exact S]).
Qed.

(** ** Two statements in a row *)
Lemma tail_lay R i p t j s r : lay R i t j -> tail j s r -> tail i (p ++ t ++ s) r.
Proof.
  intros H K. rewrite app_assoc. eapply tail_step; [|exact K]. apply lay_indents in H as [->|H]; [left; reflexivity|right; apply indents_r, H].
Qed.
Lemma expr_tail i s r e : expression i s = Ok r e -> tail i s r.
Proof. eapply expression_tail, Nat.lt_succ_diag_r. Qed.
Lemma items_prefix {A} (sepR : str -> Prop) (itemR : str -> A -> str -> Prop) s l r :
  (forall s x r, itemR s x r -> exists p, s = p ++ r) -> items sepR itemR s l r -> exists p, s = p ++ r.
Proof.
  intros H. induction 1 as [r|t s x s' l r _ Hx _ [p ->]]; [exists []; reflexivity|]. destruct (H _ _ _ Hx) as [q ->].
  exists (t ++ q ++ p). rewrite <- !app_assoc. reflexivity.
Qed.
Lemma definition_tail i s r d : function_definition i s = Ok r d -> tail i s r.
Proof.
  intros H. apply definition_iff in H as (n & s1 & args & b & t & j & s' & e & Hn & Hi & _ & Ht & He & _).
  assert (P : exists p, s = p ++ s1) by (destruct Hn; [eauto|exists (L "(" ++ o ++ L ")"); rewrite <- !app_assoc; reflexivity]). destruct P as [p ->].
  destruct (items_prefix _ _ _ _ _ (fun s x r H => match sound_term i s r x H with ex_intro _ w (conj E _) => ex_intro _ w E end) Hi) as [q ->].
  replace (p ++ q ++ b ++ L "=" ++ t ++ s') with ((p ++ q ++ b ++ L "=") ++ t ++ s') by (rewrite <- !app_assoc; reflexivity).
  eapply tail_lay; [exact Ht|]. eapply expr_tail, He.
Qed.
Lemma statement_tail s r st : statement s = Ok r st -> ends_with_expression st = true -> tail 0 s r.
Proof.
  intros H Hs. destruct st; try discriminate Hs.
  - apply statement_port_iff, port_iff_decl in H as (b1 & s1 & b2 & t & j & s' & -> & _ & _ & _ & Hi & _ & Ht & He).
    destruct (items_prefix _ _ _ _ _ (fun s x r H => match H with conj E _ => ex_intro _ x E end) Hi) as [q ->].
    match goal with |- tail 0 ?s r => match s with ?a ++ ?b ++ ?c ++ _ => 
      replace s with ((a ++ b ++ c ++ q ++ b2 ++ L "=") ++ t ++ s') by (rewrite <- !app_assoc; reflexivity) end end.
    eapply tail_lay; [exact Ht|]. eapply expr_tail, He.
  - apply statement_function_iff, function_iff in H as [(d & H & _)|(sg & b & s' & d & Hsg & _ & _ & Hd & _)]; [eapply definition_tail, H|].
    apply signature_iff in Hsg as (n & b' & t & j & s1 & ty & Hn & _ & _ & Ha & _).
    assert (P : exists p, s = p ++ b' ++ L ":" ++ t ++ s1) by (remember (b' ++ L ":" ++ t ++ s1) as z; destruct Hn; [eauto|exists (L "(" ++ o ++ L ")"); rewrite <- !app_assoc; reflexivity]).
    destruct P as [p ->]. apply sound_type_annotation in Ha as (w & -> & _).
    match goal with |- tail 0 ?s r => replace s with ((p ++ b' ++ L ":" ++ t ++ w ++ [newline] ++ b) ++ s') by (rewrite <- !app_assoc; reflexivity) end.
    eapply tail_step; [left; reflexivity|]. eapply definition_tail, Hd.
Qed.

Theorem two_statements s b s' st r' st' : statement s = Ok (b ++ s') st -> ends_with_expression st = true ->
  statement s' = Ok r' st' -> begins_with_name st' = true -> b <> [] -> forallb is_space_or_newline b = true ->
  exists w, s = w ++ b ++ s' /\ has_newline b = true /\ exists j, (j = 0%N \/ indents w j) /\ (width 0 b <= j)%N.
Proof.
  intros H He H' Hn Hb Hsp. destruct (statement_tail _ _ _ H He) as (w & j & -> & Hj & Hno). exists w. split; [reflexivity|].
  destruct (spnl_closed b Hsp) as [Ht Hc].
  apply sound_statement in H' as (w' & -> & Hw). destruct (named_term j st' w' r' Hw Hn) as (r1 & x & Hx).
  assert (K : forall k, ~ lay_gt j b k) by (intros k Hk; exact (Hno b k (w' ++ r') r1 x eq_refl Hk Hx)).
  destruct (has_newline b) eqn:E.
  - split; [reflexivity|]. exists j. split; [exact Hj|]. destruct (N.leb_spec (width 0 b) j) as [Q|Q]; [exact Q|exfalso].
    apply (K (width j b)). split; [exact Ht|]. split; [exact Hc|]. split; [exact Hb|]. split; [|reflexivity]. intros _.
    unfold width in *. rewrite E in *. rewrite Hc in *. lia.
  - exfalso. apply (K (width j b)). split; [exact Ht|]. split; [exact Hc|]. split; [exact Hb|]. split; [congruence|reflexivity].
Qed.
