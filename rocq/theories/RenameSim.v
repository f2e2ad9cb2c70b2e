(** * Names do not matter: the parsers one by one *)
From Verif Require Import Base Nom Ast Good Spec Grammar Helpers Types Expr Stmt Lexers Layout Follow SoundE LexProps Heads Names TwoRuns Rename.

Notation rn P := (renamed P true).

(** ** Forward simulations give simulations *)
Lemma fw_both {A B} (R : (str -> str -> Prop) -> A -> B -> Prop) (R' : (str -> str -> Prop) -> B -> A -> Prop) p q P :
  (forall P, keeps P -> fw (rn P) (R P) p q) -> (forall P, keeps P -> fw (rn P) (R' P) q p) -> keeps P -> sim (rn P) (R P) p q.
Proof.
  intros H1 H2 HP. apply sim_fw with (RB := R' (back P)); [apply H1, HP|].
  intros s s' r a Hs E. unfold back in Hs. apply rn_sym in Hs.
  destruct (H2 _ (keeps_back _ HP) _ _ _ _ Hs E) as (r' & b & t & t' & E' & Hb & Hr & Hx).
  exists r', b, t, t'. split; [exact E'|]. split; [exact Hb|]. split; [|exact Hx]. unfold back. apply rn_sym in Hr. exact Hr.
Qed.
Lemma fw_self {A} (R : (str -> str -> Prop) -> A -> A -> Prop) p P :
  (forall P, keeps P -> fw (rn P) (R P) p p) -> keeps P -> sim (rn P) (R P) p p.
Proof. intros H. eapply fw_both; exact H. Qed.

(** a class without letters *)
Lemma solid_check f : forallb (fun c => negb (f c)) (lowers ++ uppers) = true -> forall c, f c = true -> solid c = true.
Proof.
  intros H c Hc. rewrite forallb_forall in H. unfold solid, is_letter. destruct (is_lower c) eqn:El.
  - apply lower_in in El. specialize (H c (in_or_app _ _ _ (or_introl El))). rewrite Hc in H. discriminate H.
  - destruct (is_upper c) eqn:Eu; [|reflexivity].
    apply upper_in in Eu. specialize (H c (in_or_app _ _ _ (or_intror Eu))). rewrite Hc in H. discriminate H.
Qed.
Lemma solid_class f w : forallb (fun c => negb (f c)) (lowers ++ uppers) = true -> forallb f w = true -> forallb solid w = true.
Proof. intros H. apply forallb_imp, solid_check, H. Qed.
Lemma uniform_class f : forallb (fun c => negb (f c)) (lowers ++ uppers) = true -> uniform f.
Proof.
  intros H. rewrite forallb_forall in H. apply uniform_check. apply andb_true_iff. split; apply forallb_forall; intros c Hc.
  - assert (H1 := H c (in_or_app _ _ _ (or_introl Hc))). assert (H2 : negb (f (C "a")) = true) by (apply H; left; reflexivity).
    destruct (f c), (f (C "a")); try discriminate; reflexivity.
  - assert (H1 := H c (in_or_app _ _ _ (or_intror Hc))). assert (H2 : negb (f (C "A")) = true) by (apply H, in_or_app; right; left; reflexivity).
    destruct (f c), (f (C "A")); try discriminate; reflexivity.
Qed.

(** ** Tokens without letters *)
Lemma fw_word {A} (p : parser A) (W : str -> A -> Prop) (Z : str -> Prop) P :
  (forall s r a, p s = Ok r a <-> exists w, s = w ++ r /\ W w a /\ Z r) ->
  (forall w a, W w a -> forallb solid w = true) ->
  (forall r r', rn P r r' -> Z r -> Z r') ->
  fw (rn P) eq p p.
Proof.
  intros Hp Hsolid HZ s s' r a Hs H. apply Hp in H as (w & -> & Hw & Hz).
  destruct (rn_solid _ _ _ _ _ (Hsolid _ _ Hw) Hs) as (r' & -> & Hr).
  exists r', a, w, w. split; [apply Hp; eauto 6|]. tauto.
Qed.
Lemma sim_word {A} (p : parser A) (W : str -> A -> Prop) (Z : str -> Prop) P :
  (forall s r a, p s = Ok r a <-> exists w, s = w ++ r /\ W w a /\ Z r) ->
  (forall w a, W w a -> forallb solid w = true) ->
  (forall P r r', rn P r r' -> Z r -> Z r') -> keeps P ->
  sim (rn P) eq p p.
Proof. intros H1 H2 H3. apply (fw_self (fun _ => eq)). intros Q _. eapply fw_word; eauto. Qed.

Lemma char_word c s r a : char_ c s = Ok r a <-> exists w, s = w ++ r /\ (w = [c] /\ a = c) /\ True.
Proof.
  unfold char_. split.
  - destruct s as [|d s]; [discriminate|]. destruct (N.eqb_spec d c) as [->|]; [|discriminate]. intros [= <- <-]. exists [c]. auto.
  - intros (w & -> & (-> & ->) & _). cbn. rewrite N.eqb_refl. reflexivity.
Qed.
Lemma strip_iff u s r : strip u s = Some r <-> s = u ++ r.
Proof.
  revert s. induction u as [|c u IH]; intros s; cbn [strip app]; [split; congruence|].
  destruct s as [|d s]; [split; discriminate|]. destruct (N.eqb_spec c d) as [->|Hne].
  - rewrite IH. split; congruence.
  - split; [discriminate|]. congruence.
Qed.
Lemma tag_iff u s r a : tag u s = Ok r a <-> s = u ++ r /\ a = u.
Proof.
  unfold tag, need_more, at_eof. destruct (strip u s) as [x|] eqn:E.
  - apply strip_iff in E. subst s. split; [intros [= -> ->]; auto|]. intros [E ->]. apply app_inv_head in E. subst. reflexivity.
  - split; [discriminate|]. intros [E' ->]. apply strip_iff in E'. congruence.
Qed.
Lemma tag_word u s r a : tag u s = Ok r a <-> exists w, s = w ++ r /\ (w = u /\ a = u) /\ True.
Proof. rewrite tag_iff. split; [intros [-> ->]; eauto|]. intros (w & -> & (-> & ->) & _). auto. Qed.
Lemma take0_word f s r a : take_while0 f s = Ok r a <-> exists w, s = w ++ r /\ (w = a /\ forallb f w = true) /\ ends f r.
Proof.
  unfold take_while0. destruct (span f s) as [x y] eqn:E. split.
  - apply span_longest in E as (-> & H1 & H2). intros [= <- <-]. eauto 6.
  - intros (w & -> & (-> & H1) & H2). rewrite (span_all _ _ _ H1 H2) in E. injection E as <- <-. reflexivity.
Qed.
Lemma take1_word f s r a : take_while1 f s = Ok r a <-> exists w, s = w ++ r /\ (w = a /\ w <> [] /\ forallb f w = true) /\ ends f r.
Proof.
  unfold take_while1. destruct (span f s) as [x y] eqn:E. split.
  - apply span_longest in E as (-> & H1 & H2). destruct x as [|c x]; [discriminate|]. intros [= <- <-].
    exists (c :: x). repeat split; auto. discriminate.
  - intros (w & -> & (-> & H0 & H1) & H2). rewrite (span_all _ _ _ H1 H2) in E. injection E as <- <-. destruct a; congruence.
Qed.

Section Tokens.
  Variable P : str -> str -> Prop.
  Hypothesis HP : keeps P.
  Notation sim := (sim (rn P)).

  Lemma sim_char c : solid c = true -> sim eq (char_ c) (char_ c).
  Proof.
    intros Hc. eapply sim_word; [apply char_word| |auto|exact HP]. intros w a [-> _]. cbn. rewrite Hc. reflexivity.
  Qed.
  Lemma sim_tag u : forallb solid u = true -> sim eq (tag u) (tag u).
  Proof. intros Hu. eapply sim_word; [apply tag_word| |auto|exact HP]. intros w a [-> _]. exact Hu. Qed.
  Lemma sim_take_while0 f : forallb (fun c => negb (f c)) (lowers ++ uppers) = true -> sim eq (take_while0 f) (take_while0 f).
  Proof.
    intros Hf. eapply sim_word; [apply take0_word| | |exact HP].
    - intros w a [_ Hw]. eapply solid_class; eassumption.
    - cbn beta. intros Q r r' H. eapply rn_ends; [apply uniform_class, Hf|exact H].
  Qed.
  Lemma sim_take_while1 f : forallb (fun c => negb (f c)) (lowers ++ uppers) = true -> sim eq (take_while1 f) (take_while1 f).
  Proof.
    intros Hf. eapply sim_word; [apply take1_word| | |exact HP].
    - intros w a (_ & _ & Hw). eapply solid_class; eassumption.
    - cbn beta. intros Q r r' H. eapply rn_ends; [apply uniform_class, Hf|exact H].
  Qed.
  Lemma sim_operator : sim eq operator operator.
  Proof.
    apply (sim_word operator (fun w n => w = n /\ operator_name n) (fun r => ends is_op_char r)).
    - intros s r a. rewrite operator_iff. split.
      + intros (-> & H1 & H2). exists a. auto.
      + intros (w & -> & (-> & H1) & H2). auto.
    - intros w a [-> (_ & H & _)]. apply (solid_class is_op_char); auto.
    - intros Q r r' H. eapply rn_ends; [apply uniform_class|exact H]. reflexivity.
    - exact HP.
  Qed.
End Tokens.

(** ** Names *)
Lemma fw_lo_name P : keeps P -> fw (rn P) (rn P) lo_name lo_name.
Proof.
  intros HP s s' r n Hs H. apply lo_name_iff in H as (-> & Hn & Hr).
  destruct Hn as [->|[(c & t & -> & Hc & Ht) Hnot]].
  - destruct (rn_solid _ _ (L "_") r s' eq_refl Hs) as (r' & -> & Hr'). exists r', (L "_"), (L "_"), (L "_"). split.
    + apply lo_name_iff. split; [reflexivity|]. split; [left; reflexivity|left; reflexivity].
    + split; [|tauto]. apply rn_char; [reflexivity|discriminate|constructor].
  - assert (Hr1 : ends is_name_char r).
    { destruct Hr as [E|Hr]; [|exact Hr]. injection E as -> ->. discriminate Hc. }
    destruct (rn_cut _ _ _ _ _ Hs Hr1) as (n' & r' & -> & Hn' & Hr').
    exists r', n', (c :: t), n'. split.
    + apply lo_name_iff. split; [reflexivity|]. split.
      * right. assert (Hc2 : forallb is_name_char n' = true).
        { eapply rn_class; [|exact Hn'|]; [auto|]. cbn. rewrite Ht, (letter_name c); [reflexivity|]. unfold is_letter. rewrite Hc. reflexivity. }
        pose proof (rn_head _ _ _ _ Hn') as Hh. destruct n' as [|c' t']; [destruct Hh|]. split.
        { exists c', t'. split; [reflexivity|]. cbn in Hc2. apply andb_true_iff in Hc2 as [_ Hc2]. split; [|exact Hc2].
          destruct Hh as [[_ Hh]|[[_ Hh]|[Hh _]]]; [|exact Hh|]; exfalso.
          - unfold is_letter in Hh. rewrite Hc in Hh. discriminate Hh.
          - apply lower_not_upper in Hc. congruence. }
        { intros Hin. apply Hnot. apply rn_sym in Hn'. rewrite <- (app_nil_r (c' :: t')) in Hn'.
          destruct (rn_keyword _ _ _ _ _ (keeps_back _ HP) (in_or_app _ _ _ (or_introl Hin)) Hn' I) as (x & E & Hx & _).
          apply rn_nil_l in Hx. subst x. rewrite app_nil_r in E. rewrite E. exact Hin. }
      * right. eapply rn_ends; eauto using uniform_name.
    + split; [exact Hn'|]. split; [exact Hr'|]. split; [reflexivity|]. split; [reflexivity|]. apply (rn_empty _ _ _ _ Hn').
Qed.
Lemma rn_one_small (P : str -> str -> Prop) p p' : type_var_name p -> type_var_name p' -> P p p' -> rn P p p'.
Proof. intros H1 H2 H3. rewrite <- (app_nil_r p), <- (app_nil_r p'). apply rn_lower; auto; [exact I|exact I|constructor]. Qed.
Lemma rn_one_capital (P : str -> str -> Prop) p p' : upper_name p -> upper_name p' -> P p p' -> rn P p p'.
Proof. intros H1 H2 H3. rewrite <- (app_nil_r p), <- (app_nil_r p'). apply rn_upper; auto; [exact I|exact I|constructor]. Qed.
Lemma small_not_nil p : type_var_name p -> p <> [].
Proof. intros (c & t & -> & _). discriminate. Qed.
Lemma capital_not_nil p : upper_name p -> p <> [].
Proof. intros (c & t & -> & _). discriminate. Qed.
Lemma fw_up_name P : keeps P -> fw (rn P) (rn P) up_name up_name.
Proof.
  intros HP s s' r n Hs H. apply up_name_iff in H as (-> & Hn & Hr).
  destruct (rn_capital _ _ _ _ _ Hs Hn Hr) as (n' & r' & -> & Hn' & Hnn & He & Hr'). exists r', n', n, n'.
  split; [apply up_name_iff; auto|]. split; [apply rn_one_capital; assumption|]. split; [exact Hr'|].
  split; [reflexivity|]. split; [reflexivity|]. apply capital_not_nil in Hn, Hn'. tauto.
Qed.
Lemma fw_type_variable P : keeps P ->
  fw (rn P) (fun t t' => exists n n', t = TypeVariable n /\ t' = TypeVariable n' /\ rn P n n') type_variable type_variable.
Proof.
  intros HP s s' r t Hs H. apply type_variable_iff in H as (n & -> & -> & Hn & Hr).
  destruct (rn_small _ _ _ _ _ Hs Hn Hr) as (n' & r' & -> & Hn' & Hnn & He & Hr'). exists r', (TypeVariable n'), n, n'.
  split; [apply type_variable_iff; eauto|]. split; [exists n, n'; auto using rn_one_small|]. split; [exact Hr'|].
  split; [reflexivity|]. split; [reflexivity|]. apply small_not_nil in Hn, Hn'. tauto.
Qed.

(** ** Keywords *)
Definition on_name (s : str) : Prop := match s with [] => False | c :: _ => is_name_char c = true end.
Lemma on_name_dec s : on_name s \/ ends is_name_char s.
Proof. destruct s as [|c s]; cbn; [auto|]. destruct (is_name_char c); auto. Qed.
(** [p] does not start with a letter, a digit or an underscore *)
Definition stops {A} (p : parser A) : Prop := forall s, on_name s -> p s = Err.
Lemma stops_bind {A B} (p : parser A) (f : A -> parser B) : stops p -> stops (bind p f).
Proof. intros H s Hs. unfold bind. rewrite (H s Hs). reflexivity. Qed.
Lemma stops_take1 f : (forall c, is_name_char c = true -> f c = false) -> stops (take_while1 f).
Proof. intros H [|c s] Hs; [destruct Hs|]. unfold take_while1. cbn [span]. rewrite (H c Hs). reflexivity. Qed.
Lemma stops_class f : (forall c, f c = true -> is_name_char c = false) -> stops (take_while1 f).
Proof. intros H. apply stops_take1. intros c Hc. destruct (f c) eqn:E; [|reflexivity]. apply H in E. congruence. Qed.
Lemma mem_not_name cs : forallb (fun c => negb (is_name_char c)) cs = true -> forall c, mem_char c cs = true -> is_name_char c = false.
Proof.
  intros H c Hc. unfold mem_char in Hc. apply existsb_exists in Hc as (d & Hd & E). apply N.eqb_eq in E. subst d.
  rewrite forallb_forall in H. apply negb_true_iff, H, Hd.
Qed.
Lemma stops_spaces : stops spaces. Proof. apply stops_class, mem_not_name. reflexivity. Qed.
Lemma stops_multispace : stops multispace. Proof. apply stops_class, mem_not_name. reflexivity. Qed.
Lemma stops_sp i ir : stops (spaces_or_new_lines_and_indent i ir).
Proof.
  intros s Hs. destruct (spaces_or_new_lines_and_indent i ir s) as [r a| |w] eqn:E; [exfalso|reflexivity|exfalso].
  - apply sp_iff in E as (t & (-> & Ht & _ & _) & Hne & _). destruct Ht; [congruence| | |]; discriminate Hs.
  - destruct (trivia_run_exists s) as (t & r & Hrun).
    destruct (sp_run i ir s t r Hrun) as [[_ H]|[(_ & _ & H)|(_ & _ & H)]]; congruence.
Qed.

Section Keywords.
  Variable P : str -> str -> Prop.
  Hypothesis HP : keeps P.
  Notation sim := (sim (rn P)).

  Lemma keyword_there k s s' : In k keywords -> rn P s s' ->
    (exists r r', s = k ++ r /\ s' = k ++ r' /\ rn P r r' /\ P k k /\ ends is_name_char r /\ ends is_name_char r') \/
    ((forall r, s = k ++ r -> on_name r) /\ (forall r, s' = k ++ r -> on_name r)).
  Proof.
    intros Hk Hs.
    destruct (strip k s) as [r|] eqn:E.
    { apply strip_iff in E. destruct (on_name_dec r) as [Hr|Hr].
      - right. split; [intros x Ex; rewrite E in Ex; apply app_inv_head in Ex; subst; exact Hr|].
        intros r' E'. destruct (on_name_dec r') as [Hr'|Hr']; [exact Hr'|exfalso].
        subst s s'. apply rn_sym in Hs. destruct (rn_keyword _ _ _ _ _ (keeps_back _ HP) Hk Hs Hr') as (x & Ex & _ & _ & Hx).
        apply app_inv_head in Ex. subst x. destruct r; [destruct Hr|]. cbn in *. congruence.
      - left. subst s. destruct (rn_keyword _ _ _ _ _ HP Hk Hs Hr) as (r' & -> & Hr' & HPk & He). exists r, r'. auto 8. }
    right. split; [intros r Er; apply strip_iff in Er; congruence|].
    intros r' E'. destruct (on_name_dec r') as [Hr'|Hr']; [exact Hr'|exfalso].
    subst s'. apply rn_sym in Hs. destruct (rn_keyword _ _ _ _ _ (keeps_back _ HP) Hk Hs Hr') as (x & Ex & _ & _ & _).
    apply strip_iff in Ex. congruence.
  Qed.
  Lemma tag_stops {A} k (f : str -> parser A) s : (forall r, s = k ++ r -> on_name r) -> stops (f k) -> bind (tag k) f s = Err.
  Proof.
    intros H Hf. unfold bind. destruct (tag k s) as [r a| |w] eqn:E; [|reflexivity|].
    - apply tag_iff in E as [E ->]. apply Hf, H, E.
    - unfold tag, need_more in E. destruct (strip k s); discriminate E.
  Qed.
  Lemma sim_keyword {A B} (RA : A -> B -> Prop) k f f' : In k keywords -> stops (f k) -> stops (f' k) ->
    (P k k -> sim RA (f k) (f' k)) -> sim RA (bind (tag k) f) (bind (tag k) f').
  Proof.
    intros Hk Hf Hf' H s s' Hs. destruct (keyword_there k s s' Hk Hs) as [(r & r' & -> & -> & Hr & HPk & _)|[H1 H2]].
    - eapply rel_bind with (RA := fun a a' => a = k /\ a' = k).
      + assert (E : forall r, tag k (k ++ r) = Ok r k) by (intros x; apply tag_iff; auto). rewrite !E.
        apply rel_step; [auto|exact Hr|tauto].
      + intros a a' [-> ->]. apply H, HPk.
    - rewrite !tag_stops by assumption. exact I.
  Qed.
End Keywords.

(** ** Layout *)
Definition lines_agree (t t' : str) : Prop :=
  (t = [] <-> t' = []) /\ has_newline t' = has_newline t /\
  all_spaces (last_line t') = all_spaces (last_line t) /\
  (all_spaces (last_line t) = true -> last_line t' = last_line t).
Lemma agree_space t t' : lines_agree t t' -> lines_agree (space :: t) (space :: t').
Proof.
  intros (H1 & H2 & H3 & H4). split; [split; discriminate|].
  change (space :: t) with ([space] ++ t). change (space :: t') with ([space] ++ t').
  rewrite !has_newline_app, H2. split; [reflexivity|]. destruct (has_newline t) eqn:E.
  - rewrite !last_line_app_newline by congruence. auto.
  - rewrite !last_line_app_plain, !all_spaces_app by congruence. rewrite !last_line_no_newline in * by congruence.
    rewrite H3. split; [reflexivity|]. intros H. apply andb_true_iff in H as [_ H]. rewrite (H4 H). reflexivity.
Qed.
Lemma agree_newline t t' : lines_agree t t' -> lines_agree (newline :: t) (newline :: t').
Proof.
  intros (H1 & H2 & H3 & H4). split; [split; discriminate|]. split; [reflexivity|].
  cbn [last_line]. rewrite H2. destruct (has_newline t) eqn:E; [auto|]. change (newline =? newline)%N with true. cbv iota.
  rewrite !last_line_no_newline in * by congruence. auto.
Qed.
Lemma agree_comment c c' t t' : forallb not_newline c = true -> forallb not_newline c' = true -> lines_agree t t' ->
  lines_agree (L "--" ++ c ++ t) (L "--" ++ c' ++ t').
Proof.
  intros Hc Hc' (H1 & H2 & H3 & H4). split; [split; discriminate|].
  rewrite !app_assoc, !has_newline_app. apply not_newline_no_newline in Hc, Hc'. rewrite Hc, Hc', H2.
  change (has_newline (L "--")) with false. cbn [orb]. split; [reflexivity|]. destruct (has_newline t) eqn:E.
  - rewrite !last_line_app_newline by congruence. auto.
  - rewrite !last_line_app_plain, !all_spaces_app by congruence. split; [reflexivity|]. discriminate.
Qed.
Lemma rn_no_trivia P s s' : rn P s s' -> no_trivia s -> no_trivia s'.
Proof.
  intros H Hs. pose proof (rn_head _ _ _ _ H) as Hh. destruct s as [|c s], s' as [|c' s']; try tauto.
  destruct Hs as (H1 & H2 & H3).
  assert (Hl : forall d, similar c c' -> is_letter d = false -> c' = d -> c = d).
  { intros d [[-> _]|[[_ E]|[_ E]]] Hd ->; [reflexivity| |]; unfold is_letter in Hd; rewrite E in Hd; [|rewrite orb_true_r in Hd]; discriminate Hd. }
  split; [intros E; apply H1, (Hl space Hh eq_refl E)|]. split; [intros E; apply H2, (Hl newline Hh eq_refl E)|].
  intros [-> (r & ->)]. apply rn_sym in H. destruct (rn_solid _ _ (L "--") r (c :: s) eq_refl H) as (b & E & _).
  injection E as -> ->. apply H3. eauto.
Qed.
Lemma line_end_ends r : line_end r -> ends is_name_char r.
Proof. destruct r as [|c r]; [auto|]. cbn. intros ->. reflexivity. Qed.
Lemma rn_line_end P r r' : rn P r r' -> line_end r -> line_end r'.
Proof.
  intros H Hr. apply not_newline_ends. apply not_newline_ends in Hr. eapply rn_ends; [|exact H|exact Hr].
  apply uniform_check. reflexivity.
Qed.
Lemma name_not_newline c : is_name_char c = true -> not_newline c = true.
Proof. unfold not_newline. intros H. destruct (N.eqb_spec c newline) as [->|]; [discriminate H|reflexivity]. Qed.
Lemma rn_trivia P t r w : trivia t -> (all_spaces (last_line t) = true \/ r = []) ->
  rn P (t ++ r) w -> exists t' r', w = t' ++ r' /\ trivia t' /\ rn P r r' /\ lines_agree t t'.
Proof.
  intros Ht. revert w. induction Ht as [|t Ht IH|t Ht IH|c t Hn Hl Ht IH]; intros w Hc H.
  - exists [], w. split; [reflexivity|]. split; [constructor|]. split; [exact H|]. unfold lines_agree. tauto.
  - destruct (rn_cons _ _ _ _ _ H) as (w1 & -> & H1 & _); [reflexivity|].
    destruct (IH w1) as (t' & r' & -> & Ht' & Hr' & Ha); [eapply last_line_cons_spaces, Hc|exact H1|].
    exists (space :: t'), r'. split; [reflexivity|]. split; [constructor; exact Ht'|]. split; [exact Hr'|]. apply agree_space, Ha.
  - destruct (rn_cons _ _ _ _ _ H) as (w1 & -> & H1 & _); [reflexivity|].
    destruct (IH w1) as (t' & r' & -> & Ht' & Hr' & Ha); [eapply last_line_cons_spaces, Hc|exact H1|].
    exists (newline :: t'), r'. split; [reflexivity|]. split; [constructor; exact Ht'|]. split; [exact Hr'|]. apply agree_newline, Ha.
  - rewrite <- !app_assoc in H. destruct (rn_solid _ _ (L "--") _ _ eq_refl H) as (w1 & -> & H1).
    assert (Hg : line_end (t ++ r)).
    { destruct t as [|d t]; [|exact Hl]. destruct Hc as [Hc| ->]; [|exact I].
      rewrite app_nil_r in Hc. rewrite last_line_no_newline in Hc; [discriminate Hc|].
      rewrite has_newline_app. apply not_newline_no_newline in Hn. rewrite Hn. reflexivity. }
    destruct (rn_cut _ _ _ _ _ H1 (line_end_ends _ Hg)) as (c' & w2 & -> & Hc' & H2).
    destruct (IH w2) as (t' & r' & -> & Ht' & Hr' & Ha); [|exact H2|].
    { destruct Hc as [Hc|Hc]; [left|right; exact Hc]. rewrite app_assoc in Hc. destruct (has_newline t) eqn:E.
      - rewrite last_line_app_newline in Hc by exact E. exact Hc.
      - rewrite last_line_app_plain, all_spaces_app in Hc by exact E. rewrite last_line_no_newline by exact E.
        apply andb_true_iff in Hc. apply Hc. }
    assert (Hn' : forallb not_newline c' = true) by (eapply rn_class; [exact name_not_newline|exact Hc'|exact Hn]).
    exists (L "--" ++ c' ++ t'), r'. split; [rewrite <- !app_assoc; reflexivity|]. split.
    + constructor; auto. destruct t as [|d t].
      * destruct Ha as ((Ha & _) & _). rewrite (Ha eq_refl). exact I.
      * apply (rn_line_end _ _ _ H2) in Hg. destruct t' as [|d' t']; [exact I|exact Hg].
    + split; [exact Hr'|]. apply agree_comment; assumption.
Qed.
Lemma fw_sp P i ir : fw (rn P) eq (spaces_or_new_lines_and_indent i ir) (spaces_or_new_lines_and_indent i ir).
Proof.
  intros s s' r a Hs H. apply sp_iff in H as (t & (-> & Ht & Hr & Hc) & Hne & Hacc & ->).
  destruct (rn_trivia P t r s' Ht Hc Hs) as (t' & r' & -> & Ht' & Hr' & (A1 & A2 & A3 & A4)).
  assert (Hw : width i t' = width i t).
  { unfold width. rewrite A2, A3. destruct (all_spaces (last_line t)); [|reflexivity]. rewrite A4 by reflexivity. reflexivity. }
  exists r', (width i t), t, t'. split.
  { apply sp_iff. exists t'. split.
    - split; [reflexivity|]. split; [exact Ht'|]. split; [eapply rn_no_trivia; eassumption|]. rewrite A3.
      destruct Hc as [Hc| ->]; [auto|]. right. eapply rn_nil_l, Hr'.
    - split; [intros E; apply Hne, A1, E|]. split; [|congruence]. unfold accepts in *. rewrite A2, Hw. exact Hacc. }
  auto.
Qed.
Lemma sim_sp P i ir : keeps P -> sim (rn P) eq (spaces_or_new_lines_and_indent i ir) (spaces_or_new_lines_and_indent i ir).
Proof. apply (fw_self (fun _ => eq)). intros Q _. apply fw_sp. Qed.

(** ** Strings, characters, comments *)
Lemma content_name p s : forallb is_name_char p = true -> (string_content (p ++ s) <-> string_content s).
Proof.
  induction p as [|c p IH]; intros Hp; [reflexivity|]. cbn in Hp. apply andb_true_iff in Hp as [Hc Hp]. cbn [app]. rewrite <- (IH Hp). split.
  - inversion 1; subst; auto; discriminate Hc.
  - apply sc_char; intros ->; discriminate Hc.
Qed.
Lemma rn_content P n : forall s s', length s < n -> rn P s s' -> string_content s -> string_content s'.
Proof.
  induction n as [|n IH]; intros s s' Hlen H Hs; [lia|].
  destruct (text_cases s) as [->|[(c & r & -> & Hc)|[(p & r & -> & Hp & Hr)|(p & r & -> & Hp & Hr)]]].
  - apply rn_nil_l in H. subst. constructor.
  - destruct (rn_cons _ _ _ _ _ H Hc) as (w & -> & H' & _). inversion Hs as [|c1 s1 Hc1 Hs1 E1|c1 s1 Hb Hq Hs1 E1|c1 s1 Hb Hq Hn Hs1 E1]; subst.
    + assert (Hl : is_letter c1 = false) by (destruct Hc1 as [-> | ->]; reflexivity).
      destruct (rn_cons _ _ _ _ _ H' Hl) as (w' & -> & H'' & _). apply sc_escape; [exact Hc1|].
      eapply IH; [|exact H''|exact Hs1]. cbn in Hlen. lia.
    + assert (Hw : string_content w) by (eapply IH; [|exact H'|exact Hs1]; cbn in Hlen |- *; lia).
      pose proof (rn_head _ _ _ _ H') as Hh. destruct w as [|c' w]; [destruct Hh|].
      assert (Hd : forall d, is_letter d = false -> c1 <> d -> c' <> d).
      { intros d Hd Hne ->. destruct Hh as [[-> _]|[[_ E]|[_ E]]]; [congruence| |]; unfold is_letter in Hd; rewrite E in Hd; [|rewrite orb_true_r in Hd]; discriminate Hd. }
      apply sc_backslash; auto.
    + apply sc_char; auto. eapply IH; [|exact H'|exact Hs1]. cbn in Hlen. lia.
  - destruct (rn_small _ _ _ _ _ H Hp Hr) as (p' & w & -> & Hp' & _ & _ & H').
    apply content_name; [apply tyvar_names, Hp'|]. apply (content_name p r (tyvar_names _ Hp)) in Hs.
    eapply IH; [|exact H'|exact Hs]. rewrite app_length in Hlen. apply small_not_nil in Hp. destruct p; [congruence|]. cbn in Hlen. lia.
  - destruct (rn_capital _ _ _ _ _ H Hp Hr) as (p' & w & -> & Hp' & _ & _ & H').
    apply content_name; [apply upper_names, Hp'|]. apply (content_name p r (upper_names _ Hp)) in Hs.
    eapply IH; [|exact H'|exact Hs]. rewrite app_length in Hlen. apply capital_not_nil in Hp. destruct p; [congruence|]. cbn in Hlen. lia.
Qed.
Lemma fw_single P : fw (rn P) (rn P) single_string single_string.
Proof.
  intros s s' r a Hs H. apply single_string_iff in H as [-> Hc].
  destruct (rn_cons _ _ _ _ _ Hs) as (w & -> & H1 & _); [reflexivity|].
  destruct (rn_cut _ _ _ _ _ H1) as (c' & w2 & -> & H2 & H3); [reflexivity|].
  destruct (rn_cons _ _ _ _ _ H3) as (w3 & -> & H4 & _); [reflexivity|].
  exists w3, c', (quote :: a ++ [quote]), (quote :: c' ++ [quote]). split.
  { apply single_string_iff. split; [reflexivity|]. eapply rn_content; [apply le_n|exact H2|exact Hc]. }
  split; [exact H2|]. split; [exact H4|]. cbn [app]. rewrite <- !app_assoc. cbn [app].
  split; [reflexivity|]. split; [reflexivity|]. split; discriminate.
Qed.
Lemma name_not_quote c : is_name_char c = true -> not_quote c = true.
Proof. unfold not_quote. intros H. destruct (N.eqb_spec c quote) as [->|]; [discriminate H|reflexivity]. Qed.
Lemma fw_multi P : fw (rn P) (rn P) multi_string multi_string.
Proof.
  intros s s' r a Hs H. apply multi_string_iff in H as [-> Hc].
  destruct (rn_solid _ _ quotes3 _ _ eq_refl Hs) as (w & -> & H1).
  destruct (rn_cut _ _ _ _ _ H1) as (c' & w2 & -> & H2 & H3); [reflexivity|].
  destruct (rn_solid _ _ quotes3 _ _ eq_refl H3) as (w3 & -> & H4).
  exists w3, c', (quotes3 ++ a ++ quotes3), (quotes3 ++ c' ++ quotes3). split.
  { apply multi_string_iff. split; [reflexivity|]. apply not_quote_iff. apply not_quote_iff in Hc.
    eapply rn_class; [exact name_not_quote|exact H2|exact Hc]. }
  split; [exact H2|]. split; [exact H4|]. rewrite <- !app_assoc.
  split; [reflexivity|]. split; [reflexivity|]. split; discriminate.
Qed.
Lemma hex_literal c v : hex_value c v -> is_literal_char c = true.
Proof.
  intros H. apply name_literal. unfold is_name_char, is_lower, is_upper, is_dec, between.
  change (C "a") with 97%N. change (C "z") with 122%N. change (C "A") with 65%N. change (C "Z") with 90%N.
  change (C "0") with 48%N. change (C "9") with 57%N. change (C "_") with 95%N.
  unfold hex_value, is_dec, between in H.
  change (C "a") with 97%N in H. change (C "f") with 102%N in H. change (C "A") with 65%N in H. change (C "F") with 70%N in H.
  change (C "0") with 48%N in H. change (C "9") with 57%N in H.
  rewrite !orb_true_iff, !andb_true_iff, !N.leb_le.
  destruct H as [[H _]|[[H _]|[H _]]]; apply andb_true_iff in H as [H1 H2]; apply N.leb_le in H1, H2; lia.
Qed.
Lemma fw_character P : fw (rn P) eq character character.
Proof.
  intros s s' r a Hs H. apply character_iff in H as (w & c & -> & -> & Hw).
  destruct (rn_cons _ _ _ _ _ Hs) as (w1 & -> & H1 & Hf); [reflexivity|]. destruct (Hf eq_refl eq_refl) as [F _].
  assert (G : exists r', w1 = w ++ squote :: r' /\ rn P r r').
  { assert (S : forallb is_literal_char w = true -> exists r', w1 = w ++ squote :: r' /\ rn P r r').
    { intros Hl. destruct (F w r eq_refl Hl) as (r' & ->). exists r'. split; [reflexivity|].
      destruct (rn_cut _ _ _ _ _ H1) as (w' & y & E & H2 & H3); [reflexivity|].
      destruct (rn_cons _ _ _ _ _ H3) as (r2 & -> & H4 & _); [reflexivity|].
      assert (Hl' : forallb is_literal_char w' = true) by (eapply rn_class; [exact name_literal|exact H2|exact Hl]).
      destruct (literal_no_squote _ _ _ _ Hl Hl' E) as [_ ->]. exact H4. }
    destruct Hw as [c|c d v w Hc Hd|d w Hd].
    - destruct (is_letter c) eqn:El.
      + apply S. cbn. rewrite (name_literal c); [reflexivity|]. apply letter_name, El.
      + destruct (rn_cons _ _ _ _ _ H1 El) as (w2 & -> & H2 & _).
        destruct (rn_cons _ _ _ _ _ H2) as (w3 & -> & H3 & _); [reflexivity|]. exists w3. auto.
    - apply S. cbn [forallb]. rewrite (hex_literal _ _ Hc), (hex_literal _ _ Hd). reflexivity.
    - apply S. cbn [forallb]. rewrite (hex_literal _ _ Hd). reflexivity. }
  destruct G as (r' & -> & Hr). exists r', (Character c), (squote :: w ++ [squote]), (squote :: w ++ [squote]).
  split; [apply character_iff; exists w, c; auto|]. split; [reflexivity|]. split; [exact Hr|].
  cbn [app]. rewrite <- !app_assoc. cbn [app]. split; [reflexivity|]. split; [reflexivity|]. reflexivity.
Qed.
Lemma fw_block P : fw (rn P) (rn P) (preceded (tag (L "{-")) (take_until_and_consume (L "-}"))) (preceded (tag (L "{-")) (take_until_and_consume (L "-}"))).
Proof.
  intros s s' r a Hs H. apply block_comment_iff in H as [-> Hc].
  destruct (rn_solid _ _ (L "{-") _ _ eq_refl Hs) as (w & -> & H1).
  destruct (rn_cut _ _ _ _ _ H1) as (c' & w2 & -> & H2 & H3); [reflexivity|].
  destruct (rn_solid _ _ (L "-}") _ _ eq_refl H3) as (w3 & -> & H4).
  exists w3, c', (L "{-" ++ a ++ L "-}"), (L "{-" ++ c' ++ L "-}"). split.
  { apply block_comment_iff. split; [reflexivity|]. intros (x & y & E). apply Hc. subst c'. apply rn_sym in H2.
    destruct (rn_cut _ _ _ _ _ H2) as (x' & y' & -> & _ & H5); [reflexivity|].
    destruct (rn_solid _ _ (L "-}") _ _ eq_refl H5) as (y2 & -> & _). exists x', y2. reflexivity. }
  split; [exact H2|]. split; [exact H4|]. rewrite <- !app_assoc.
  split; [reflexivity|]. split; [reflexivity|]. split; discriminate.
Qed.
Lemma fw_line P : fw (rn P) (rn P) single_line_comment single_line_comment.
Proof.
  intros s s' r a Hs H. apply single_line_comment_iff in H as (-> & Hc & Hr).
  destruct (rn_solid _ _ (L "--") _ _ eq_refl Hs) as (w & -> & H1).
  destruct (rn_cut _ _ _ _ _ H1 (line_end_ends _ Hr)) as (c' & w2 & -> & H2 & H3).
  exists w2, c', (L "--" ++ a), (L "--" ++ c'). split.
  { apply single_line_comment_iff. split; [reflexivity|]. split; [eapply rn_class; [exact name_not_newline|exact H2|exact Hc]|].
    eapply rn_line_end; eassumption. }
  split; [exact H2|]. split; [exact H3|]. rewrite <- !app_assoc.
  split; [reflexivity|]. split; [reflexivity|]. split; discriminate.
Qed.
