(** * Two runs on a whole text with different continuations: tokens and layout *)
From Verif Require Import Base Nom Regex Ast Good Spec Helpers Types Expr Lexers Total Layout Follow LexProps TwoRuns RenameSim Whole Steps.

(** ** Blanks and comments *)
Lemma comment_split c t x w : L "--" ++ c ++ t = L "--" ++ x ++ w -> forallb not_newline c = true -> line_end t ->
  forallb not_newline x = true -> line_end w -> c = x /\ t = w.
Proof.
  intros E H1 H2 H3 H4. apply app_inv_head in E. apply (run_unique not_newline); auto.
  - destruct t as [|h t]; [exact I|]. cbn in *. subst h. reflexivity.
  - destruct w as [|h w]; [exact I|]. cbn in *. subst h. reflexivity.
Qed.
Lemma drop_comment b d c w : forallb not_newline c = true -> line_end w -> whole b d (L "--" ++ c ++ w) -> whole b d w.
Proof.
  intros Hc Hw H. change (L "--" ++ c ++ w) with (C "-" :: C "-" :: c ++ w) in H. apply inv_op in H; [|reflexivity].
  destruct H as [(_ & H & _)|(x & w' & E & H1 & H2 & H3)]; [exfalso; apply H; eexists; reflexivity|].
  destruct (comment_split _ _ _ _ E Hc Hw H1 H2) as [_ ->]. exact H3.
Qed.
Lemma drop_blanks b d t w : forallb is_blank t = true -> whole b d (t ++ w) -> whole b d w.
Proof.
  induction t as [|c t IH]; intros Ht H; [exact H|]. cbn in Ht. apply andb_true_iff in Ht as [Hc Ht].
  apply IH; [exact Ht|]. eapply inv_other; [apply class_blank, Hc|exact H].
Qed.
Lemma closed_tail x t : closed (x ++ t) -> closed t.
Proof.
  unfold closed. destruct (has_newline t) eqn:E.
  - rewrite last_line_app_newline by exact E. auto.
  - rewrite last_line_app_plain by exact E. rewrite all_spaces_app, andb_true_iff. intros [_ H]. rewrite last_line_no_newline; assumption.
Qed.
Lemma drop_trivia b d t w : trivia t -> closed t \/ line_end w -> whole b d (t ++ w) -> whole b d w.
Proof.
  intros Ht. revert w. induction Ht as [|t Ht IH|t Ht IH|c t Hc Hle Ht IH]; intros w Hw H.
  - exact H.
  - apply IH; [destruct Hw as [Hw|Hw]; [left; apply (closed_tail [space]), Hw|auto]|]. eapply inv_other; [|exact H]. reflexivity.
  - apply IH; [destruct Hw as [Hw|Hw]; [left; apply (closed_tail [newline]), Hw|auto]|]. eapply inv_other; [|exact H]. reflexivity.
  - assert (Hl : line_end (t ++ w)).
    { destruct t as [|h t]; [|exact Hle]. destruct Hw as [Hw|Hw]; [|exact Hw]. rewrite app_nil_r in Hw. exfalso.
      unfold closed in Hw. rewrite last_line_no_newline in Hw; [discriminate Hw|]. apply not_newline_no_newline. exact Hc. }
    rewrite <- !app_assoc in H. apply drop_comment in H; [|exact Hc|exact Hl].
    apply IH; [destruct Hw as [Hw|Hw]; [left; apply (closed_tail (L "--" ++ c)); rewrite <- app_assoc; exact Hw|auto]|exact H].
Qed.
Lemma idle_depth b d w : idle w -> whole b d w -> d = 0.
Proof.
  intros H. induction H as [|c w Hc Hw IH|c w Hc Hl Hw IH]; intros H.
  - apply inv_nil in H. exact H.
  - apply IH. eapply inv_other; [apply class_blank, Hc|exact H].
  - apply IH. eapply drop_comment; eassumption.
Qed.
Lemma blanks_idle w : forallb is_blank w = true -> idle w.
Proof. induction w as [|c w IH]; intros H; [constructor|]. cbn in H. apply andb_true_iff in H as [Hc H]. constructor; auto. Qed.
Lemma prefix_in n r w v : n ++ r = w ++ newline :: v -> ~ In newline n -> exists w2, w = n ++ w2 /\ r = w2 ++ newline :: v.
Proof.
  revert w. induction n as [|c n IH]; intros w E Hn; [exists w; auto|]. destruct w as [|x w].
  - injection E as -> _. exfalso. apply Hn. left. reflexivity.
  - injection E as -> E. destruct (IH w E) as (w2 & -> & ->); [intros H; apply Hn; right; exact H|]. exists w2. auto.
Qed.
(** a text split in two ways *)
Lemma split_two (t r w v : str) : t ++ r = w ++ newline :: v ->
  (exists w2, w = t ++ w2 /\ r = w2 ++ newline :: v) \/ (exists t2, t = w ++ newline :: t2 /\ v = t2 ++ r).
Proof.
  revert w. induction t as [|c t IH]; intros w E; [left; exists w; auto|]. destruct w as [|x w].
  - injection E as -> E. right. exists t. auto.
  - injection E as -> E. destruct (IH w E) as [(w2 & -> & ->)|(t2 & -> & ->)]; [left; exists w2; auto|right; exists t2; auto].
Qed.
Lemma trivia_idle t : trivia t -> forall w v, t = w ++ newline :: v -> idle w.
Proof.
  induction 1 as [|t Ht IH|t Ht IH|c t Hc Hle Ht IH]; intros w v E.
  - destruct w; discriminate E.
  - destruct w as [|x w]; [constructor|]. injection E as <- E. apply idle_blank; [reflexivity|]. eapply IH, E.
  - destruct w as [|x w]; [constructor|]. injection E as <- E. apply idle_blank; [reflexivity|]. eapply IH, E.
  - rewrite app_assoc in E. apply prefix_in in E as (w2 & -> & E).
    + rewrite <- app_assoc. apply idle_comment; [exact Hc| |eapply IH, E]. destruct w2 as [|h w2]; [exact I|]. rewrite E in Hle. exact Hle.
    + intros H. apply in_app_iff in H as [H|H]; [repeat (destruct H as [H|H]; [discriminate H|]); destruct H|].
      rewrite forallb_forall in Hc. apply Hc in H. discriminate H.
Qed.

(** ** The relation

    [at_ Q P d v v' s s']: both texts begin with a text [w] that is whole with depth [d]
    and satisfies [P]; the first goes on with a line feed and [v], the second with a
    line feed and [v']. *)
Definition at_ (Q : bool -> Prop) (P : str -> Prop) (d : nat) (v v' s s' : str) : Prop :=
  exists b w, Q b /\ whole b d w /\ P w /\ s = w ++ newline :: v /\ s' = w ++ newline :: v'.
Definition on (_ : str) : Prop := True.
Definition busy (w : str) : Prop := ~ idle w.
Definition code (w : str) : Prop := ~ dashes w.
Definition busy_code (w : str) : Prop := ~ idle w /\ ~ dashes w.
Definition either (_ : bool) : Prop := True.
Definition typed (b : bool) : Prop := b = true.

Lemma at_weak (Q Q' : bool -> Prop) (P P' : str -> Prop) d v v' s s' : (forall b, Q b -> Q' b) -> (forall w, P w -> P' w) ->
  at_ Q P d v v' s s' -> at_ Q' P' d v v' s s'.
Proof. intros HQ HP (b & w & H1 & H2 & H3 & H4 & H5). exists b, w. auto. Qed.
Lemma at_busy Q P d v v' s s' : at_ Q P (S d) v v' s s' -> at_ Q busy (S d) v v' s s'.
Proof.
  intros (b & w & H1 & H2 & H3 & H4 & H5). exists b, w. repeat split; auto. intros H. apply (idle_depth _ _ _ H) in H2. discriminate.
Qed.

(** A token: no line feed inside, and what may follow is decided by the next characters of [w]. *)
Definition local (Z : str -> Prop) : Prop := forall w v v', Z (w ++ newline :: v) -> Z (w ++ newline :: v').
Lemma local_ends f : f newline = false -> local (ends f).
Proof. intros Hf w v v'. destruct w; cbn; auto. Qed.
Lemma local_true : local (fun _ => True).
Proof. intros w v v'. auto. Qed.
Lemma step_token {A} (p : parser A) (W : str -> A -> Prop) (Z : str -> str -> Prop) (Q Q' : bool -> Prop) (P P' : str -> Prop) d d' v v' :
  (forall s r a, p s = Ok r a <-> exists t, s = t ++ r /\ W t a /\ Z t r) ->
  (forall t a, W t a -> ~ In newline t) -> (forall t, local (Z t)) ->
  (forall b t a w u, Q b -> whole b d (t ++ w) -> P (t ++ w) -> W t a -> Z t (w ++ newline :: u) ->
    exists b', Q' b' /\ whole b' d' w /\ P' w) ->
  step (at_ Q P d v v') (at_ Q' P' d' v v') p p.
Proof.
  intros Hp Hn HZ Hd s s' (b & w & HQ & Hw & HP & -> & ->).
  assert (K : forall v v' r a, p (w ++ newline :: v) = Ok r a -> exists t w2, w = t ++ w2 /\ r = w2 ++ newline :: v /\
    p (w ++ newline :: v') = Ok (w2 ++ newline :: v') a /\ exists b', Q' b' /\ whole b' d' w2 /\ P' w2).
  { intros u u' r a H. apply Hp in H as (t & E & HW & Ht). symmetry in E. destruct (prefix_in _ _ _ _ E (Hn _ _ HW)) as (w2 & -> & ->).
    exists t, w2. split; [reflexivity|]. split; [reflexivity|]. split.
    - apply Hp. exists t. rewrite <- app_assoc. split; [reflexivity|]. split; [exact HW|]. eapply HZ, Ht.
    - eapply Hd; eassumption. }
  destruct (p (w ++ newline :: v)) as [r a| |] eqn:E1; [|..].
  - destruct (K v v' r a E1) as (t & w2 & -> & -> & -> & b' & HQ' & Hw' & HP'). cbn. split; [reflexivity|]. split; [exists b', w2; auto|].
    exists t. rewrite <- !app_assoc. auto.
  - destruct (p (w ++ newline :: v')) as [r a| |] eqn:E2; try exact I.
    destruct (K v' v r a E2) as (t & w2 & _ & _ & E & _). congruence.
  - exact I.
Qed.

(** ** Tokens *)
Lemma no_newline_class f t : f newline = false -> forallb f t = true -> ~ In newline t.
Proof. intros Hf Ht H. rewrite forallb_forall in Ht. apply Ht in H. congruence. Qed.
Lemma lower_not_newline n : lower_name n -> ~ In newline n /\ n <> [] /\ forallb is_name_char n = true.
Proof.
  intros H. assert (Hn : n <> [] /\ forallb is_name_char n = true).
  { destruct H as [->|[(c & t & -> & Hc & Ht) _]]; [split; [discriminate|reflexivity]|]. split; [discriminate|].
    cbn. rewrite Ht, andb_true_r. unfold is_name_char. rewrite Hc. reflexivity. }
  destruct Hn as [Hn Hn']. split; [|auto]. apply (no_newline_class is_name_char); auto.
Qed.
Lemma lower_case_split n w v : lower_name n -> n = L "_" \/ ends is_name_char (w ++ newline :: v) -> forall b d, whole b d (n ++ w) -> whole b d w.
Proof.
  intros Hn He b d H. destruct He as [->|He].
  - apply (drop_digits b d (L "_")); [discriminate|reflexivity|exact H].
  - assert (He' : ends is_name_char w) by (destruct w; [exact I|exact He]).
    destruct (lower_not_newline n Hn) as (_ & Hne & Hc). destruct Hn as [->|[_ Hr]].
    + apply (drop_digits b d (L "_")); [discriminate|reflexivity|exact H].
    + apply drop_word in H; auto; intros ->; apply Hr; cbn; tauto.
Qed.
Section Tokens.
  Variables (Q : bool -> Prop) (d : nat) (v v' : str).
  Lemma step_lo_name : step (at_ Q on d v v') (at_ Q on d v v') lo_name lo_name.
  Proof.
    apply (step_token lo_name (fun t a => t = a /\ lower_name a) (fun t r => t = L "_" \/ ends is_name_char r)).
    - intros s r a. rewrite lo_name_iff. split; [intros (-> & H1 & H2); exists a; auto|intros (t & -> & [-> H] & H2); auto].
    - intros t a [-> H]. apply lower_not_newline, H.
    - intros t w u u' [H|H]; [auto|]. right. revert H. apply local_ends. reflexivity.
    - intros b t a w u HQ Hw _ [-> Hn] Hz. exists b. split; [exact HQ|]. split; [|exact I]. eapply lower_case_split; eassumption.
  Qed.
  Lemma upper_run n : upper_name n -> n <> [] /\ forallb is_name_char n = true /\ ~ In n reserved_words.
  Proof.
    intros (c & t & -> & Hc & Ht). split; [discriminate|]. split.
    - cbn. rewrite Ht, andb_true_r. unfold is_name_char. rewrite Hc, orb_true_r. reflexivity.
    - intros H. repeat (destruct H as [H|H]; [injection H as <- _; discriminate Hc|]). destruct H.
  Qed.
  Lemma step_up_name : step (at_ Q on d v v') (at_ Q on d v v') up_name up_name.
  Proof.
    apply (step_token up_name (fun t a => t = a /\ upper_name a) (fun _ r => ends is_name_char r)).
    - intros s r a. rewrite up_name_iff. split; [intros (-> & H1 & H2); exists a; auto|intros (t & -> & [-> H] & H2); auto].
    - intros t a [-> H]. destruct (upper_run _ H) as (_ & H1 & _). apply (no_newline_class is_name_char); auto.
    - intros t. apply local_ends. reflexivity.
    - intros b t a w u HQ Hw _ [-> Hn] Hz. exists b. split; [exact HQ|]. split; [|exact I]. destruct (upper_run _ Hn) as (H1 & H2 & H3).
      assert (He : ends is_name_char w) by (destruct w; [exact I|exact Hz]).
      apply drop_word in Hw; auto; intros ->; apply H3; cbn; tauto.
  Qed.
  Lemma step_run f : f newline = false -> (forall c, f c = true -> class c = 7) ->
    step (at_ Q on d v v') (at_ Q on d v v') (take_while1 f) (take_while1 f).
  Proof.
    intros Hf Hc. apply (step_token _ (fun t a => t = a /\ t <> [] /\ forallb f t = true) (fun _ r => ends f r)).
    - intros s r a. apply take1_word.
    - intros t a (_ & _ & H). apply (no_newline_class f); auto.
    - intros t. apply local_ends, Hf.
    - intros b t a w u HQ Hw _ (_ & _ & Ht) _. exists b. split; [exact HQ|]. split; [|exact I]. clear a. revert Hw. induction t as [|c t IH]; [auto|].
      cbn in Ht. apply andb_true_iff in Ht as [H1 Ht]. intros Hw. apply IH; [exact Ht|]. eapply inv_other; [apply Hc, H1|exact Hw].
  Qed.
  Lemma class_mem cs : forallb (fun c => class c =? 7) cs = true -> forall c, mem_char c cs = true -> class c = 7.
  Proof. apply mem_class. Qed.
  Lemma step_spaces : step (at_ Q on d v v') (at_ Q on d v v') spaces spaces.
  Proof. apply step_run; [reflexivity|]. apply class_mem. reflexivity. Qed.
  Lemma step_commas : step (at_ Q on d v v') (at_ Q on d v v') (is_a (L ",")) (is_a (L ",")).
  Proof. apply step_run; [reflexivity|]. apply class_mem. reflexivity. Qed.
  Lemma step_space1 : step (at_ Q on d v v') (at_ Q on d v v') space1 space1.
  Proof.
    unfold space1. apply step_run; [reflexivity|]. apply class_mem. reflexivity.
  Qed.
  Lemma step_char (P' : str -> Prop) (Q' : bool -> Prop) d' c : c <> newline ->
    (forall b w, Q b -> whole b d (c :: w) -> exists b', Q' b' /\ whole b' d' w /\ P' w) ->
    step (at_ Q on d v v') (at_ Q' P' d' v v') (char_ c) (char_ c).
  Proof.
    intros Hc H. apply (step_token _ (fun t a => t = [c] /\ a = c) (fun _ _ => True)).
    - intros s r a. apply char_word.
    - intros t a [-> _] [E|E]; [congruence|destruct E].
    - intros t. apply local_true.
    - intros b t a w u HQ Hw _ [-> _] _. exact (H b w HQ Hw).
  Qed.
  Lemma step_comma : step (at_ Q on d v v') (at_ Q on d v v') (char_ (C ",")) (char_ (C ",")).
  Proof. apply step_char; [discriminate|]. intros b w HQ H. exists b. split; [exact HQ|]. split; [|exact I]. eapply inv_other; [|exact H]. reflexivity. Qed.
  Lemma step_open c : is_open c = true -> step (at_ Q on d v v') (at_ Q on (S d) v v') (char_ c) (char_ c).
  Proof.
    intros Hc. apply class_open in Hc. apply step_char; [intros ->; discriminate Hc|]. intros b w HQ H. exists b. split; [exact HQ|].
    apply inv_open in H as (_ & _ & H); [|exact Hc]. split; [exact H|exact I].
  Qed.
  Lemma step_paren : step (at_ Q on d v v') (at_ Q code (S d) v v') (char_ (C "(")) (char_ (C "(")).
  Proof.
    apply step_char; [discriminate|]. intros b w HQ H. exists b. split; [exact HQ|].
    apply inv_open in H as (H1 & _ & H); [|reflexivity]. split; [exact H|exact (H1 eq_refl)].
  Qed.
  Lemma step_op_char c : is_op_char c = true -> c <> C "-" -> c <> C "=" -> c <> C ":" ->
    step (at_ Q on d v v') (at_ Q busy_code d v v') (char_ c) (char_ c).
  Proof.
    intros Hc H1 H2 H3. apply class_op in Hc. apply step_char; [intros ->; discriminate Hc|]. intros b w HQ H. exists b. split; [exact HQ|].
    apply inv_op in H; [|exact Hc]. destruct H as [(K1 & K2 & K3 & K4)|(x & y & E & _)]; [|injection E as -> _; congruence].
    split; [|split; assumption]. unfold after_op in K4. apply N.eqb_neq in H2, H3. rewrite H2, H3 in K4. exact K4.
  Qed.
  Lemma step_arrow : step (at_ Q on d v v') (at_ Q busy_code d v v') (tag (L "->")) (tag (L "->")).
  Proof.
    apply (step_token _ (fun t a => t = L "->" /\ a = L "->") (fun _ _ => True)).
    - intros s r a. apply tag_word.
    - intros t a [-> _] H. repeat (destruct H as [H|H]; [discriminate H|]). destruct H.
    - intros t. apply local_true.
    - intros b t a w u HQ Hw _ [-> _] _. exists b. split; [exact HQ|].
      apply inv_op in Hw; [|reflexivity]. destruct Hw as [(_ & _ & _ & Hw)|(x & y & E & _)]; [|discriminate E].
      apply inv_op in Hw; [|reflexivity]. destruct Hw as [(K1 & K2 & K3 & K4)|(x & y & E & _)]; [|discriminate E].
      split; [exact K4|split; assumption].
  Qed.
  Lemma drop_sign b sg x w : sign_text sg -> digits1 x -> whole b d (sg ++ x ++ w) -> whole b d w.
  Proof.
    intros Hs [Hx Hd] H.
    assert (Hw : whole b d (x ++ w)).
    { destruct x as [|c x]; [congruence|]. cbn in Hd. apply andb_true_iff in Hd as [Hc _].
      destruct Hs as [->|[->| ->]]; [exact H|..]; cbn [app] in H; (apply inv_op in H; [|reflexivity]).
      - destruct H as [(_ & _ & _ & H)|(y & z & E & _)]; [exact H|discriminate E].
      - destruct H as [(_ & _ & _ & H)|(y & z & E & _)]; [exact H|]. injection E as -> _. discriminate Hc. }
    apply (drop_digits b d x); [exact Hx| |exact Hw]. rewrite forallb_forall in *. intros c Hc. rewrite (Hd c Hc). reflexivity.
  Qed.
  Lemma sign_no_newline sg : sign_text sg -> ~ In newline sg.
  Proof. intros [->|[->| ->]] H; repeat (destruct H as [H|H]; [discriminate H|]); destruct H. Qed.
  Lemma digits_no_newline x : digits1 x -> ~ In newline x.
  Proof. intros [_ H]. apply (no_newline_class is_dec); auto. Qed.
  Lemma step_integer : step (at_ Q on d v v') (at_ Q on d v v') integer integer.
  Proof.
    apply (step_token integer (fun t a => a = Integer t /\ integer_text t) (fun _ r => ends is_dec r)).
    - intros s r a. rewrite integer_iff. split; [intros (n & -> & -> & H1 & H2); exists n; auto|intros (t & -> & [-> H] & H2); exists t; auto].
    - intros t a [-> (sg & x & -> & Hs & Hx)] H. apply in_app_iff in H as [H|H]; revert H; [apply sign_no_newline, Hs|apply digits_no_newline, Hx].
    - intros t. apply local_ends. reflexivity.
    - intros b t a w u HQ Hw _ [-> (sg & x & -> & Hs & Hx)] _. exists b. split; [exact HQ|]. split; [|exact I].
      rewrite <- app_assoc in Hw. eapply drop_sign; eassumption.
  Qed.
  Lemma step_float : step (at_ Q on d v v') (at_ Q on d v v') float float.
  Proof.
    apply (step_token float (fun t a => a = Float t /\ float_text t) (fun _ r => ends is_dec r)).
    - intros s r a. rewrite float_iff. split; [intros (n & -> & -> & H1 & H2); exists n; auto|intros (t & -> & [-> H] & H2); exists t; auto].
    - intros t a [-> (sg & x & y & -> & Hs & Hx & Hy)] H. apply in_app_iff in H as [H|H]; [revert H; apply sign_no_newline, Hs|].
      apply in_app_iff in H as [H|H]; [revert H; apply digits_no_newline, Hx|]. destruct H as [H|H]; [discriminate H|].
      revert H. apply digits_no_newline, Hy.
    - intros t. apply local_ends. reflexivity.
    - intros b t a w u HQ Hw _ [-> (sg & x & y & -> & Hs & Hx & Hy)] _. exists b. split; [exact HQ|]. split; [|exact I].
      rewrite <- !app_assoc in Hw. eapply drop_sign in Hw; [|eassumption|eassumption].
      apply inv_op in Hw; [|reflexivity]. destruct Hw as [(_ & _ & _ & Hw)|(p & q & E & _)]; [|discriminate E].
      eapply (drop_sign _ [] y); [left; reflexivity|exact Hy|exact Hw].
  Qed.
  (** literals may hold line feeds *)
  Lemma first_literal b c w : (c = quote \/ c = squote) -> whole b d (c :: w) ->
    exists t w2, c :: w = t ++ w2 /\ whole b d w2 /\ (c = quote /\ string_token w2 t \/ c = squote /\ char_token t).
  Proof.
    intros [->| ->] H.
    - apply inv_quote in H as (t & w2 & E & H1 & H2). exists t, w2. auto.
    - apply inv_squote in H as (t & w2 & E & H1 & H2). exists t, w2. auto.
  Qed.
  Lemma string_head s : no_ok (string_ s) \/ exists s', s = quote :: s'.
  Proof.
    destruct (string_ s) as [r a| |] eqn:E; [|left; exact I|left; exact I]. right.
    apply string_iff in E as (c & _ & [[-> _]|(_ & -> & _)]); eexists; reflexivity.
  Qed.
  Lemma string_reads t w u : string_token w t -> exists a, string_ (t ++ w ++ newline :: u) = Ok (w ++ newline :: u) a /\
    forall u', string_ (t ++ w ++ newline :: u') = Ok (w ++ newline :: u') a.
  Proof.
    intros H.
    assert (K : exists a, forall u, string_ (t ++ w ++ newline :: u) = Ok (w ++ newline :: u) a).
    { destruct H as [c Hc|c Hc He].
      - exists (String_ c). intros u0. apply string_iff. exists c. split; [reflexivity|]. left. split; [|exact Hc].
        unfold quotes3. rewrite <- !app_assoc. reflexivity.
      - exists (String_ c). intros u0. apply string_iff. exists c. split; [reflexivity|]. right. split; [|split; [|exact Hc]].
        + intros (r & c' & E & Hn). cbn [app] in E. rewrite <- app_assoc in E. unfold quotes3 in E. cbn [app] in E. injection E as E.
          destruct c as [|x c].
          * cbn [app] in E. specialize (He eq_refl). injection E as E. destruct w as [|y w]; cbn in E, He; injection E as E.
            -- discriminate E.
            -- subst y. discriminate He.
          * cbn [app] in E. injection E as -> _. inversion Hc; congruence.
        + cbn [app]. rewrite <- app_assoc. reflexivity. }
    destruct K as (a & K). eauto.
  Qed.
  Lemma step_string : step (at_ Q on d v v') (at_ Q on d v v') string_ string_.
  Proof.
    intros s s' (b & w & HQ & Hw & _ & -> & ->).
    destruct w as [|c w].
    { apply agree_fail; (destruct (string_head ([] ++ newline :: v)) as [H|[x H]]; [exact H|discriminate H]) ||
                        (destruct (string_head ([] ++ newline :: v')) as [H|[x H]]; [exact H|discriminate H]). }
    destruct (N.eqb_spec c quote) as [->|Hc].
    - destruct (first_literal b quote w (or_introl eq_refl) Hw) as (t & w2 & E & H1 & [[_ H2]|[H2 _]]); [|discriminate H2].
      rewrite E, <- !app_assoc. destruct (string_reads t w2 v H2) as (a & -> & E2). rewrite E2. cbn. split; [reflexivity|].
      split; [exists b, w2; repeat split; auto|]. exists t. auto.
    - apply agree_fail.
      + destruct (string_head ((c :: w) ++ newline :: v)) as [H|[x H]]; [exact H|]. injection H as -> _. congruence.
      + destruct (string_head ((c :: w) ++ newline :: v')) as [H|[x H]]; [exact H|]. injection H as -> _. congruence.
  Qed.
  Lemma character_head s : no_ok (character s) \/ exists s', s = squote :: s'.
  Proof.
    destruct (character s) as [r a| |] eqn:E; [|left; exact I|left; exact I]. right.
    apply character_iff in E as (w & c & _ & -> & _); eexists; reflexivity.
  Qed.
  Lemma step_character : step (at_ Q on d v v') (at_ Q on d v v') character character.
  Proof.
    intros s s' (b & w & HQ & Hw & _ & -> & ->).
    destruct w as [|c w].
    { apply agree_fail; (destruct (character_head ([] ++ newline :: v)) as [H|[x H]]; [exact H|discriminate H]) ||
                        (destruct (character_head ([] ++ newline :: v')) as [H|[x H]]; [exact H|discriminate H]). }
    destruct (N.eqb_spec c squote) as [->|Hc].
    - destruct (first_literal b squote w (or_intror eq_refl) Hw) as (t & w2 & E & H1 & [[H2 _]|[_ H2]]); [discriminate H2|].
      rewrite E, <- !app_assoc. destruct H2 as [x y Hx].
      assert (K : forall u, character ((squote :: x ++ [squote]) ++ w2 ++ newline :: u) = Ok (w2 ++ newline :: u) (Character y)).
      { intros u. apply character_iff. exists x, y. split; [reflexivity|]. split; [|exact Hx]. cbn [app]. rewrite <- app_assoc. reflexivity. }
      rewrite !K. cbn -[app]. split; [reflexivity|].
      split; [exists b, w2; repeat split; auto|]. eexists. split; reflexivity.
    - apply agree_fail.
      + destruct (character_head ((c :: w) ++ newline :: v)) as [H|[x H]]; [exact H|]. injection H as -> _. congruence.
      + destruct (character_head ((c :: w) ++ newline :: v')) as [H|[x H]]; [exact H|]. injection H as -> _. congruence.
  Qed.
End Tokens.
Section Tokens2.
  Variables (d : nat) (v v' : str).
  Lemma step_close Q c : is_close c = true -> step (at_ Q on (S d) v v') (at_ Q on d v v') (char_ c) (char_ c).
  Proof.
    intros Hc. apply class_close in Hc. apply step_char; [intros ->; discriminate Hc|]. intros b w HQ H. exists b. split; [exact HQ|].
    apply inv_close in H as (d' & E & H); [|exact Hc]. injection E as <-. split; [exact H|exact I].
  Qed.
  Lemma step_eq : step (at_ either on d v v') (at_ either busy_code d v v') (char_ (C "=")) (char_ (C "=")).
  Proof.
    apply step_char; [discriminate|]. intros b w _ H.
    apply inv_op in H; [|reflexivity]. destruct H as [(K1 & K2 & K3 & K4)|(x & y & E & _)]; [|discriminate E].
    eexists. split; [exact I|]. split; [exact K4|split; assumption].
  Qed.
  Lemma step_operator : step (at_ either code d v v') (at_ either busy_code d v v') operator operator.
  Proof.
    apply (step_token operator (fun t a => t = a /\ operator_name a) (fun _ r => ends is_op_char r)).
    - intros s r a. rewrite operator_iff. split; [intros (-> & H1 & H2); exists a; auto|intros (t & -> & [-> H] & H2); auto].
    - intros t a [-> (_ & H & _)]. apply (no_newline_class is_op_char); auto.
    - intros t. apply local_ends. reflexivity.
    - intros b t a w u _ Hw HP [-> (Hne & Ho & _)] _. destruct (drop_ops a b d w Ho HP Hw) as (b' & H1 & H2).
      exists b'. split; [exact I|]. split; [exact H1|]. exact (H2 Hne).
  Qed.
  (** in types *)
  Lemma step_colon : step (at_ typed on d v v') (at_ typed busy_code d v v') (char_ (C ":")) (char_ (C ":")).
  Proof.
    apply step_char; [discriminate|]. intros b w -> H.
    apply inv_op in H; [|reflexivity]. destruct H as [(K1 & K2 & K3 & K4)|(x & y & E & _)]; [|discriminate E].
    exists true. split; [reflexivity|]. split; [|split; assumption]. destruct w as [|c w]; [exact K4|]. unfold after_op in K4. cbv beta iota in K4. change ((C ":" =? C "=")%N) with false in K4. change ((C ":" =? C ":")%N) with true in K4. cbv iota in K4. destruct (is_op_char c); exact K4.
  Qed.
  Lemma tyvar_name c : is_tyvar_char c = true -> is_name_char c = true.
  Proof.
    unfold is_tyvar_char, is_name_char, is_dec, between. rewrite !orb_true_iff, !andb_true_iff. intros [[H|[H1 H2]]|H]; auto.
    left. right. split; [|exact H2]. apply N.leb_le in H1. apply N.leb_le. cbn in *. lia.
  Qed.
  Lemma step_type_variable : step (at_ typed on d v v') (at_ typed on d v v') type_variable type_variable.
  Proof.
    apply (step_token type_variable (fun t a => a = TypeVariable t /\ type_var_name t) (fun _ r => ends is_tyvar_char r)).
    - intros s r a. rewrite type_variable_iff. split; [intros (n & -> & -> & H1 & H2); exists n; auto|intros (t & -> & [-> H] & H2); exists t; auto].
    - intros t a [-> (c & x & -> & Hc & Hx)]. apply (no_newline_class is_name_char); [reflexivity|]. cbn. unfold is_name_char at 1. rewrite Hc.
      apply forallb_forall. intros y Hy. rewrite forallb_forall in Hx. apply tyvar_name, Hx, Hy.
    - intros t. apply local_ends. reflexivity.
    - intros b t a w u -> Hw _ [-> (c & x & -> & Hc & Hx)] Hz. exists true. split; [reflexivity|]. split; [|exact I].
      set (n := c :: x) in *.
      assert (Hn : forallb is_name_char n = true).
      { unfold n. cbn. unfold is_name_char at 1. rewrite Hc. apply forallb_forall. intros y Hy. rewrite forallb_forall in Hx. apply tyvar_name, Hx, Hy. }
      assert (Hend : ends is_name_char w -> whole true d w).
      { intros He. apply drop_name in Hw; [|discriminate|exact Hn|exact He].
        destruct Hw as [(_ & _ & H)|[(_ & _ & H)|[(_ & H & _)|(_ & H & _)]]]; [exact H|exact H|discriminate H|discriminate H]. }
      destruct w as [|h w]; [apply Hend; exact I|]. destruct (is_name_char h) eqn:Eh; [|apply Hend; exact Eh].
      destruct (on_name_split (h :: w)) as (m & w' & E & H1 & H2 & H3); [eauto|]. rewrite E in *.
      destruct m as [|h' m]; [congruence|]. injection E as <- ->. cbn in Hz.
      assert (Hr : forall k, In (k ++ h :: m) reserved_words -> False).
      { intros k Hk. assert (K : forallb (fun z => forallb is_tyvar_char z) reserved_words = true) by reflexivity.
        rewrite forallb_forall in K. specialize (K _ Hk). rewrite forallb_app in K. apply andb_true_iff in K as [_ K]. cbn in K. rewrite Hz in K. discriminate. }
      apply (drop_part true d n (h :: m) w'); [discriminate|discriminate|rewrite forallb_app, Hn, H2; reflexivity|exact H3|exact (Hr [])|exact (Hr n)|exact Hw].
  Qed.
End Tokens2.

(** ** Layout: where it may reach the other text *)
(** [v] begins with lines of comments, after which comes [v0] *)
Definition apart (v v0 : str) : Prop := ends is_blank v /\ ends is_blank v0 /\ ends is_op_char v0 /\
  exists z, v = z ++ v0 /\ trivia z /\
    (last_line (newline :: z) = [] \/ v0 = [] /\ all_spaces (last_line (newline :: z)) = false).
Lemma apart_no_trivia v v0 : apart v v0 -> no_trivia v0.
Proof.
  intros (_ & H1 & H2 & _). destruct v0 as [|c u]; [exact I|]. cbn [ends] in H1, H2. split; [intros ->; discriminate H1|]. split; [intros ->; discriminate H1|].
  intros [-> _]. discriminate H2.
Qed.
Lemma trivia_line w t2 z : trivia (w ++ newline :: t2) -> trivia z -> trivia t2 /\ trivia (w ++ newline :: z).
Proof.
  intros H Hz. remember (w ++ newline :: t2) as t eqn:Et. revert w Et. induction H as [|t Ht IH|t Ht IH|c t Hc Hle Ht IH]; intros w E.
  - destruct w; discriminate E.
  - destruct w as [|x w]; [discriminate E|]. injection E as <- E. destruct (IH _ E). split; [assumption|]. apply trivia_space. assumption.
  - destruct w as [|x w]; [injection E as ->; split; [exact Ht|apply trivia_newline, Hz]|]. injection E as <- E. destruct (IH _ E). split; [assumption|].
    apply trivia_newline. assumption.
  - rewrite app_assoc in E. apply prefix_in in E as (w2 & -> & E).
    + destruct (IH _ E) as [H1 H2]. split; [exact H1|]. rewrite <- !app_assoc. apply trivia_comment; [exact Hc| |exact H2].
      destruct w2 as [|x w2]; [reflexivity|]. subst t. exact Hle.
    + intros H. apply in_app_iff in H as [H|H]; [repeat (destruct H as [H|H]; [discriminate H|]); destruct H|].
      rewrite forallb_forall in Hc. apply Hc in H. discriminate H.
Qed.
Lemma no_trivia_local w v v' : w <> [] -> no_trivia (w ++ newline :: v) -> no_trivia w /\ no_trivia (w ++ newline :: v').
Proof.
  intros Hw. destruct w as [|c w]; [congruence|]. intros (H1 & H2 & H3). split; (split; [exact H1|]; split; [exact H2|]; intros [E (r & Er)]).
  - apply H3. split; [exact E|]. rewrite Er. eexists. reflexivity.
  - apply H3. split; [exact E|]. destruct w as [|x w]; [discriminate Er|]. injection Er as -> _. eexists. reflexivity.
Qed.
Lemma no_trivia_code w : no_trivia w -> ~ dashes w.
Proof. intros H (w' & ->). destruct H as (_ & _ & H). apply H. split; [reflexivity|]. eexists. reflexivity. Qed.

(** the layout ends inside [w], or it takes the line feed after [w] and ends before [v0] *)
Lemma sp_cases i ir w v v0 r n : apart v v0 -> spaces_or_new_lines_and_indent i ir (w ++ newline :: v) = Ok r n ->
  (exists t w2, w = t ++ w2 /\ r = w2 ++ newline :: v /\ trivia t /\ closed t /\ w2 <> [] /\ no_trivia w2 /\
     forall v', spaces_or_new_lines_and_indent i ir (w ++ newline :: v') = Ok (w2 ++ newline :: v') n) \/
  (idle w /\ r = v0 /\ n = 0%N /\ i = 0%N /\ ir <> IR_GT /\
     forall v' v0', apart v' v0' -> spaces_or_new_lines_and_indent i ir (w ++ newline :: v') = Ok v0' n).
Proof.
  intros Hv H. apply sp_iff in H as (t & (E & Ht & Hr & Hc) & Hne & Hacc & ->). symmetry in E.
  destruct (split_two _ _ _ _ E) as [(w2 & -> & ->)|(t2 & Et & Ev)].
  - left. exists t, w2.
    assert (Hw2 : w2 <> []) by (intros ->; destruct Hr as (_ & Hr & _); apply Hr; reflexivity).
    assert (Hcl : closed t) by (destruct Hc as [Hc|Hc]; [exact Hc|destruct w2; discriminate Hc]).
    destruct (no_trivia_local w2 v v Hw2 Hr) as [Hn _].
    split; [reflexivity|]. split; [reflexivity|]. split; [exact Ht|]. split; [exact Hcl|]. split; [exact Hw2|]. split; [exact Hn|].
    intros u. apply sp_iff. exists t. split; [|auto]. split; [rewrite <- app_assoc; reflexivity|]. split; [exact Ht|].
    split; [apply (no_trivia_local w2 v u Hw2 Hr)|auto].
  - right. subst t.
    assert (Hline : forall z, last_line (w ++ newline :: z) = last_line (newline :: z)) by (intros z; apply last_line_app_newline; reflexivity).
    assert (Hn : forall z, has_newline (w ++ newline :: z) = true) by (intros z; rewrite has_newline_app; apply orb_true_r).
    assert (Hwd : forall (z u : str), (last_line (newline :: z) = [] \/ u = [] /\ all_spaces (last_line (newline :: z)) = false) -> width i (w ++ newline :: z) = 0%N).
    { intros z u H. unfold width. rewrite Hline, Hn. destruct H as [->|[_ ->]]; reflexivity. }
    pose proof Hv as (_ & _ & _ & z & Ez & Hz & Hend).
    assert (newline :: z = newline :: t2 /\ v0 = r) as [Ezz <-].
    { apply (trivia_run_unique (newline :: v)).
      - split; [rewrite Ez; reflexivity|]. split; [apply trivia_newline, Hz|]. split; [eapply apart_no_trivia, Hv|].
        destruct Hend as [->|[-> _]]; [left; reflexivity|right; reflexivity].
      - split; [rewrite Ev; reflexivity|]. split; [apply trivia_newline; exact (proj1 (trivia_line w t2 [] Ht trivia_nil))|]. split; [exact Hr|].
        rewrite Hline in Hc. exact Hc. }
    injection Ezz as <-.
    split; [apply (trivia_idle _ Ht w z); reflexivity|]. split; [reflexivity|]. rewrite (Hwd z v0 Hend). split; [reflexivity|].
    pose proof (Hacc (Hn z)) as Ha. rewrite (Hwd z v0 Hend) in Ha.
    split; [destruct ir; cbn in Ha; lia|]. split; [destruct ir; cbn in Ha; [discriminate|lia|discriminate]|].
    intros v' v0' Hv'. pose proof Hv' as (_ & _ & _ & z' & -> & Hz' & Hend'). apply sp_iff. exists (w ++ newline :: z'). split; [|split; [destruct w; discriminate|split]].
    + split; [rewrite <- app_assoc; reflexivity|]. split; [exact (proj2 (trivia_line w z z' Ht Hz'))|]. split; [eapply apart_no_trivia, Hv'|].
      rewrite Hline. destruct Hend' as [->|[-> _]]; [left; reflexivity|right; reflexivity].
    + intros _. rewrite (Hwd z' v0' Hend'). exact Ha.
    + symmetry. apply (Hwd z' v0' Hend').
Qed.

Section Layouts.
  Variables (v v' v0 v0' : str).
  Hypotheses (Hv : apart v v0) (Hv' : apart v' v0').
  Variables (Q : bool -> Prop) (d : nat).
  Lemma sp_agree {B} i ir w b (Y : str -> str -> Prop) (k k' : N -> parser B) :
    Q b -> whole b d w ->
    (forall n, step (at_ Q code d v v') Y (k n) (k' n)) ->
    (idle w -> i = 0%N -> ir <> IR_GT -> no_ok (k 0%N v0) /\ no_ok (k' 0%N v0')) ->
    agree Y (w ++ newline :: v) (w ++ newline :: v')
      (bind (spaces_or_new_lines_and_indent i ir) k (w ++ newline :: v))
      (bind (spaces_or_new_lines_and_indent i ir) k' (w ++ newline :: v')).
  Proof.
    intros HQ Hw Hk Hdead. unfold bind.
    destruct (spaces_or_new_lines_and_indent i ir (w ++ newline :: v)) as [r n| |] eqn:E1; [|..|exact I].
    - destruct (sp_cases i ir w v v0 r n Hv E1) as [(t & w2 & -> & -> & Ht & Hc & Hne & Hn & E2)|(Hi & -> & -> & H0 & Hir & E2)].
      + rewrite E2. rewrite <- !app_assoc. apply agree_shift. apply Hk. exists b, w2. split; [exact HQ|].
        split; [eapply drop_trivia; eauto|]. split; [apply no_trivia_code, Hn|]. auto.
      + rewrite (E2 _ _ Hv'). destruct (Hdead Hi H0 Hir). apply agree_fail; assumption.
    - destruct (spaces_or_new_lines_and_indent i ir (w ++ newline :: v')) as [r n| |] eqn:E2; try exact I.
      destruct (sp_cases i ir w v' v0' r n Hv' E2) as [(t & w2 & _ & _ & _ & _ & _ & _ & E3)|(_ & _ & _ & _ & _ & E3)].
      + rewrite E3 in E1. discriminate E1.
      + rewrite (E3 _ _ Hv) in E1. discriminate E1.
  Qed.
  (** layout before something that can not be at the beginning of [v] and [v'] *)
  Lemma step_sp_then {B} i ir (Y : str -> str -> Prop) (k k' : N -> parser B) :
    (forall n, step (at_ Q code d v v') Y (k n) (k' n)) -> no_ok (k 0%N v0) -> no_ok (k' 0%N v0') ->
    step (at_ Q on d v v') Y (bind (spaces_or_new_lines_and_indent i ir) k) (bind (spaces_or_new_lines_and_indent i ir) k').
  Proof. intros Hk H1 H2 s s' (b & w & HQ & Hw & _ & -> & ->). apply (sp_agree i ir w b); auto. Qed.
  Lemma bind_ret {A} (p : parser A) s : bind p ret s = p s.
  Proof. unfold bind, ret. destruct (p s); reflexivity. Qed.
  Lemma step_sp_gt i : step (at_ Q on d v v') (at_ Q code d v v') (spaces_or_new_lines_and_indent i IR_GT) (spaces_or_new_lines_and_indent i IR_GT).
  Proof.
    intros s s' (b & w & HQ & Hw & _ & -> & ->). rewrite <- (bind_ret _ (w ++ newline :: v)), <- (bind_ret _ (w ++ newline :: v')).
    apply (sp_agree i IR_GT w b); auto; [intros n; apply step_ret|]. intros _ _ K. destruct (K eq_refl).
  Qed.
  Lemma step_sp_busy i ir : step (at_ Q busy d v v') (at_ Q code d v v') (spaces_or_new_lines_and_indent i ir) (spaces_or_new_lines_and_indent i ir).
  Proof.
    intros s s' (b & w & HQ & Hw & HP & -> & ->). rewrite <- (bind_ret _ (w ++ newline :: v)), <- (bind_ret _ (w ++ newline :: v')).
    apply (sp_agree i ir w b); auto; [intros n; apply step_ret|]. intros H. contradiction.
  Qed.
  (** runs of blanks *)
  Lemma run_cases (f : char -> bool) w u t r : (forall c, f c = true -> is_blank c = true) -> f newline = true -> ends is_blank u ->
    w ++ newline :: u = t ++ r -> forallb f t = true -> ends f r ->
    (exists w2, w = t ++ w2 /\ r = w2 ++ newline :: u /\ w2 <> [] /\ ends f w2) \/ (idle w /\ t = w ++ [newline] /\ r = u).
  Proof.
    intros Hf Hnl Hu E Ht Hr. symmetry in E. destruct (split_two _ _ _ _ E) as [(w2 & -> & ->)|(t2 & -> & ->)].
    - left. exists w2. split; [reflexivity|]. split; [reflexivity|]. destruct w2 as [|c w2]; [cbn in Hr; congruence|]. split; [discriminate|exact Hr].
    - right. rewrite forallb_app in Ht. apply andb_true_iff in Ht as [H1 H2]. split.
      + apply blanks_idle. rewrite forallb_forall in *. auto.
      + cbn [forallb] in H2. apply andb_true_iff in H2 as [_ H2]. destruct t2 as [|c t2]; [auto|]. exfalso. cbn [forallb] in H2. cbn [app ends] in Hu. apply andb_true_iff in H2 as [H2 _].
        apply Hf in H2. congruence.
  Qed.
  Lemma run_agree {B} (f : char -> bool) w b (Y : str -> str -> Prop) (k k' : str -> parser B) : (forall c, f c = true -> is_blank c = true) -> f newline = true ->
    Q b -> whole b d w -> (forall n, step (at_ Q on d v v') Y (k n) (k' n)) ->
    (idle w -> forall x, no_ok (k x v) /\ no_ok (k' x v')) ->
    agree Y (w ++ newline :: v) (w ++ newline :: v') (bind (take_while1 f) k (w ++ newline :: v)) (bind (take_while1 f) k' (w ++ newline :: v')).
  Proof.
    intros Hf Hnl HQ Hw Hk Hdead. unfold bind, take_while1. pose proof (span_longest f (w ++ newline :: v)) as S1. pose proof (span_longest f (w ++ newline :: v')) as S2.
    destruct (span f (w ++ newline :: v)) as [t r]. destruct (span f (w ++ newline :: v')) as [t' r'].
    destruct (proj1 (S1 _ _) eq_refl) as (E1 & A1 & B1). destruct (proj1 (S2 _ _) eq_refl) as (E2 & A2 & B2). clear S1 S2.
    destruct (run_cases f w v t r Hf Hnl (proj1 Hv) E1 A1 B1) as [(w2 & -> & -> & Hne & He)|(Hi & -> & ->)].
    - assert (t = t' /\ w2 ++ newline :: v' = r') as [<- <-].
      { apply (run_unique f); auto; [rewrite <- E2, <- app_assoc; reflexivity|]. destruct w2; [congruence|exact He]. }
      destruct t as [|c t]; [exact I|]. rewrite <- !app_assoc. apply agree_shift, Hk. exists b, w2. split; [exact HQ|].
      split; [|split; [exact I|auto]]. apply (drop_blanks b d (c :: t)); [|exact Hw]. rewrite forallb_forall in *. auto.
    - assert (w ++ [newline] = t' /\ v' = r') as [<- <-].
      { apply (run_unique f); auto; [rewrite <- E2, <- app_assoc; reflexivity|]. destruct Hv' as [H' _]. destruct v' as [|c u]; [exact I|]. cbn [ends] in H' |- *.
        destruct (f c) eqn:Ec; [|reflexivity]. apply Hf in Ec. congruence. }
      destruct (Hdead Hi (w ++ [newline])) as [D1 D2]. destruct (w ++ [newline]) as [|c x] eqn:Ew; [destruct w; discriminate Ew|]. apply agree_fail; assumption.
  Qed.
  Lemma spnl_blank c : mem_char c [32%N; 10%N] = true -> is_blank c = true.
  Proof. intros H. apply mem_char_In in H. destruct H as [<-|[<-|[]]]; reflexivity. Qed.
  Lemma step_spnl_then {B} (Y : str -> str -> Prop) (k k' : str -> parser B) :
    (forall n, step (at_ Q on d v v') Y (k n) (k' n)) -> (forall x, no_ok (k x v)) -> (forall x, no_ok (k' x v')) ->
    step (at_ Q on d v v') Y (bind spaces_and_newlines k) (bind spaces_and_newlines k').
  Proof.
    intros Hk H1 H2 s s' (b & w & HQ & Hw & _ & -> & ->). apply (run_agree _ w b); auto; [exact spnl_blank].
  Qed.
  Lemma step_spnl_busy : step (at_ Q busy d v v') (at_ Q on d v v') spaces_and_newlines spaces_and_newlines.
  Proof.
    intros s s' (b & w & HQ & Hw & HP & -> & ->). rewrite <- (bind_ret _ (w ++ newline :: v)), <- (bind_ret _ (w ++ newline :: v')).
    apply (run_agree _ w b); auto; [exact spnl_blank|intros n; apply step_ret|]. intros H. contradiction.
  Qed.
  Lemma step_multispace_busy : step (at_ Q busy d v v') (at_ Q on d v v') multispace multispace.
  Proof.
    intros s s' (b & w & HQ & Hw & HP & -> & ->). rewrite <- (bind_ret _ (w ++ newline :: v)), <- (bind_ret _ (w ++ newline :: v')).
    apply (run_agree _ w b); auto; [intros n; apply step_ret|]. intros H. contradiction.
  Qed.
  Lemma multispace0_eq s : multispace0 s = match multispace s with Ok r a => Ok r a | Err => Ok s [] | Abort w => Abort w end.
  Proof.
    unfold multispace0, multispace, take_while0, take_while1. destruct (span is_multispace s) as [a b] eqn:E.
    destruct a; [|reflexivity]. apply span_app in E. cbn in E. subst b. reflexivity.
  Qed.
  Lemma step_multispace0_busy : step (at_ Q busy d v v') (at_ Q on d v v') multispace0 multispace0.
  Proof.
    intros s s' Hs. pose proof (step_multispace_busy s s' Hs) as H. rewrite !multispace0_eq.
    destruct (multispace s), (multispace s'); cbn in *; try tauto.
    split; [reflexivity|]. split; [|exists []; auto]. eapply at_weak; [| |exact Hs]; auto; intros; exact I.
  Qed.
  (** keywords *)
  Lemma step_keyword {B} k (Y : str -> str -> Prop) (K K' : parser B) : In k inner_words -> stops K -> stops K' ->
    step (at_ Q busy d v v') Y K K' -> step (at_ Q on d v v') Y (tag k ;;; K) (tag k ;;; K').
  Proof.
    intros Hk HK HK' H s s' (b & w & HQ & Hw & _ & -> & ->). destruct (reserved_name k (inner_reserved k Hk)) as [Kne Kn].
    assert (Hnn : ~ In newline k) by (apply (no_newline_class is_name_char); auto).
    unfold bind. destruct (tag k (w ++ newline :: v)) as [r a| |] eqn:E; [|..|exact I].
    - apply tag_iff in E as [E ->]. symmetry in E. destruct (prefix_in _ _ _ _ E Hnn) as (w2 & -> & ->).
      rewrite <- !app_assoc. rewrite (proj2 (tag_iff k (k ++ w2 ++ newline :: v') (w2 ++ newline :: v') k)) by auto.
      destruct (on_name_dec (w2 ++ newline :: v)) as [Ho|Ho].
      + rewrite HK by exact Ho. rewrite HK' by (destruct w2; [discriminate Ho|exact Ho]). exact I.
      + apply agree_shift. apply H. exists b, w2. split; [exact HQ|].
        assert (He : ends is_name_char w2) by (destruct w2; [exact I|exact Ho]).
        destruct (drop_name b d k w2 Kne Kn He Hw) as [(C1 & _)|[(_ & C2 & C3)|[(C4 & _)|(C5 & _)]]].
        * exfalso. apply C1, inner_reserved, Hk.
        * split; [exact C3|]. split; [exact C2|auto].
        * exfalso. subst k. repeat (destruct Hk as [Hk|Hk]; [discriminate Hk|]). destruct Hk.
        * exfalso. subst k. repeat (destruct Hk as [Hk|Hk]; [discriminate Hk|]). destruct Hk.
    - destruct (tag k (w ++ newline :: v')) as [r a| |] eqn:E2; try exact I.
      apply tag_iff in E2 as [E2 ->]. symmetry in E2. destruct (prefix_in _ _ _ _ E2 Hnn) as (w2 & -> & ->).
      rewrite <- app_assoc in E. rewrite (proj2 (tag_iff k (k ++ w2 ++ newline :: v) (w2 ++ newline :: v) k)) in E by auto. discriminate E.
  Qed.
  Lemma step_let {B} (Y : str -> str -> Prop) (K K' : parser B) : stops K -> stops K' ->
    step (at_ Q busy (S d) v v') Y K K' -> step (at_ Q on d v v') Y (tag (L "let") ;;; K) (tag (L "let") ;;; K').
  Proof.
    intros HK HK' H s s' (b & w & HQ & Hw & _ & -> & ->). set (k := L "let") in *.
    assert (Hnn : ~ In newline k) by (apply (no_newline_class is_name_char); reflexivity).
    unfold bind. destruct (tag k (w ++ newline :: v)) as [r a| |] eqn:E; [|..|exact I].
    - apply tag_iff in E as [E ->]. symmetry in E. destruct (prefix_in _ _ _ _ E Hnn) as (w2 & -> & ->).
      rewrite <- !app_assoc. rewrite (proj2 (tag_iff k (k ++ w2 ++ newline :: v') (w2 ++ newline :: v') k)) by auto.
      destruct (on_name_dec (w2 ++ newline :: v)) as [Ho|Ho].
      + rewrite HK by exact Ho. rewrite HK' by (destruct w2; [discriminate Ho|exact Ho]). exact I.
      + apply agree_shift. apply H. apply (at_busy Q on). exists b, w2. split; [exact HQ|].
        assert (He : ends is_name_char w2) by (destruct w2; [exact I|exact Ho]).
        destruct (drop_name b d k w2 ltac:(discriminate) eq_refl He Hw) as [(C1 & _)|[(C2 & _)|[(_ & -> & C4)|(C5 & _)]]].
        * exfalso. apply C1. cbn. tauto.
        * exfalso. repeat (destruct C2 as [C2|C2]; [discriminate C2|]). destruct C2.
        * split; [exact C4|]. split; [exact I|auto].
        * discriminate C5.
    - destruct (tag k (w ++ newline :: v')) as [r a| |] eqn:E2; try exact I.
      apply tag_iff in E2 as [E2 ->]. symmetry in E2. destruct (prefix_in _ _ _ _ E2 Hnn) as (w2 & -> & ->).
      rewrite <- app_assoc in E. rewrite (proj2 (tag_iff k (k ++ w2 ++ newline :: v) (w2 ++ newline :: v) k)) in E by auto. discriminate E.
  Qed.
  Lemma step_in_word {B} (Y : str -> str -> Prop) (K K' : parser B) : stops K -> stops K' ->
    step (at_ Q busy d v v') Y K K' -> step (at_ Q on (S d) v v') Y (tag (L "in") ;;; K) (tag (L "in") ;;; K').
  Proof.
    intros HK HK' H s s' (b & w & HQ & Hw & _ & -> & ->). set (k := L "in") in *.
    assert (Hnn : ~ In newline k) by (apply (no_newline_class is_name_char); reflexivity).
    unfold bind. destruct (tag k (w ++ newline :: v)) as [r a| |] eqn:E; [|..|exact I].
    - apply tag_iff in E as [E ->]. symmetry in E. destruct (prefix_in _ _ _ _ E Hnn) as (w2 & -> & ->).
      rewrite <- !app_assoc. rewrite (proj2 (tag_iff k (k ++ w2 ++ newline :: v') (w2 ++ newline :: v') k)) by auto.
      destruct (on_name_dec (w2 ++ newline :: v)) as [Ho|Ho].
      + rewrite HK by exact Ho. rewrite HK' by (destruct w2; [discriminate Ho|exact Ho]). exact I.
      + apply agree_shift. apply H. exists b, w2. split; [exact HQ|].
        assert (He : ends is_name_char w2) by (destruct w2; [exact I|exact Ho]).
        destruct (drop_name b (S d) k w2 ltac:(discriminate) eq_refl He Hw) as [(C1 & _)|[(C2 & _)|[(C4 & _)|(_ & -> & d' & Ed & C5 & C6)]]].
        * exfalso. apply C1. cbn. tauto.
        * exfalso. repeat (destruct C2 as [C2|C2]; [discriminate C2|]). destruct C2.
        * discriminate C4.
        * injection Ed as <-. split; [exact C6|]. split; [exact C5|auto].
    - destruct (tag k (w ++ newline :: v')) as [r a| |] eqn:E2; try exact I.
      apply tag_iff in E2 as [E2 ->]. symmetry in E2. destruct (prefix_in _ _ _ _ E2 Hnn) as (w2 & -> & ->).
      rewrite <- app_assoc in E. rewrite (proj2 (tag_iff k (k ++ w2 ++ newline :: v) (w2 ++ newline :: v) k)) in E by auto. discriminate E.
  Qed.
End Layouts.
