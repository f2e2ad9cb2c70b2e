(** * An upper bound on the effects of a parse

    Blowup.v shows that the number of recursive calls can be exponential in the
    length of the text.  Here it is shown to be at most exponential, for every
    text: the calls of [expression] and [type_] and the printed lines together
    are at most [K ^ length s].  [bounded g k m p]: a success of [p] consumes at
    least [k] characters, and [g] times the number of events is at most
    [m * K ^ length s].  With [g = 1] the recursive parsers satisfy it for [m = 1];
    a parser that consumes a character before it calls them satisfies it with
    [g = K] for a constant [m], and if [m < K] the recursion closes. *)
From Verif Require Import Base Nom Regex Ast Good Spec Helpers Types Expr Stmt Lexers Total Trace.

(** The number of events, but for the ends of calls. *)
Definition is_work (e : event) : bool := match e with CallEnds => false | _ => true end.
Definition work (t : list event) : nat := length (filter is_work t).
Lemma work_app t t' : work (t ++ t') = work t + work t'.
Proof. unfold work. rewrite filter_app, app_length. reflexivity. Qed.

Section Cost.
  Variable K : nat.
  Hypothesis HK : 600 <= K.

  Definition bounded {A} (g k m : nat) (p : tparser A) : Prop := forall s,
    (forall r a, fst (p s) = Ok r a -> length r + k <= length s) /\
    g * work (snd (p s)) <= m * K ^ length s.

  Lemma pow_pos n : 1 <= K ^ n.
  Proof. pose proof (Nat.pow_nonzero K n). lia. Qed.
  Lemma pow_mono a b : a <= b -> K ^ a <= K ^ b.
  Proof. apply Nat.pow_le_mono_r. lia. Qed.
  Lemma pow_lt a b : a < b -> K * K ^ a <= K ^ b.
  Proof. intros H. rewrite <- Nat.pow_succ_r'. apply pow_mono. lia. Qed.

  Lemma b_weaken {A} g k m k' m' (p : tparser A) : bounded g k m p -> k' <= k -> m <= m' -> bounded g k' m' p.
  Proof.
    intros H Hk Hm s. destruct (H s) as [H1 H2]. split; [intros r a E; specialize (H1 r a E); lia|].
    pose proof (pow_pos (length s)). nia.
  Qed.
  Lemma b_unguard {A} k m (p : tparser A) : bounded K k m p -> bounded 1 k m p.
  Proof.
    intros H s. destruct (H s) as [H1 H2]. split; [exact H1|]. nia.
  Qed.
  Lemma b_quiet {A} g k (p : parser A) : (forall n, ok k n p p) -> bounded g k 0 (quiet p).
  Proof.
    intros H s. split; [|cbn; lia]. intros r a E. cbn in E.
    destruct (H (S (length s)) s) as [_ H1]; [lia|]. rewrite E in H1. cbn in H1. lia.
  Qed.
  Lemma b_bind {A B} g k1 k2 m1 m2 (p : tparser A) (f : A -> tparser B) :
    bounded g k1 m1 p -> (forall a, bounded g k2 m2 (f a)) -> bounded g (k1 + k2) (m1 + m2) (bind_t p f).
  Proof.
    intros Hp Hf s. destruct (Hp s) as [H1 H2]. unfold bind_t. destruct (p s) as [[r a| |w] t]; cbn [fst snd] in *.
    - specialize (H1 r a eq_refl). destruct (Hf a r) as [H3 H4]. destruct (f a r) as [x t']. cbn [fst snd] in *.
      split; [intros r' b E; specialize (H3 r' b E); lia|]. rewrite work_app.
      pose proof (pow_mono (length r) (length s)). nia.
    - split; [discriminate|]. nia.
    - split; [discriminate|]. nia.
  Qed.
  (** after a character the recursive parsers may be called *)
  Lemma b_guard {A B} k1 k2 m1 m2 (p : tparser A) (f : A -> tparser B) :
    bounded K (S k1) m1 p -> (forall a, bounded 1 k2 m2 (f a)) -> bounded K (S k1 + k2) (m1 + m2) (bind_t p f).
  Proof.
    intros Hp Hf s. destruct (Hp s) as [H1 H2]. unfold bind_t. destruct (p s) as [[r a| |w] t]; cbn [fst snd] in *.
    - specialize (H1 r a eq_refl). destruct (Hf a r) as [H3 H4]. destruct (f a r) as [x t']. cbn [fst snd] in *.
      split; [intros r' b E; specialize (H3 r' b E); lia|]. rewrite work_app.
      pose proof (pow_lt (length r) (length s)). nia.
    - split; [discriminate|]. nia.
    - split; [discriminate|]. nia.
  Qed.
  Lemma b_map {A B} g k m (f : A -> B) p : bounded g k m p -> bounded g k m (map_t f p).
  Proof.
    intros H s. destruct (H s) as [H1 H2]. unfold map_t. destruct (p s) as [[r a| |w] t]; cbn [fst snd] in *;
      (split; [|exact H2]); try discriminate. intros r' b [= <- <-]. exact (H1 r a eq_refl).
  Qed.
  Lemma b_map_res {A B} g k m (f : A -> option B) p : bounded g k m p -> bounded g k m (map_res_t f p).
  Proof.
    intros H s. destruct (H s) as [H1 H2]. unfold map_res_t. destruct (p s) as [[r a| |w] t]; cbn [fst snd] in *;
      (split; [|exact H2]); try discriminate. destruct (f a); [|discriminate].
    intros r' b' [= <- <-]. exact (H1 r a eq_refl).
  Qed.
  Lemma b_alt {A} g k1 k2 m1 m2 (p q : tparser A) :
    bounded g k1 m1 p -> bounded g k2 m2 q -> bounded g (Nat.min k1 k2) (m1 + m2) (p <||> q).
  Proof.
    intros Hp Hq s. destruct (Hp s) as [H1 H2], (Hq s) as [H3 H4]. unfold alt_t.
    destruct (p s) as [[r a| |w] t]; cbn [fst snd] in *.
    - split; [|nia]. intros r' a' [= <- <-]. specialize (H1 r a eq_refl). lia.
    - destruct (q s) as [x t']. cbn [fst snd] in *. rewrite work_app. split; [|nia].
      intros r' a' E. specialize (H3 r' a' E). lia.
    - split; [discriminate|]. nia.
  Qed.
  Lemma b_opt {A} g k m (p : tparser A) : bounded g k m p -> bounded g 0 m (opt_t p).
  Proof.
    intros H s. destruct (H s) as [H1 H2]. unfold opt_t. destruct (p s) as [[r a| |w] t]; cbn [fst snd] in *;
      (split; [|exact H2]); try discriminate.
    - intros r' b [= <- <-]. specialize (H1 r a eq_refl). lia.
    - intros r' b [= <- <-]. lia.
  Qed.
  Lemma b_many0 {A} g k m (p : tparser A) : bounded g k m p -> bounded g 0 (2 * m) (many0_t p).
  Proof.
    intros Hp s. unfold many0_t. generalize (S (length s)). intros n. revert s.
    induction n as [|n IH]; intros s; [cbn; split; [discriminate|lia]|]. cbn [many0_loop_t].
    destruct (Hp s) as [H1 H2]. destruct (p s) as [[r a| |w] t]; cbn [fst snd] in *.
    - specialize (H1 r a eq_refl). destruct (Nat.eqb_spec (length r) (length s)) as [E|E].
      + cbn [fst snd]. split; [intros r' l [= <- <-]; lia|nia].
      + destruct (IH r) as [H3 H4]. pose proof (pow_lt (length r) (length s)).
        destruct (many0_loop_t n p r) as [[r' l| |w] t']; cbn [fst snd] in *; rewrite work_app.
        * split; [intros r2 l2 [= <- <-]; specialize (H3 r' l eq_refl); lia|nia].
        * split; [discriminate|nia].
        * split; [discriminate|nia].
    - split; [intros r' l [= <- <-]; lia|nia].
    - split; [discriminate|nia].
  Qed.
  Lemma b_sep_loop {A B} g k1 k2 m1 m2 (sep : tparser B) (p : tparser A) n s :
    bounded g k1 m1 sep -> bounded g k2 m2 p ->
    (forall r l, fst (sep_loop_t n sep p s) = Ok r l -> length r <= length s) /\
    g * work (snd (sep_loop_t n sep p s)) <= 2 * (m1 + m2) * K ^ length s.
  Proof.
    intros Hs Hp. revert s. induction n as [|n IH]; intros s; [cbn; split; [discriminate|lia]|]. cbn [sep_loop_t].
    destruct (Hs s) as [H1 H2]. destruct (sep s) as [[s2 b| |w] t]; cbn [fst snd] in *.
    - specialize (H1 s2 b eq_refl). destruct (Nat.eqb_spec (length s2) (length s)) as [E|E].
      + cbn [fst snd]. split; [intros r l [= <- <-]; lia|nia].
      + pose proof (pow_mono (length s2) (length s)).
        destruct (Hp s2) as [H3 H4]. destruct (p s2) as [[s3 a| |w] t2]; cbn [fst snd] in *.
        * specialize (H3 s3 a eq_refl). destruct (Nat.eqb_spec (length s3) (length s2)) as [E'|E'].
          -- cbn [fst snd]. rewrite work_app. split; [intros r l [= <- <-]; lia|nia].
          -- destruct (IH s3) as [H5 H6]. pose proof (pow_lt (length s3) (length s)).
             destruct (sep_loop_t n sep p s3) as [[r l| |w] t3]; cbn [fst snd] in *; rewrite !work_app.
             ++ split; [intros r' l' [= <- <-]; specialize (H5 r l eq_refl); lia|nia].
             ++ split; [discriminate|nia].
             ++ split; [discriminate|nia].
        * rewrite work_app. split; [intros r l [= <- <-]; lia|nia].
        * rewrite work_app. split; [discriminate|nia].
    - split; [intros r l [= <- <-]; lia|nia].
    - split; [discriminate|nia].
  Qed.
  Lemma b_sep0 {A B} g k1 k2 m1 m2 (sep : tparser B) (p : tparser A) : bounded g k1 m1 sep -> bounded g k2 m2 p ->
    bounded g 0 (m2 + 2 * (m1 + m2)) (separated_list_t sep p).
  Proof.
    intros Hs Hp s. unfold separated_list_t. destruct (Hp s) as [H1 H2]. destruct (p s) as [[r a| |w] t]; cbn [fst snd] in *.
    - specialize (H1 r a eq_refl). destruct (Nat.eqb_spec (length r) (length s)) as [E|E].
      + cbn [fst snd]. split; [discriminate|nia].
      + pose proof (pow_mono (length r) (length s)).
        destruct (b_sep_loop g k1 k2 m1 m2 sep p (S (length r)) r Hs Hp) as [H3 H4].
        destruct (sep_loop_t (S (length r)) sep p r) as [[r' l| |w] t']; cbn [fst snd] in *; rewrite work_app.
        * split; [intros r2 l2 [= <- <-]; specialize (H3 r' l eq_refl); lia|nia].
        * split; [discriminate|nia].
        * split; [discriminate|nia].
    - split; [intros r l [= <- <-]; lia|nia].
    - split; [discriminate|nia].
  Qed.
  Lemma b_sep1 {A B} g k1 k2 m1 m2 (sep : tparser B) (p : tparser A) : bounded g k1 m1 sep -> bounded g k2 m2 p ->
    bounded g 1 (m2 + 2 * (m1 + m2)) (separated_nonempty_list_t sep p).
  Proof.
    intros Hs Hp s. unfold separated_nonempty_list_t. destruct (Hp s) as [H1 H2].
    destruct (p s) as [[r a| |w] t]; cbn [fst snd] in *.
    - specialize (H1 r a eq_refl). destruct (Nat.eqb_spec (length r) (length s)) as [E|E].
      + cbn [fst snd]. split; [discriminate|nia].
      + pose proof (pow_mono (length r) (length s)).
        destruct (b_sep_loop g k1 k2 m1 m2 sep p (S (length r)) r Hs Hp) as [H3 H4].
        destruct (sep_loop_t (S (length r)) sep p r) as [[r' l| |w] t']; cbn [fst snd] in *; rewrite work_app.
        * split; [intros r2 l2 [= <- <-]; specialize (H3 r' l eq_refl); lia|nia].
        * split; [discriminate|nia].
        * split; [discriminate|nia].
    - split; [discriminate|nia].
    - split; [discriminate|nia].
  Qed.

  (** ** The parsers *)

  Create HintDb bdb discriminated.
  Ltac bd :=
    lazymatch goal with
    | |- forall _, _ => intros; bd
    | |- bounded _ _ _ (quiet _) =>
        eapply b_quiet; intros; first [solve [eauto with okdb] | apply ok_ret | apply ok_eof]
    | |- bounded K _ _ (bind_t _ _) =>
        first [eapply b_guard; [solve [bd]|solve [bd]] | eapply b_bind; [solve [bd]|solve [bd]]]
    | |- bounded 1 _ _ (bind_t _ _) => eapply b_bind; [bd|bd]
    | |- bounded _ _ _ (map_t _ _) => eapply b_map; bd
    | |- bounded _ _ _ (map_res_t _ _) => eapply b_map_res; bd
    | |- bounded _ _ _ (_ <||> _) => eapply b_alt; [bd|bd]
    | |- bounded _ _ _ (opt_t _) => eapply b_opt; bd
    | |- bounded _ _ _ (many0_t _) => eapply b_many0; bd
    | |- bounded _ _ _ (separated_list_t _ _) => eapply b_sep0; [bd|bd]
    | |- bounded _ _ _ (separated_nonempty_list_t _ _) => eapply b_sep1; [bd|bd]
    | |- _ => first [solve [eauto with bdb] | eapply b_unguard; solve [eauto with bdb]]
    end.
  Ltac cost := intros; unfold preceded_t, terminated_t, delimited_t, separated_pair_t;
    eapply b_weaken; [bd|cbn; lia|cbn; lia].

  Section CostT.
    Variable T : N -> tparser type_ast.
    Hypothesis HT : forall i, bounded 1 0 1 (T i).
    Hint Resolve HT : bdb.
    Lemma b_type_annotation_f i : bounded 1 1 3 (type_annotation_f_t T i).
    Proof. unfold type_annotation_f_t. cost. Qed.
    Hint Resolve b_type_annotation_f : bdb.
    Lemma b_type_tuple_f i : bounded K 1 3 (type_tuple_f_t T i).
    Proof. unfold type_tuple_f_t. cost. Qed.
    Hint Resolve b_type_tuple_f : bdb.
    Lemma b_type_record_pair_f i : bounded K 1 3 (type_record_pair_f_t T i).
    Proof. unfold type_record_pair_f_t. cost. Qed.
    Hint Resolve b_type_record_pair_f : bdb.
    Lemma b_type_record_pairs_f i : bounded K 0 9 (type_record_pairs_f_t T i).
    Proof. unfold type_record_pairs_f_t. cost. Qed.
    Hint Resolve b_type_record_pairs_f : bdb.
    Lemma b_type_record_constructor_f i : bounded K 1 9 (type_record_constructor_f_t T i).
    Proof. unfold type_record_constructor_f_t. cost. Qed.
    Hint Resolve b_type_record_constructor_f : bdb.
    Lemma b_type_record_f i : bounded K 1 9 (type_record_f_t T i).
    Proof. unfold type_record_f_t. cost. Qed.
    Hint Resolve b_type_record_f : bdb.
    Lemma b_type_parens_f i : bounded K 1 3 (type_parens_f_t T i).
    Proof. unfold type_parens_f_t. cost. Qed.
    Hint Resolve b_type_parens_f : bdb.
    Lemma b_type_parameter_f i : bounded K 1 24 (type_parameter_f_t T i).
    Proof. unfold type_parameter_f_t. cost. Qed.
    Hint Resolve b_type_parameter_f : bdb.
    Lemma b_type_constructor_f i : bounded K 1 48 (type_constructor_f_t T i).
    Proof. unfold type_constructor_f_t. cost. Qed.
    Hint Resolve b_type_constructor_f : bdb.
    Lemma b_type_f i : bounded K 1 72 (type_f_t T i).
    Proof. unfold type_f_t. cost. Qed.
    Hint Resolve b_type_f : bdb.
  End CostT.
  Lemma b_call {A} m (p : tparser A) (c : event) : m < K -> bounded K 0 m p ->
    bounded 1 0 1 (fun s => let '(x, t) := p s in (x, c :: t ++ [CallEnds])).
  Proof.
    intros Hm H s. destruct (H s) as [H1 H2]. destruct (p s) as [x t]. cbn [fst snd] in *. split; [exact H1|].
    assert (Hw : work (c :: t ++ [CallEnds]) <= 1 + work t).
    { change (c :: t ++ [CallEnds]) with ([c] ++ t ++ [CallEnds]). rewrite !work_app. destruct c; cbn; lia. }
    destruct (length s) as [|n] eqn:E.
    - cbn [Nat.pow] in *. destruct (work t); nia.
    - rewrite Nat.pow_succ_r' in *. pose proof (pow_pos n). nia.
  Qed.
  Lemma b_type_n n i : bounded 1 0 1 (type_n_t n i).
  Proof.
    revert i. induction n as [|n IH]; intros i; [intros s; cbn; split; [discriminate|lia]|].
    apply (b_call 72 (type_f_t (type_n_t n) i)); [lia|]. eapply b_weaken; [apply b_type_f, IH|lia|lia].
  Qed.
  Lemma b_type_ i : bounded 1 0 1 (type__t i).
  Proof. intros s. apply (b_type_n (S (length s)) i). Qed.
  Hint Resolve b_type_ : bdb.
  Lemma b_type_annotation i : bounded 1 1 3 (type_annotation_t i).
  Proof. apply b_type_annotation_f, b_type_. Qed.
  Lemma b_type_constructor i : bounded K 1 48 (type_constructor_t i).
  Proof. apply b_type_constructor_f, b_type_. Qed.
  Hint Resolve b_type_annotation b_type_constructor : bdb.
  Lemma b_print p : (forall n, ok 1 n p p) -> bounded K 1 1 (map_res_print p).
  Proof.
    intros H s. unfold map_res_print. destruct (H (S (length s)) s) as [_ H1]; [lia|].
    destruct (p s) as [r a| |w]; cbn [fst snd ok_res] in *.
    - split; [destruct a; [intros r' b [= <- <-]; lia|discriminate]|].
      pose proof (pow_lt 0 (length s)). cbn in *. lia.
    - split; [discriminate|]. cbn. lia.
    - split; [discriminate|]. cbn. lia.
  Qed.
  Lemma b_character : bounded K 1 1 character_t.
  Proof.
    unfold character_t, character_content_t, delimited_t. eapply b_weaken; [|shelve..].
    eapply b_map, b_guard; [solve [bd]|]. intros _. eapply b_bind; [|bd]. eapply b_unguard, b_alt; [|bd].
    apply b_print. intros [|n]; [intros s Hs; lia|]. oks.
    Unshelve. all: cbn; lia.
  Qed.
  Hint Resolve b_character : bdb.
  Lemma b_function_signature i : bounded K 1 3 (function_signature_t i).
  Proof. unfold function_signature_t. cost. Qed.
  Hint Resolve b_function_signature : bdb.

  Section CostE.
    Variable E : N -> tparser expr.
    Hypothesis HE : forall i, bounded 1 0 1 (E i).
    Hint Resolve HE : bdb.
    Lemma b_tuple_f i : bounded K 1 3 (tuple_f_t E i).
    Proof. unfold tuple_f_t. cost. Qed.
    Hint Resolve b_tuple_f : bdb.
    Lemma b_list_f i : bounded K 1 3 (list_f_t E i).
    Proof. unfold list_f_t. cost. Qed.
    Hint Resolve b_list_f : bdb.
    Lemma b_record_field_f i : bounded K 1 1 (record_field_f_t E i).
    Proof. unfold record_field_f_t. cost. Qed.
    Hint Resolve b_record_field_f : bdb.
    Lemma b_record_f i : bounded K 1 3 (record_f_t E i).
    Proof. unfold record_f_t. cost. Qed.
    Hint Resolve b_record_f : bdb.
    Lemma b_update_field_f i : bounded K 1 1 (update_field_f_t E i).
    Proof. unfold update_field_f_t. cost. Qed.
    Hint Resolve b_update_field_f : bdb.
    Lemma b_record_update_f i : bounded K 1 3 (record_update_f_t E i).
    Proof. unfold record_update_f_t. cost. Qed.
    Hint Resolve b_record_update_f : bdb.
    Lemma b_parens_f i : bounded K 1 1 (parens_f_t E i).
    Proof. unfold parens_f_t. cost. Qed.
    Hint Resolve b_parens_f : bdb.
    Lemma b_term_f i : bounded K 1 14 (term_f_t E i).
    Proof. unfold term_f_t. cost. Qed.
    Hint Resolve b_term_f : bdb.
    Lemma b_lambda_f i : bounded K 1 43 (lambda_f_t E i).
    Proof. unfold lambda_f_t. cost. Qed.
    Hint Resolve b_lambda_f : bdb.
    Lemma b_application_or_var_f i : bounded K 0 42 (application_or_var_f_t E i).
    Proof. unfold application_or_var_f_t. cost. Qed.
    Hint Resolve b_application_or_var_f : bdb.
    Lemma b_function_definition_f i : bounded K 1 29 (function_definition_f_t E i).
    Proof. unfold function_definition_f_t. cost. Qed.
    Hint Resolve b_function_definition_f : bdb.
    Lemma b_function_f i : bounded K 1 32 (function_f_t E i).
    Proof. unfold function_f_t. cost. Qed.
    Hint Resolve b_function_f : bdb.
    Lemma b_let_binding_target_f i : bounded K 1 6 (let_binding_target_f_t E i).
    Proof. unfold let_binding_target_f_t. cost. Qed.
    Hint Resolve b_let_binding_target_f : bdb.
    Lemma b_let_binding_f i : bounded K 1 7 (let_binding_f_t E i).
    Proof. unfold let_binding_f_t. cost. Qed.
    Hint Resolve b_let_binding_f : bdb.
    Lemma b_let_bindings_f i : bounded K 1 117 (let_bindings_f_t E i).
    Proof. unfold let_bindings_f_t. cost. Qed.
    Hint Resolve b_let_bindings_f : bdb.
    Lemma b_let_expression_f i : bounded K 1 118 (let_expression_f_t E i).
    Proof. unfold let_expression_f_t. cost. Qed.
    Hint Resolve b_let_expression_f : bdb.
    Lemma b_case_f i : bounded 1 0 2 (case_f_t E i).
    Proof. unfold case_f_t. cost. Qed.
    Hint Resolve b_case_f : bdb.
    Lemma b_cases_f i : bounded 1 1 6 (cases_f_t E i).
    Proof. unfold cases_f_t. cost. Qed.
    Hint Resolve b_cases_f : bdb.
    Lemma b_case_expression_f i : bounded K 1 7 (case_expression_f_t E i).
    Proof. unfold case_expression_f_t. cost. Qed.
    Hint Resolve b_case_expression_f : bdb.
    Lemma b_if_expression_f i : bounded K 1 3 (if_expression_f_t E i).
    Proof. unfold if_expression_f_t. cost. Qed.
    Hint Resolve b_if_expression_f : bdb.
    Lemma b_operator_exp_f i : bounded K 1 1 (operator_exp_f_t E i).
    Proof. unfold operator_exp_f_t. cost. Qed.
    Hint Resolve b_operator_exp_f : bdb.
    Lemma b_binary_f i : bounded K 0 43 (binary_f_t E i).
    Proof. unfold binary_f_t. cost. Qed.
    Hint Resolve b_binary_f : bdb.
    Lemma b_expression_f i : bounded K 0 214 (expression_f_t E i).
    Proof. unfold expression_f_t. cost. Qed.
    Hint Resolve b_expression_f : bdb.
  End CostE.
  Lemma b_expression_n n i : bounded 1 0 1 (expression_n_t n i).
  Proof.
    revert i. induction n as [|n IH]; intros i; [intros s; cbn; split; [discriminate|lia]|].
    apply (b_call 214 (expression_f_t (expression_n_t n) i)); [lia|]. apply b_expression_f, IH.
  Qed.
  Lemma b_expression i : bounded 1 0 1 (expression_t i).
  Proof. intros s. apply (b_expression_n (S (length s)) i). Qed.
  Hint Resolve b_expression : bdb.
  Lemma b_function i : bounded K 1 32 (function_t i).
  Proof. apply b_function_f, b_expression. Qed.
  Hint Resolve b_function : bdb.
  Lemma b_type_alias_declaration : bounded K 1 4 (type_alias_declaration_t).
  Proof. unfold type_alias_declaration_t. cost. Qed.
  Hint Resolve b_type_alias_declaration : bdb.
  Lemma b_type_declaration i : bounded K 1 145 (type_declaration_t i).
  Proof. unfold type_declaration_t. cost. Qed.
  Hint Resolve b_type_declaration : bdb.
  Lemma b_port_type_declaration : bounded K 1 3 (port_type_declaration_t).
  Proof. unfold port_type_declaration_t. cost. Qed.
  Hint Resolve b_port_type_declaration : bdb.
  Lemma b_port_declaration : bounded K 1 1 (port_declaration_t).
  Proof. unfold port_declaration_t. cost. Qed.
  Hint Resolve b_port_declaration : bdb.
  Lemma b_comment : bounded K 1 0 (quiet comment).
  Proof. apply b_quiet. intros n. unfold comment. oks. Qed.
  Lemma b_statement : bounded K 1 185 (statement_t).
  Proof.
    unfold statement_t. eapply b_weaken.
    - repeat (eapply b_alt; [bd|]). apply b_comment.
    - cbn; lia.
    - cbn; lia.
  Qed.
  Hint Resolve b_statement : bdb.
  Lemma b_statements : bounded K 0 555 statements_t.
  Proof. unfold statements_t. cost. Qed.
  Hint Resolve b_statements : bdb.
  Lemma b_file : bounded K 0 555 file_t.
  Proof. unfold file_t. cost. Qed.
  Lemma events_bound s : work (snd (file_t s)) <= K ^ length s.
  Proof.
    destruct (b_file s) as [_ H]. pose proof (pow_pos (length s)). nia.
  Qed.
End Cost.
