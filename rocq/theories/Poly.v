(** * The cost of parsing a text with little nesting

    Cost.v bounds the number of recursive calls by an exponential in the length of
    the text.  Here the exponent is the nesting of the calls instead: if never
    more than [d] calls are open at a time, the work is at most a polynomial in
    the length, to the power [d + 1].  [cheap c k p]: on texts of at most [n]
    characters, if [d] open calls are enough, then the work of [p] is at most
    [c * (n + 1) ^ k] times [e], where [e] bounds the work of one recursive call. *)
From Verif Require Import Base Nom Regex Ast Good Spec Helpers Types Expr Stmt Lexers Total Trace Cost Depth.

Definition closed (t : list event) : Prop := exists d, fits d t.
Lemma closed_nil : closed [].
Proof. exists 0. apply fits_nil. Qed.
Lemma closed_app t t' : closed t -> closed t' -> closed (t ++ t').
Proof.
  intros [d H] [d' H']. exists (d + d'). apply fits_app; [apply (fits_mono d)|apply (fits_mono d')]; try assumption; lia.
Qed.
Lemma fits_split d t t' : closed t -> fits d (t ++ t') -> fits d t /\ fits d t'.
Proof.
  intros (? & Hb & _) [H1 H2]. rewrite begun_app, ended_app in H1. split; split; [exact Hb| |lia|].
  - intros a b ->. rewrite <- app_assoc in H2. apply (H2 a _ eq_refl).
  - intros a b ->. rewrite app_assoc in H2. specialize (H2 _ b eq_refl). rewrite begun_app, ended_app in H2. lia.
Qed.
Lemma fits_inside d c t : is_begin c = true -> closed t -> fits d (c :: t ++ [CallEnds]) -> exists d', d = S d' /\ fits d' t.
Proof.
  intros Hc (d0 & Hb & Ht) [H1 H2].
  assert (Hb' : forall a, begun (c :: a) = S (begun a)) by (intros a; unfold begun; cbn [filter]; rewrite Hc; reflexivity).
  assert (He : forall a, ended (c :: a) = ended a) by (intros a; destruct c; try discriminate Hc; reflexivity).
  destruct d as [|d]; [specialize (H2 [c] _ eq_refl); rewrite Hb', He in H2; cbn in H2; lia|].
  exists d. split; [reflexivity|]. split; [exact Hb|]. intros a b ->.
  pose proof (H2 (c :: a) (b ++ [CallEnds])) as H. cbn [app] in H. rewrite <- app_assoc in H. specialize (H eq_refl).
  rewrite Hb', He in H. specialize (Ht a b eq_refl). lia.
Qed.

Section Poly.
  Variables n d e : nat.
  Hypothesis He : 1 <= e.

  Definition cheap {A} (c k : nat) (p : tparser A) : Prop := forall s, length s <= n ->
    (forall r a, fst (p s) = Ok r a -> length r <= length s) /\ closed (snd (p s)) /\
    (fits d (snd (p s)) -> work (snd (p s)) <= c * ((n + 1) ^ k * e)).

  Notation P k := ((n + 1) ^ k * e).
  Lemma P_mono k k' : k <= k' -> P k <= P k'.
  Proof. intros H. apply Nat.mul_le_mono_r, Nat.pow_le_mono_r; lia. Qed.
  Lemma P_succ k : P (S k) = (n + 1) * P k.
  Proof. cbn [Nat.pow]. lia. Qed.

  Lemma c_weaken {A} c k c' k' (p : tparser A) : cheap c k p -> c <= c' -> k <= k' -> cheap c' k' p.
  Proof.
    intros H Hc Hk s Hs. destruct (H s Hs) as (H1 & H2 & H3). split; [exact H1|]. split; [exact H2|].
    intros Hf. specialize (H3 Hf). pose proof (P_mono k k' Hk). nia.
  Qed.
  Lemma c_quiet {A} j (p : parser A) : (forall n, ok j n p p) -> cheap 0 0 (quiet p).
  Proof.
    intros H s _. split; [|split; [apply closed_nil|cbn; lia]]. intros r a E. cbn in E.
    destruct (H (S (length s)) s) as [_ H1]; [lia|]. rewrite E in H1. cbn in H1. lia.
  Qed.
  Ltac cut := repeat match goal with
    | H : fits d (?t ++ ?t') |- _ => let H1 := fresh in apply fits_split in H as [H1 H]; [|assumption]
    end.
  Ltac nice := repeat match goal with
    | |- _ /\ _ => split
    | |- forall r a, _ = Ok r a -> _ => try discriminate; intros ? ? [= <- <-]
    | |- closed (_ ++ _) => apply closed_app
    | |- closed [] => apply closed_nil
    | |- closed _ => assumption
    | |- fits d _ -> _ => intros Hfits; cut; rewrite ?work_app;
         repeat match goal with H : fits d ?t, H' : fits d ?t -> _ |- _ => specialize (H' H) end
    end.
  Lemma c_bind {A B} c1 k1 c2 k2 (p : tparser A) (f : A -> tparser B) :
    cheap c1 k1 p -> (forall a, cheap c2 k2 (f a)) -> cheap (c1 + c2) (Nat.max k1 k2) (bind_t p f).
  Proof.
    intros Hp Hf s Hs. destruct (Hp s Hs) as (H1 & H2 & H3). unfold bind_t.
    pose proof (P_mono k1 (Nat.max k1 k2)) as HP1. pose proof (P_mono k2 (Nat.max k1 k2)) as HP2.
    destruct (p s) as [[r a| |w] t]; cbn [fst snd] in *.
    - specialize (H1 r a eq_refl). destruct (Hf a r) as (H4 & H5 & H6); [lia|]. destruct (f a r) as [x t']. cbn [fst snd] in *.
      split; [intros r' b E; specialize (H4 r' b E); lia|]. nice. nia.
    - nice. nia.
    - nice. nia.
  Qed.
  Lemma c_map {A B} c k (f : A -> B) p : cheap c k p -> cheap c k (map_t f p).
  Proof.
    intros H s Hs. destruct (H s Hs) as [H1 H2]. unfold map_t. destruct (p s) as [[r a| |w] t]; cbn [fst snd] in *;
      (split; [|exact H2]); try discriminate. intros r' b [= <- <-]. exact (H1 r a eq_refl).
  Qed.
  Lemma c_map_res {A B} c k (f : A -> option B) p : cheap c k p -> cheap c k (map_res_t f p).
  Proof.
    intros H s Hs. destruct (H s Hs) as [H1 H2]. unfold map_res_t. destruct (p s) as [[r a| |w] t]; cbn [fst snd] in *;
      (split; [|exact H2]); try discriminate. destruct (f a); [|discriminate].
    intros r' b' [= <- <-]. exact (H1 r a eq_refl).
  Qed.
  Lemma c_alt {A} c1 k1 c2 k2 (p q : tparser A) : cheap c1 k1 p -> cheap c2 k2 q -> cheap (c1 + c2) (Nat.max k1 k2) (p <||> q).
  Proof.
    intros Hp Hq s Hs. destruct (Hp s Hs) as (H1 & H2 & H3), (Hq s Hs) as (H4 & H5 & H6). unfold alt_t.
    pose proof (P_mono k1 (Nat.max k1 k2)) as HP1. pose proof (P_mono k2 (Nat.max k1 k2)) as HP2.
    destruct (p s) as [[r a| |w] t]; cbn [fst snd] in *.
    - nice; [apply (H1 _ _ eq_refl)|nia].
    - destruct (q s) as [x t']. cbn [fst snd] in *. split; [exact H4|]. nice. nia.
    - nice. nia.
  Qed.
  Lemma c_opt {A} c k (p : tparser A) : cheap c k p -> cheap c k (opt_t p).
  Proof.
    intros H s Hs. destruct (H s Hs) as [H1 H2]. unfold opt_t. destruct (p s) as [[r a| |w] t]; cbn [fst snd] in *;
      (split; [|exact H2]); try discriminate.
    - intros r' b [= <- <-]. exact (H1 r a eq_refl).
    - intros r' b [= <- <-]. lia.
  Qed.
  Lemma c_many0 {A} c k (p : tparser A) : cheap c k p -> cheap c (S k) (many0_t p).
  Proof.
    intros Hp s Hs. unfold many0_t. generalize (S (length s)). intros m.
    enough ((forall r a, fst (many0_loop_t m p s) = Ok r a -> length r <= length s) /\ closed (snd (many0_loop_t m p s)) /\
      (fits d (snd (many0_loop_t m p s)) -> work (snd (many0_loop_t m p s)) <= (length s + 1) * (c * P k))) as (E1 & E2 & E3).
    { split; [exact E1|]. split; [exact E2|]. intros Hf. specialize (E3 Hf). rewrite P_succ. nia. }
    revert s Hs. induction m as [|m IH]; intros s Hs; [cbn [many0_loop_t fst snd]; nice; cbn; lia|]. cbn [many0_loop_t].
    destruct (Hp s Hs) as (H1 & H2 & H3). destruct (p s) as [[r a| |w] t]; cbn [fst snd] in *.
    - specialize (H1 r a eq_refl). destruct (Nat.eqb_spec (length r) (length s)) as [E|E].
      + cbn [fst snd]. nice; [lia|nia].
      + destruct (IH r) as (H4 & H5 & H6); [lia|]. clear IH.
        destruct (many0_loop_t m p r) as [[r' l| |w] t']; cbn [fst snd] in *; nice; [specialize (H4 r' l eq_refl); lia|nia..].
    - nice; [lia|nia].
    - nice. nia.
  Qed.
  Lemma c_sep_loop {A B} c1 k1 c2 k2 (sep : tparser B) (p : tparser A) m s : length s <= n ->
    cheap c1 k1 sep -> cheap c2 k2 p ->
    (forall r l, fst (sep_loop_t m sep p s) = Ok r l -> length r <= length s) /\ closed (snd (sep_loop_t m sep p s)) /\
    (fits d (snd (sep_loop_t m sep p s)) -> work (snd (sep_loop_t m sep p s)) <= (length s + 1) * ((c1 + c2) * P (Nat.max k1 k2))).
  Proof.
    intros Hs Hsep Hp. revert s Hs.
    pose proof (P_mono k1 (Nat.max k1 k2)) as HP1. pose proof (P_mono k2 (Nat.max k1 k2)) as HP2.
    induction m as [|m IH]; intros s Hs; [cbn [sep_loop_t fst snd]; nice; cbn; lia|]. cbn [sep_loop_t].
    destruct (Hsep s Hs) as (H1 & H2 & H3). destruct (sep s) as [[s2 b| |w] t]; cbn [fst snd] in *.
    - specialize (H1 s2 b eq_refl). destruct (Nat.eqb_spec (length s2) (length s)) as [E|E].
      + cbn [fst snd]. nice; [lia|nia].
      + destruct (Hp s2) as (H4 & H5 & H6); [lia|].
        destruct (p s2) as [[s3 a| |w] t2]; cbn [fst snd] in *.
        * specialize (H4 s3 a eq_refl). destruct (Nat.eqb_spec (length s3) (length s2)) as [E'|E'].
          -- cbn [fst snd]. nice; [lia|nia].
          -- destruct (IH s3) as (H7 & H8 & H9); [lia|]. clear IH.
             destruct (sep_loop_t m sep p s3) as [[r l| |w] t3]; cbn [fst snd] in *; nice; [specialize (H7 r l eq_refl); lia|nia..].
        * nice; [lia|nia].
        * nice. nia.
    - nice; [lia|nia].
    - nice. nia.
  Qed.
  Lemma c_sep0 {A B} c1 k1 c2 k2 (sep : tparser B) (p : tparser A) : cheap c1 k1 sep -> cheap c2 k2 p ->
    cheap (c1 + c2 + c2) (S (Nat.max k1 k2)) (separated_list_t sep p).
  Proof.
    intros Hsep Hp s Hs. unfold separated_list_t. pose proof (P_mono k2 (Nat.max k1 k2)) as HP2. rewrite P_succ.
    destruct (Hp s Hs) as (H1 & H2 & H3). destruct (p s) as [[r a| |w] t]; cbn [fst snd] in *.
    - specialize (H1 r a eq_refl). destruct (Nat.eqb_spec (length r) (length s)) as [E|E].
      + cbn [fst snd]. nice. nia.
      + destruct (c_sep_loop c1 k1 c2 k2 sep p (S (length r)) r) as (H4 & H5 & H6); [lia|assumption..|].
        destruct (sep_loop_t (S (length r)) sep p r) as [[r' l| |w] t']; cbn [fst snd] in *; nice; [specialize (H4 r' l eq_refl); lia|nia..].
    - nice; [lia|nia].
    - nice. nia.
  Qed.
  Lemma c_sep1 {A B} c1 k1 c2 k2 (sep : tparser B) (p : tparser A) : cheap c1 k1 sep -> cheap c2 k2 p ->
    cheap (c1 + c2 + c2) (S (Nat.max k1 k2)) (separated_nonempty_list_t sep p).
  Proof.
    intros Hsep Hp s Hs. unfold separated_nonempty_list_t. pose proof (P_mono k2 (Nat.max k1 k2)) as HP2. rewrite P_succ.
    destruct (Hp s Hs) as (H1 & H2 & H3). destruct (p s) as [[r a| |w] t]; cbn [fst snd] in *.
    - specialize (H1 r a eq_refl). destruct (Nat.eqb_spec (length r) (length s)) as [E|E].
      + cbn [fst snd]. nice. nia.
      + destruct (c_sep_loop c1 k1 c2 k2 sep p (S (length r)) r) as (H4 & H5 & H6); [lia|assumption..|].
        destruct (sep_loop_t (S (length r)) sep p r) as [[r' l| |w] t']; cbn [fst snd] in *; nice; [specialize (H4 r' l eq_refl); lia|nia..].
    - nice. nia.
    - nice. nia.
  Qed.
  Lemma c_print p : (forall n, ok 1 n p p) -> cheap 1 0 (map_res_print p).
  Proof.
    intros H s _. unfold map_res_print. destruct (H (S (length s)) s) as [_ H1]; [lia|].
    destruct (p s) as [r a| |w]; cbn [fst snd ok_res] in *; (split; [|split; [|cbn; lia]]); try discriminate;
      try apply closed_nil; [|exists 0; apply fits_printed].
    destruct a; [intros r' b [= <- <-]; lia|discriminate].
  Qed.

  (** ** The parsers *)

  Create HintDb cpdb discriminated.
  Ltac cp :=
    lazymatch goal with
    | |- forall _, _ => intros; cp
    | |- cheap _ _ (quiet _) =>
        eapply c_quiet; intros; first [solve [eauto with okdb] | apply ok_ret | apply ok_eof]
    | |- cheap _ _ (bind_t _ _) => eapply c_bind; [cp|cp]
    | |- cheap _ _ (map_t _ _) => eapply c_map; cp
    | |- cheap _ _ (map_res_t _ _) => eapply c_map_res; cp
    | |- cheap _ _ (_ <||> _) => eapply c_alt; [cp|cp]
    | |- cheap _ _ (opt_t _) => eapply c_opt; cp
    | |- cheap _ _ (many0_t _) => eapply c_many0; cp
    | |- cheap _ _ (separated_list_t _ _) => eapply c_sep0; [cp|cp]
    | |- cheap _ _ (separated_nonempty_list_t _ _) => eapply c_sep1; [cp|cp]
    | |- _ => solve [eauto with cpdb]
    end.
  Ltac cost := intros; unfold preceded_t, terminated_t, delimited_t, separated_pair_t;
    eapply c_weaken; [cp|cbn; lia|cbn; lia].

  Section PolyT.
    Variable T : N -> tparser type_ast.
    Hypothesis HT : forall i, cheap 1 0 (T i).
    Hint Resolve HT : cpdb.
    Lemma c_type_annotation_f i : cheap 3 1 (type_annotation_f_t T i).
    Proof. unfold type_annotation_f_t. cost. Qed.
    Hint Resolve c_type_annotation_f : cpdb.
    Lemma c_type_tuple_f i : cheap 3 1 (type_tuple_f_t T i).
    Proof. unfold type_tuple_f_t. cost. Qed.
    Hint Resolve c_type_tuple_f : cpdb.
    Lemma c_type_record_pair_f i : cheap 3 1 (type_record_pair_f_t T i).
    Proof. unfold type_record_pair_f_t. cost. Qed.
    Hint Resolve c_type_record_pair_f : cpdb.
    Lemma c_type_record_pairs_f i : cheap 9 2 (type_record_pairs_f_t T i).
    Proof. unfold type_record_pairs_f_t. cost. Qed.
    Hint Resolve c_type_record_pairs_f : cpdb.
    Lemma c_type_record_constructor_f i : cheap 9 2 (type_record_constructor_f_t T i).
    Proof. unfold type_record_constructor_f_t. cost. Qed.
    Hint Resolve c_type_record_constructor_f : cpdb.
    Lemma c_type_record_f i : cheap 9 2 (type_record_f_t T i).
    Proof. unfold type_record_f_t. cost. Qed.
    Hint Resolve c_type_record_f : cpdb.
    Lemma c_type_parens_f i : cheap 3 1 (type_parens_f_t T i).
    Proof. unfold type_parens_f_t. cost. Qed.
    Hint Resolve c_type_parens_f : cpdb.
    Lemma c_type_parameter_f i : cheap 24 2 (type_parameter_f_t T i).
    Proof. unfold type_parameter_f_t. cost. Qed.
    Hint Resolve c_type_parameter_f : cpdb.
    Lemma c_type_constructor_f i : cheap 48 3 (type_constructor_f_t T i).
    Proof. unfold type_constructor_f_t. cost. Qed.
    Hint Resolve c_type_constructor_f : cpdb.
    Lemma c_type_f i : cheap 72 3 (type_f_t T i).
    Proof. unfold type_f_t. cost. Qed.
    Hint Resolve c_type_f : cpdb.
  End PolyT.
  Hypothesis HTY : forall i, cheap 1 0 (type__t i).
  Hint Resolve HTY : cpdb.
  Lemma c_type_annotation i : cheap 3 1 (type_annotation_t i).
  Proof. apply c_type_annotation_f, HTY. Qed.
  Lemma c_type_constructor i : cheap 48 3 (type_constructor_t i).
  Proof. apply c_type_constructor_f, HTY. Qed.
  Hint Resolve c_type_annotation c_type_constructor : cpdb.
  Lemma c_character : cheap 1 0 character_t.
  Proof.
    unfold character_t, character_content_t, delimited_t. eapply c_weaken; [|shelve..].
    eapply c_map, c_bind; [cp|]. intros _. eapply c_bind; [|cp]. eapply c_alt; [|cp].
    apply c_print. intros [|m]; [intros s Hs; lia|]. oks.
    Unshelve. all: cbn; lia.
  Qed.
  Hint Resolve c_character : cpdb.
  Lemma c_function_signature i : cheap 3 1 (function_signature_t i).
  Proof. unfold function_signature_t. cost. Qed.
  Hint Resolve c_function_signature : cpdb.

  Section PolyE.
    Variable E : N -> tparser expr.
    Hypothesis HE : forall i, cheap 1 0 (E i).
    Hint Resolve HE : cpdb.
    Lemma c_tuple_f i : cheap 3 1 (tuple_f_t E i).
    Proof. unfold tuple_f_t. cost. Qed.
    Hint Resolve c_tuple_f : cpdb.
    Lemma c_list_f i : cheap 3 1 (list_f_t E i).
    Proof. unfold list_f_t. cost. Qed.
    Hint Resolve c_list_f : cpdb.
    Lemma c_record_field_f i : cheap 1 0 (record_field_f_t E i).
    Proof. unfold record_field_f_t. cost. Qed.
    Hint Resolve c_record_field_f : cpdb.
    Lemma c_record_f i : cheap 3 1 (record_f_t E i).
    Proof. unfold record_f_t. cost. Qed.
    Hint Resolve c_record_f : cpdb.
    Lemma c_update_field_f i : cheap 1 0 (update_field_f_t E i).
    Proof. unfold update_field_f_t. cost. Qed.
    Hint Resolve c_update_field_f : cpdb.
    Lemma c_record_update_f i : cheap 3 1 (record_update_f_t E i).
    Proof. unfold record_update_f_t. cost. Qed.
    Hint Resolve c_record_update_f : cpdb.
    Lemma c_parens_f i : cheap 1 0 (parens_f_t E i).
    Proof. unfold parens_f_t. cost. Qed.
    Hint Resolve c_parens_f : cpdb.
    Lemma c_term_f i : cheap 14 1 (term_f_t E i).
    Proof. unfold term_f_t. cost. Qed.
    Hint Resolve c_term_f : cpdb.
    Lemma c_lambda_f i : cheap 43 2 (lambda_f_t E i).
    Proof. unfold lambda_f_t. cost. Qed.
    Hint Resolve c_lambda_f : cpdb.
    Lemma c_application_or_var_f i : cheap 42 2 (application_or_var_f_t E i).
    Proof. unfold application_or_var_f_t. cost. Qed.
    Hint Resolve c_application_or_var_f : cpdb.
    Lemma c_function_definition_f i : cheap 29 2 (function_definition_f_t E i).
    Proof. unfold function_definition_f_t. cost. Qed.
    Hint Resolve c_function_definition_f : cpdb.
    Lemma c_function_f i : cheap 32 2 (function_f_t E i).
    Proof. unfold function_f_t. cost. Qed.
    Hint Resolve c_function_f : cpdb.
    Lemma c_let_binding_target_f i : cheap 6 1 (let_binding_target_f_t E i).
    Proof. unfold let_binding_target_f_t. cost. Qed.
    Hint Resolve c_let_binding_target_f : cpdb.
    Lemma c_let_binding_f i : cheap 7 1 (let_binding_f_t E i).
    Proof. unfold let_binding_f_t. cost. Qed.
    Hint Resolve c_let_binding_f : cpdb.
    Lemma c_let_bindings_f i : cheap 117 3 (let_bindings_f_t E i).
    Proof. unfold let_bindings_f_t. cost. Qed.
    Hint Resolve c_let_bindings_f : cpdb.
    Lemma c_let_expression_f i : cheap 118 3 (let_expression_f_t E i).
    Proof. unfold let_expression_f_t. cost. Qed.
    Hint Resolve c_let_expression_f : cpdb.
    Lemma c_case_f i : cheap 2 0 (case_f_t E i).
    Proof. unfold case_f_t. cost. Qed.
    Hint Resolve c_case_f : cpdb.
    Lemma c_cases_f i : cheap 6 1 (cases_f_t E i).
    Proof. unfold cases_f_t. cost. Qed.
    Hint Resolve c_cases_f : cpdb.
    Lemma c_case_expression_f i : cheap 7 1 (case_expression_f_t E i).
    Proof. unfold case_expression_f_t. cost. Qed.
    Hint Resolve c_case_expression_f : cpdb.
    Lemma c_if_expression_f i : cheap 3 0 (if_expression_f_t E i).
    Proof. unfold if_expression_f_t. cost. Qed.
    Hint Resolve c_if_expression_f : cpdb.
    Lemma c_operator_exp_f i : cheap 1 0 (operator_exp_f_t E i).
    Proof. unfold operator_exp_f_t. cost. Qed.
    Hint Resolve c_operator_exp_f : cpdb.
    Lemma c_binary_f i : cheap 43 2 (binary_f_t E i).
    Proof. unfold binary_f_t. cost. Qed.
    Hint Resolve c_binary_f : cpdb.
    Lemma c_expression_f i : cheap 214 3 (expression_f_t E i).
    Proof. unfold expression_f_t. cost. Qed.
    Hint Resolve c_expression_f : cpdb.
  End PolyE.
  Hypothesis HEX : forall i, cheap 1 0 (expression_t i).
  Hint Resolve HEX : cpdb.
  Lemma c_function i : cheap 32 2 (function_t i).
  Proof. apply c_function_f, HEX. Qed.
  Hint Resolve c_function : cpdb.
  Lemma c_type_alias_declaration : cheap 4 1 (type_alias_declaration_t).
  Proof. unfold type_alias_declaration_t. cost. Qed.
  Hint Resolve c_type_alias_declaration : cpdb.
  Lemma c_type_declaration i : cheap 145 4 (type_declaration_t i).
  Proof. unfold type_declaration_t. cost. Qed.
  Hint Resolve c_type_declaration : cpdb.
  Lemma c_port_type_declaration : cheap 3 1 (port_type_declaration_t).
  Proof. unfold port_type_declaration_t. cost. Qed.
  Hint Resolve c_port_type_declaration : cpdb.
  Lemma c_port_declaration : cheap 1 1 (port_declaration_t).
  Proof. unfold port_declaration_t. cost. Qed.
  Hint Resolve c_port_declaration : cpdb.
  Lemma c_comment : cheap 0 0 (quiet comment).
  Proof. apply (c_quiet 1). intros m. unfold comment. oks. Qed.
  Lemma c_statement : cheap 185 4 (statement_t).
  Proof.
    unfold statement_t. eapply c_weaken.
    - repeat (eapply c_alt; [cp|]). apply c_comment.
    - cbn; lia.
    - cbn; lia.
  Qed.
  Hint Resolve c_statement : cpdb.
  Lemma c_statements : cheap 555 5 statements_t.
  Proof. unfold statements_t. cost. Qed.
  Hint Resolve c_statements : cpdb.
  Lemma c_file : cheap 555 5 file_t.
  Proof. unfold file_t. cost. Qed.
End Poly.

Section Calls.
  Variable n : nat.
  (** the work of one more level of calls *)
  Definition level : nat := 215 * (n + 1) ^ 3.
  Lemma level_pos : 1 <= level.
  Proof. unfold level. pose proof (Nat.pow_nonzero (n + 1) 3). lia. Qed.
  Lemma level_pow d : 1 <= level ^ d.
  Proof. pose proof level_pos. pose proof (Nat.pow_nonzero level d). lia. Qed.
  Lemma c_call {A} (p : tparser A) ev : is_begin ev = true ->
    (forall d, cheap n d (level ^ d) 214 3 p) ->
    forall d, cheap n d (level ^ d) 1 0 (fun s => let '(x, t) := p s in (x, ev :: t ++ [CallEnds])).
  Proof.
    intros Hev H d s Hs. destruct (H 0 s Hs) as (H1 & H2 & _).
    assert (H3 : forall d, fits d (snd (p s)) -> work (snd (p s)) <= 214 * ((n + 1) ^ 3 * level ^ d)) by (intros d'; apply H, Hs).
    destruct (p s) as [x t]. cbn [fst snd] in *. split; [exact H1|]. split.
    - destruct H2 as [d' H2]. exists (S d'). apply fits_call; assumption.
    - intros Hf. apply fits_inside in Hf as (d' & -> & Hf); [|assumption..]. specialize (H3 _ Hf).
      assert (Hw : work (ev :: t ++ [CallEnds]) <= 1 + work t).
      { change (ev :: t ++ [CallEnds]) with ([ev] ++ t ++ [CallEnds]). rewrite !work_app. destruct ev; cbn; lia. }
      pose proof (level_pow d'). rewrite Nat.pow_succ_r'. unfold level at 1. cbn [Nat.pow] in *.
      pose proof (Nat.pow_nonzero (n + 1) 3). nia.
  Qed.
  Lemma c_type_n m : forall i d, cheap n d (level ^ d) 1 0 (type_n_t m i).
  Proof.
    induction m as [|m IH]; intros i d.
    - intros s _. split; [discriminate|]. split; [apply closed_nil|cbn; lia].
    - apply (c_call (type_f_t (type_n_t m) i)); [reflexivity|]. intros d'.
      eapply c_weaken; [apply level_pow|apply (c_type_f n d' (level ^ d') (level_pow d')); intros j; apply IH|lia|lia].
  Qed.
  Lemma c_type_ i d : cheap n d (level ^ d) 1 0 (type__t i).
  Proof. intros s Hs. apply (c_type_n (S (length s)) i d s Hs). Qed.
  Lemma c_expression_n m : forall i d, cheap n d (level ^ d) 1 0 (expression_n_t m i).
  Proof.
    induction m as [|m IH]; intros i d.
    - intros s _. split; [discriminate|]. split; [apply closed_nil|cbn; lia].
    - apply (c_call (expression_f_t (expression_n_t m) i)); [reflexivity|]. intros d'.
      apply (c_expression_f n d' (level ^ d') (level_pow d')); intros j; [apply c_type_|apply IH].
  Qed.
  Lemma c_expression i d : cheap n d (level ^ d) 1 0 (expression_t i).
  Proof. intros s Hs. apply (c_expression_n (S (length s)) i d s Hs). Qed.
End Calls.

Lemma events_polynomial s d : fits d (snd (file_t s)) ->
  work (snd (file_t s)) <= 555 * (length s + 1) ^ 5 * (215 * (length s + 1) ^ 3) ^ d.
Proof.
  intros H.
  destruct (c_file (length s) d (level (length s) ^ d) (level_pow _ d) (fun i => c_type_ _ i d) (fun i => c_expression _ i d) s) as (_ & _ & H'); [lia|].
  specialize (H' H). unfold level in *. lia.
Qed.
