(** * The nesting of recursive calls

    The calls of [expression] and [type_] that are open at the same time, a
    measure of the stack a parse needs: never more than the text has characters.
    [fits d t]: in the events [t] every call ends and at no moment more than [d]
    calls are open.  [deep g k p]: a success of [p] consumes at least [k]
    characters, and at most [g + length s] calls are open at a time; the recursive
    parsers satisfy it with [g = 1], and a parser that consumes a character
    before it calls them with [g = 0]. *)
From Verif Require Import Base Nom Regex Ast Good Spec Helpers Types Expr Stmt Lexers Total Trace Blowup.

(** How many calls begin and end in a list of events. *)
Definition is_begin (e : event) : bool :=
  match e with CalledExpression | CalledType => true | _ => false end.
Definition is_end (e : event) : bool := match e with CallEnds => true | _ => false end.
Definition begun (t : list event) : nat := length (filter is_begin t).
Definition ended (t : list event) : nat := length (filter is_end t).
Lemma begun_app t t' : begun (t ++ t') = begun t + begun t'.
Proof. unfold begun. rewrite filter_app, app_length. reflexivity. Qed.
Lemma ended_app t t' : ended (t ++ t') = ended t + ended t'.
Proof. unfold ended. rewrite filter_app, app_length. reflexivity. Qed.

Definition fits (d : nat) (t : list event) : Prop :=
  begun t = ended t /\ forall a b, t = a ++ b -> ended a <= begun a /\ begun a <= ended a + d.
Lemma fits_nil d : fits d [].
Proof.
  split; [reflexivity|]. intros a b E. symmetry in E. apply app_eq_nil in E as [-> _]. cbn. lia.
Qed.
Lemma fits_app d t t' : fits d t -> fits d t' -> fits d (t ++ t').
Proof.
  intros [H1 H2] [H3 H4]. split; [rewrite begun_app, ended_app; lia|]. intros a b E.
  apply app_eq_app in E as (l & [[-> _]|[-> ->]]); [apply (H2 a l eq_refl)|].
  rewrite begun_app, ended_app. destruct (H4 l b eq_refl). lia.
Qed.
Lemma fits_mono d d' t : d <= d' -> fits d t -> fits d' t.
Proof. intros H [H1 H2]. split; [exact H1|]. intros a b E. specialize (H2 a b E). lia. Qed.
Lemma fits_printed d v : fits d [Printed v].
Proof.
  split; [reflexivity|]. intros [|x a] b E; [cbn; lia|]. injection E as <- E. symmetry in E.
  apply app_eq_nil in E as [-> _]. cbn. lia.
Qed.
Lemma fits_call d c t : is_begin c = true -> fits d t -> fits (S d) (c :: t ++ [CallEnds]).
Proof.
  intros Hc [H1 H2].
  assert (Hb : forall a, begun (c :: a) = S (begun a)) by (intros a; unfold begun; cbn [filter]; rewrite Hc; reflexivity).
  assert (He : forall a, ended (c :: a) = ended a) by (intros a; destruct c; try discriminate Hc; reflexivity).
  split; [rewrite Hb, He, begun_app, ended_app; cbn; lia|].
  intros [|x a] b E; [cbn; lia|]. injection E as <- E. rewrite Hb, He.
  apply app_eq_app in E as (l & [[-> _]|[-> E]]); [specialize (H2 a l eq_refl); lia|].
  rewrite begun_app, ended_app. destruct l as [|y l]; [cbn; lia|].
  injection E as <- E. symmetry in E. apply app_eq_nil in E as [-> _]. cbn. lia.
Qed.

Definition deep {A} (g k : nat) (p : tparser A) : Prop := forall s,
  (forall r a, fst (p s) = Ok r a -> length r + k <= length s) /\ fits (g + length s) (snd (p s)).

Lemma d_weaken {A} g k g' k' (p : tparser A) : deep g k p -> g <= g' -> k' <= k -> deep g' k' p.
Proof.
  intros H Hg Hk s. destruct (H s) as [H1 H2]. split; [intros r a E; specialize (H1 r a E); lia|].
  eapply fits_mono; [|exact H2]. lia.
Qed.
Lemma d_unguard {A} k (p : tparser A) : deep 0 k p -> deep 1 k p.
Proof. intros H. eapply d_weaken; [exact H|lia|lia]. Qed.
Lemma d_least {A} g k k' (p : tparser A) : deep g k p -> k' <= k -> deep g k' p.
Proof. intros H Hk. eapply d_weaken; [exact H|lia|exact Hk]. Qed.
Lemma d_quiet {A} g k (p : parser A) : (forall n, ok k n p p) -> deep g k (quiet p).
Proof.
  intros H s. split; [|apply fits_nil]. intros r a E. cbn in E.
  destruct (H (S (length s)) s) as [_ H1]; [lia|]. rewrite E in H1. cbn in H1. lia.
Qed.
Lemma d_bind {A B} g k1 k2 (p : tparser A) (f : A -> tparser B) :
  deep g k1 p -> (forall a, deep g k2 (f a)) -> deep g (k1 + k2) (bind_t p f).
Proof.
  intros Hp Hf s. destruct (Hp s) as [H1 H2]. unfold bind_t. destruct (p s) as [[r a| |w] t]; cbn [fst snd] in *.
  - specialize (H1 r a eq_refl). destruct (Hf a r) as [H3 H4]. destruct (f a r) as [x t']. cbn [fst snd] in *.
    split; [intros r' b E; specialize (H3 r' b E); lia|]. apply fits_app; [exact H2|].
    eapply fits_mono; [|exact H4]. lia.
  - split; [discriminate|exact H2].
  - split; [discriminate|exact H2].
Qed.
(** after a character the recursive parsers may be called *)
Lemma d_guard {A B} k1 k2 (p : tparser A) (f : A -> tparser B) :
  deep 0 (S k1) p -> (forall a, deep 1 k2 (f a)) -> deep 0 (S k1 + k2) (bind_t p f).
Proof.
  intros Hp Hf s. destruct (Hp s) as [H1 H2]. unfold bind_t. destruct (p s) as [[r a| |w] t]; cbn [fst snd] in *.
  - specialize (H1 r a eq_refl). destruct (Hf a r) as [H3 H4]. destruct (f a r) as [x t']. cbn [fst snd] in *.
    split; [intros r' b E; specialize (H3 r' b E); lia|]. apply fits_app; [exact H2|].
    eapply fits_mono; [|exact H4]. lia.
  - split; [discriminate|exact H2].
  - split; [discriminate|exact H2].
Qed.
Lemma d_map {A B} g k (f : A -> B) p : deep g k p -> deep g k (map_t f p).
Proof.
  intros H s. destruct (H s) as [H1 H2]. unfold map_t. destruct (p s) as [[r a| |w] t]; cbn [fst snd] in *;
    (split; [|exact H2]); try discriminate. intros r' b [= <- <-]. exact (H1 r a eq_refl).
Qed.
Lemma d_map_res {A B} g k (f : A -> option B) p : deep g k p -> deep g k (map_res_t f p).
Proof.
  intros H s. destruct (H s) as [H1 H2]. unfold map_res_t. destruct (p s) as [[r a| |w] t]; cbn [fst snd] in *;
    (split; [|exact H2]); try discriminate. destruct (f a); [|discriminate].
  intros r' b' [= <- <-]. exact (H1 r a eq_refl).
Qed.
Lemma d_alt {A} g k1 k2 (p q : tparser A) : deep g k1 p -> deep g k2 q -> deep g (Nat.min k1 k2) (p <||> q).
Proof.
  intros Hp Hq s. destruct (Hp s) as [H1 H2], (Hq s) as [H3 H4]. unfold alt_t.
  destruct (p s) as [[r a| |w] t]; cbn [fst snd] in *.
  - split; [|exact H2]. intros r' a' [= <- <-]. specialize (H1 r a eq_refl). lia.
  - destruct (q s) as [x t']. cbn [fst snd] in *. split; [|apply fits_app; assumption].
    intros r' a' E. specialize (H3 r' a' E). lia.
  - split; [discriminate|exact H2].
Qed.
Lemma d_opt {A} g k (p : tparser A) : deep g k p -> deep g 0 (opt_t p).
Proof.
  intros H s. destruct (H s) as [H1 H2]. unfold opt_t. destruct (p s) as [[r a| |w] t]; cbn [fst snd] in *;
    (split; [|exact H2]); try discriminate.
  - intros r' b [= <- <-]. specialize (H1 r a eq_refl). lia.
  - intros r' b [= <- <-]. lia.
Qed.
Lemma d_many0 {A} g k (p : tparser A) : deep g k p -> deep g 0 (many0_t p).
Proof.
  intros Hp s. unfold many0_t. generalize (S (length s)). intros n. revert s.
  induction n as [|n IH]; intros s; [split; [discriminate|apply fits_nil]|]. cbn [many0_loop_t].
  destruct (Hp s) as [H1 H2]. destruct (p s) as [[r a| |w] t]; cbn [fst snd] in *.
  - specialize (H1 r a eq_refl). destruct (Nat.eqb_spec (length r) (length s)) as [E|E].
    + cbn [fst snd]. split; [intros r' l [= <- <-]; lia|exact H2].
    + destruct (IH r) as [H3 H4]. apply (fits_mono _ (g + length s)) in H4; [|lia].
      destruct (many0_loop_t n p r) as [[r' l| |w] t']; cbn [fst snd] in *.
      * split; [intros r2 l2 [= <- <-]; specialize (H3 r' l eq_refl); lia|apply fits_app; assumption].
      * split; [discriminate|apply fits_app; assumption].
      * split; [discriminate|apply fits_app; assumption].
  - split; [intros r' l [= <- <-]; lia|exact H2].
  - split; [discriminate|exact H2].
Qed.
Lemma d_sep_loop {A B} g k1 k2 (sep : tparser B) (p : tparser A) n s :
  deep g k1 sep -> deep g k2 p ->
  (forall r l, fst (sep_loop_t n sep p s) = Ok r l -> length r <= length s) /\
  fits (g + length s) (snd (sep_loop_t n sep p s)).
Proof.
  intros Hs Hp. revert s. induction n as [|n IH]; intros s; [split; [discriminate|apply fits_nil]|]. cbn [sep_loop_t].
  destruct (Hs s) as [H1 H2]. destruct (sep s) as [[s2 b| |w] t]; cbn [fst snd] in *.
  - specialize (H1 s2 b eq_refl). destruct (Nat.eqb_spec (length s2) (length s)) as [E|E].
    + cbn [fst snd]. split; [intros r l [= <- <-]; lia|exact H2].
    + destruct (Hp s2) as [H3 H4]. apply (fits_mono _ (g + length s)) in H4; [|lia].
      destruct (p s2) as [[s3 a| |w] t2]; cbn [fst snd] in *.
      * specialize (H3 s3 a eq_refl). destruct (Nat.eqb_spec (length s3) (length s2)) as [E'|E'].
        -- cbn [fst snd]. split; [intros r l [= <- <-]; lia|apply fits_app; assumption].
        -- destruct (IH s3) as [H5 H6]. apply (fits_mono _ (g + length s)) in H6; [|lia].
           destruct (sep_loop_t n sep p s3) as [[r l| |w] t3]; cbn [fst snd] in *.
           ++ split; [intros r' l' [= <- <-]; specialize (H5 r l eq_refl); lia|repeat apply fits_app; assumption].
           ++ split; [discriminate|repeat apply fits_app; assumption].
           ++ split; [discriminate|repeat apply fits_app; assumption].
      * split; [intros r l [= <- <-]; lia|apply fits_app; assumption].
      * split; [discriminate|apply fits_app; assumption].
  - split; [intros r l [= <- <-]; lia|exact H2].
  - split; [discriminate|exact H2].
Qed.
Lemma d_sep0 {A B} g k1 k2 (sep : tparser B) (p : tparser A) : deep g k1 sep -> deep g k2 p ->
  deep g 0 (separated_list_t sep p).
Proof.
  intros Hs Hp s. unfold separated_list_t. destruct (Hp s) as [H1 H2]. destruct (p s) as [[r a| |w] t]; cbn [fst snd] in *.
  - specialize (H1 r a eq_refl). destruct (Nat.eqb_spec (length r) (length s)) as [E|E].
    + cbn [fst snd]. split; [discriminate|exact H2].
    + destruct (d_sep_loop g k1 k2 sep p (S (length r)) r Hs Hp) as [H3 H4].
      apply (fits_mono _ (g + length s)) in H4; [|lia].
      destruct (sep_loop_t (S (length r)) sep p r) as [[r' l| |w] t']; cbn [fst snd] in *.
      * split; [intros r2 l2 [= <- <-]; specialize (H3 r' l eq_refl); lia|apply fits_app; assumption].
      * split; [discriminate|apply fits_app; assumption].
      * split; [discriminate|apply fits_app; assumption].
  - split; [intros r l [= <- <-]; lia|exact H2].
  - split; [discriminate|exact H2].
Qed.
Lemma d_sep1 {A B} g k1 k2 (sep : tparser B) (p : tparser A) : deep g k1 sep -> deep g k2 p ->
  deep g 1 (separated_nonempty_list_t sep p).
Proof.
  intros Hs Hp s. unfold separated_nonempty_list_t. destruct (Hp s) as [H1 H2].
  destruct (p s) as [[r a| |w] t]; cbn [fst snd] in *.
  - specialize (H1 r a eq_refl). destruct (Nat.eqb_spec (length r) (length s)) as [E|E].
    + cbn [fst snd]. split; [discriminate|exact H2].
    + destruct (d_sep_loop g k1 k2 sep p (S (length r)) r Hs Hp) as [H3 H4].
      apply (fits_mono _ (g + length s)) in H4; [|lia].
      destruct (sep_loop_t (S (length r)) sep p r) as [[r' l| |w] t']; cbn [fst snd] in *.
      * split; [intros r2 l2 [= <- <-]; specialize (H3 r' l eq_refl); lia|apply fits_app; assumption].
      * split; [discriminate|apply fits_app; assumption].
      * split; [discriminate|apply fits_app; assumption].
  - split; [discriminate|exact H2].
  - split; [discriminate|exact H2].
Qed.
Lemma d_print g p : (forall n, ok 1 n p p) -> deep g 1 (map_res_print p).
Proof.
  intros H s. unfold map_res_print. destruct (H (S (length s)) s) as [_ H1]; [lia|].
  destruct (p s) as [r a| |w]; cbn [fst snd ok_res] in *.
  - split; [destruct a; [intros r' b [= <- <-]; lia|discriminate]|apply fits_printed].
  - split; [discriminate|apply fits_nil].
  - split; [discriminate|apply fits_nil].
Qed.
Lemma d_call {A} (p : tparser A) (c : event) : is_begin c = true -> deep 0 0 p ->
  deep 1 0 (fun s => let '(x, t) := p s in (x, c :: t ++ [CallEnds])).
Proof.
  intros Hc H s. destruct (H s) as [H1 H2]. destruct (p s) as [x t]. cbn [fst snd] in *. split; [exact H1|].
  apply fits_call; assumption.
Qed.

(** ** The parsers *)

Create HintDb dpdb discriminated.
Ltac dp :=
  lazymatch goal with
  | |- forall _, _ => intros; dp
  | |- deep _ _ (quiet _) =>
      eapply d_quiet; intros; first [solve [eauto with okdb] | apply ok_ret | apply ok_eof]
  | |- deep 0 _ (bind_t _ _) =>
      first [eapply d_guard; [solve [dp]|solve [dp]] | eapply d_bind; [solve [dp]|solve [dp]]]
  | |- deep 1 _ (bind_t _ _) => eapply d_bind; [dp|dp]
  | |- deep _ _ (map_t _ _) => eapply d_map; dp
  | |- deep _ _ (map_res_t _ _) => eapply d_map_res; dp
  | |- deep _ _ (_ <||> _) => eapply d_alt; [dp|dp]
  | |- deep _ _ (opt_t _) => eapply d_opt; dp
  | |- deep _ _ (many0_t _) => eapply d_many0; dp
  | |- deep _ _ (separated_list_t _ _) => eapply d_sep0; [dp|dp]
  | |- deep _ _ (separated_nonempty_list_t _ _) => eapply d_sep1; [dp|dp]
  | |- _ => first [solve [eauto with dpdb] | eapply d_unguard; solve [eauto with dpdb]]
  end.
Ltac depth := intros; unfold preceded_t, terminated_t, delimited_t, separated_pair_t;
  eapply d_least; [dp|cbn; lia].

Section DepthT.
  Variable T : N -> tparser type_ast.
  Hypothesis HT : forall i, deep 1 0 (T i).
  Hint Resolve HT : dpdb.
  Lemma d_type_annotation_f i : deep 1 1 (type_annotation_f_t T i).
  Proof. unfold type_annotation_f_t. depth. Qed.
  Hint Resolve d_type_annotation_f : dpdb.
  Lemma d_type_tuple_f i : deep 0 1 (type_tuple_f_t T i).
  Proof. unfold type_tuple_f_t. depth. Qed.
  Hint Resolve d_type_tuple_f : dpdb.
  Lemma d_type_record_pair_f i : deep 0 1 (type_record_pair_f_t T i).
  Proof. unfold type_record_pair_f_t. depth. Qed.
  Hint Resolve d_type_record_pair_f : dpdb.
  Lemma d_type_record_pairs_f i : deep 0 0 (type_record_pairs_f_t T i).
  Proof. unfold type_record_pairs_f_t. depth. Qed.
  Hint Resolve d_type_record_pairs_f : dpdb.
  Lemma d_type_record_constructor_f i : deep 0 1 (type_record_constructor_f_t T i).
  Proof. unfold type_record_constructor_f_t. depth. Qed.
  Hint Resolve d_type_record_constructor_f : dpdb.
  Lemma d_type_record_f i : deep 0 1 (type_record_f_t T i).
  Proof. unfold type_record_f_t. depth. Qed.
  Hint Resolve d_type_record_f : dpdb.
  Lemma d_type_parens_f i : deep 0 1 (type_parens_f_t T i).
  Proof. unfold type_parens_f_t. depth. Qed.
  Hint Resolve d_type_parens_f : dpdb.
  Lemma d_type_parameter_f i : deep 0 1 (type_parameter_f_t T i).
  Proof. unfold type_parameter_f_t. depth. Qed.
  Hint Resolve d_type_parameter_f : dpdb.
  Lemma d_type_constructor_f i : deep 0 1 (type_constructor_f_t T i).
  Proof. unfold type_constructor_f_t. depth. Qed.
  Hint Resolve d_type_constructor_f : dpdb.
  Lemma d_type_f i : deep 0 1 (type_f_t T i).
  Proof. unfold type_f_t. depth. Qed.
  Hint Resolve d_type_f : dpdb.
End DepthT.
Lemma d_type_n n i : deep 1 0 (type_n_t n i).
Proof.
  revert i. induction n as [|n IH]; intros i; [intros s; split; [discriminate|apply fits_nil]|].
  apply (d_call (type_f_t (type_n_t n) i)); [reflexivity|]. eapply d_weaken; [apply d_type_f, IH|lia|lia].
Qed.
Lemma d_type_ i : deep 1 0 (type__t i).
Proof. intros s. apply (d_type_n (S (length s)) i). Qed.
#[export] Hint Resolve d_type_ : dpdb.
Lemma d_type_annotation i : deep 1 1 (type_annotation_t i).
Proof. apply d_type_annotation_f, d_type_. Qed.
Lemma d_type_constructor i : deep 0 1 (type_constructor_t i).
Proof. apply d_type_constructor_f, d_type_. Qed.
#[export] Hint Resolve d_type_annotation d_type_constructor : dpdb.
Lemma d_character : deep 0 1 character_t.
Proof.
  unfold character_t, character_content_t, delimited_t. eapply d_least; [|shelve].
  eapply d_map, d_guard; [solve [dp]|]. intros _. eapply d_bind; [|dp]. eapply d_unguard, d_alt; [|dp].
  apply d_print. intros [|n]; [intros s Hs; lia|]. oks.
  Unshelve. all: cbn; lia.
Qed.
#[export] Hint Resolve d_character : dpdb.
Lemma d_function_signature i : deep 0 1 (function_signature_t i).
Proof. unfold function_signature_t. depth. Qed.
#[export] Hint Resolve d_function_signature : dpdb.
Section DepthE.
  Variable E : N -> tparser expr.
  Hypothesis HE : forall i, deep 1 0 (E i).
  Hint Resolve HE : dpdb.
  Lemma d_tuple_f i : deep 0 1 (tuple_f_t E i).
  Proof. unfold tuple_f_t. depth. Qed.
  Hint Resolve d_tuple_f : dpdb.
  Lemma d_list_f i : deep 0 1 (list_f_t E i).
  Proof. unfold list_f_t. depth. Qed.
  Hint Resolve d_list_f : dpdb.
  Lemma d_record_field_f i : deep 0 1 (record_field_f_t E i).
  Proof. unfold record_field_f_t. depth. Qed.
  Hint Resolve d_record_field_f : dpdb.
  Lemma d_record_f i : deep 0 1 (record_f_t E i).
  Proof. unfold record_f_t. depth. Qed.
  Hint Resolve d_record_f : dpdb.
  Lemma d_update_field_f i : deep 0 1 (update_field_f_t E i).
  Proof. unfold update_field_f_t. depth. Qed.
  Hint Resolve d_update_field_f : dpdb.
  Lemma d_record_update_f i : deep 0 1 (record_update_f_t E i).
  Proof. unfold record_update_f_t. depth. Qed.
  Hint Resolve d_record_update_f : dpdb.
  Lemma d_parens_f i : deep 0 1 (parens_f_t E i).
  Proof. unfold parens_f_t. depth. Qed.
  Hint Resolve d_parens_f : dpdb.
  Lemma d_term_f i : deep 0 1 (term_f_t E i).
  Proof. unfold term_f_t. depth. Qed.
  Hint Resolve d_term_f : dpdb.
  Lemma d_lambda_f i : deep 0 1 (lambda_f_t E i).
  Proof. unfold lambda_f_t. depth. Qed.
  Hint Resolve d_lambda_f : dpdb.
  Lemma d_application_or_var_f i : deep 0 0 (application_or_var_f_t E i).
  Proof. unfold application_or_var_f_t. depth. Qed.
  Hint Resolve d_application_or_var_f : dpdb.
  Lemma d_function_definition_f i : deep 0 1 (function_definition_f_t E i).
  Proof. unfold function_definition_f_t. depth. Qed.
  Hint Resolve d_function_definition_f : dpdb.
  Lemma d_function_f i : deep 0 1 (function_f_t E i).
  Proof. unfold function_f_t. depth. Qed.
  Hint Resolve d_function_f : dpdb.
  Lemma d_let_binding_target_f i : deep 0 1 (let_binding_target_f_t E i).
  Proof. unfold let_binding_target_f_t. depth. Qed.
  Hint Resolve d_let_binding_target_f : dpdb.
  Lemma d_let_binding_f i : deep 0 1 (let_binding_f_t E i).
  Proof. unfold let_binding_f_t. depth. Qed.
  Hint Resolve d_let_binding_f : dpdb.
  Lemma d_let_bindings_f i : deep 0 1 (let_bindings_f_t E i).
  Proof. unfold let_bindings_f_t. depth. Qed.
  Hint Resolve d_let_bindings_f : dpdb.
  Lemma d_let_expression_f i : deep 0 1 (let_expression_f_t E i).
  Proof. unfold let_expression_f_t. depth. Qed.
  Hint Resolve d_let_expression_f : dpdb.
  Lemma d_case_f i : deep 1 0 (case_f_t E i).
  Proof. unfold case_f_t. depth. Qed.
  Hint Resolve d_case_f : dpdb.
  Lemma d_cases_f i : deep 1 1 (cases_f_t E i).
  Proof. unfold cases_f_t. depth. Qed.
  Hint Resolve d_cases_f : dpdb.
  Lemma d_case_expression_f i : deep 0 1 (case_expression_f_t E i).
  Proof. unfold case_expression_f_t. depth. Qed.
  Hint Resolve d_case_expression_f : dpdb.
  Lemma d_if_expression_f i : deep 0 1 (if_expression_f_t E i).
  Proof. unfold if_expression_f_t. depth. Qed.
  Hint Resolve d_if_expression_f : dpdb.
  Lemma d_operator_exp_f i : deep 0 1 (operator_exp_f_t E i).
  Proof. unfold operator_exp_f_t. depth. Qed.
  Hint Resolve d_operator_exp_f : dpdb.
  Lemma d_binary_f i : deep 0 0 (binary_f_t E i).
  Proof. unfold binary_f_t. depth. Qed.
  Hint Resolve d_binary_f : dpdb.
  Lemma d_expression_f i : deep 0 0 (expression_f_t E i).
  Proof. unfold expression_f_t. depth. Qed.
  Hint Resolve d_expression_f : dpdb.
End DepthE.
Lemma d_expression_n n i : deep 1 0 (expression_n_t n i).
Proof.
  revert i. induction n as [|n IH]; intros i; [intros s; split; [discriminate|apply fits_nil]|].
  apply (d_call (expression_f_t (expression_n_t n) i)); [reflexivity|]. apply d_expression_f, IH.
Qed.
Lemma d_expression i : deep 1 0 (expression_t i).
Proof. intros s. apply (d_expression_n (S (length s)) i). Qed.
#[export] Hint Resolve d_expression : dpdb.
Lemma d_function i : deep 0 1 (function_t i).
Proof. apply d_function_f, d_expression. Qed.
#[export] Hint Resolve d_function : dpdb.
Lemma d_type_alias_declaration : deep 0 1 (type_alias_declaration_t).
Proof. unfold type_alias_declaration_t. depth. Qed.
#[export] Hint Resolve d_type_alias_declaration : dpdb.
Lemma d_type_declaration i : deep 0 1 (type_declaration_t i).
Proof. unfold type_declaration_t. depth. Qed.
#[export] Hint Resolve d_type_declaration : dpdb.
Lemma d_port_type_declaration : deep 0 1 (port_type_declaration_t).
Proof. unfold port_type_declaration_t. depth. Qed.
#[export] Hint Resolve d_port_type_declaration : dpdb.
Lemma d_port_declaration : deep 0 1 (port_declaration_t).
Proof. unfold port_declaration_t. depth. Qed.
#[export] Hint Resolve d_port_declaration : dpdb.
Lemma d_comment : deep 0 1 (quiet comment).
Proof. apply d_quiet. intros n. unfold comment. oks. Qed.
Lemma d_statement : deep 0 1 statement_t.
Proof.
  unfold statement_t. eapply d_least.
  - repeat (eapply d_alt; [dp|]). apply d_comment.
  - cbn; lia.
Qed.
#[export] Hint Resolve d_statement : dpdb.
Lemma d_statements : deep 0 0 statements_t.
Proof. unfold statements_t. depth. Qed.
#[export] Hint Resolve d_statements : dpdb.
Lemma d_file : deep 0 0 file_t.
Proof. unfold file_t. depth. Qed.
Lemma file_fits s : fits (length s) (snd (file_t s)).
Proof. apply d_file. Qed.

(** A call inside a call inside a call ... *)
Lemma nested_deep k : exists b, nested_trace k = repeat CalledExpression (S k) ++ b.
Proof.
  induction k as [|k [b IH]]; [eexists; reflexivity|]. cbn [nested_trace]. rewrite IH.
  eexists. cbn [repeat]. rewrite <- !app_comm_cons, <- !app_assoc. reflexivity.
Qed.
Lemma begun_repeat n : begun (repeat CalledExpression n) = n /\ ended (repeat CalledExpression n) = 0.
Proof.
  induction n as [|n [IH1 IH2]]; [split; reflexivity|]. split; [unfold begun in *; cbn; lia|exact IH2].
Qed.
Lemma arrows_deep k : exists b, arrows_trace k = repeat CalledType (S k) ++ b.
Proof.
  induction k as [|k [b IH]]; [eexists; reflexivity|]. cbn [arrows_trace]. rewrite IH.
  eexists. cbn [repeat]. rewrite <- !app_comm_cons, <- !app_assoc. reflexivity.
Qed.
Lemma begun_repeat_t n : begun (repeat CalledType n) = n /\ ended (repeat CalledType n) = 0.
Proof.
  induction n as [|n [IH1 IH2]]; [split; reflexivity|]. split; [unfold begun in *; cbn; lia|exact IH2].
Qed.
