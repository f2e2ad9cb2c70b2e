(** * Alone or before a closing bracket

    [apart P d z z' s s']: [s] and [s'] are the same text [w] up to an end where [z]
    and [z'] follow, each of which is empty or begins with a closing bracket.  In [w]
    strings, character literals and comments are complete, and a closing bracket
    after [w] would close the last of [d + 1] open brackets. *)
From Verif Require Import Base Nom Regex Ast Good Spec Helpers Types Expr Lexers Total Layout Follow LexProps TwoRuns RenameSim Whole Steps Indep Inside.

Definition stop (z : str) : Prop := match z with [] => True | c :: _ => is_close c = true end.
Definition apart (P : str -> Prop) (d : nat) (z z' s s' : str) : Prop :=
  exists w k, is_close k = true /\ closes (S d) (w ++ [k]) /\ P (w ++ [k]) /\ s = w ++ z /\ s' = w ++ z'.
Lemma apart_weak (P P' : str -> Prop) d z z' s s' : (forall w, P w -> P' w) -> apart P d z z' s s' -> apart P' d z z' s s'.
Proof. intros HP (w & k & Hk & H1 & H2 & H3 & H4). exists w, k. auto. Qed.
Ltac wider := let s := fresh in let s' := fresh in let H := fresh in intros s s' H;
  first [exact H | eapply apart_weak; [|exact H]; exact (fun _ _ => I)].
Lemma no_close_before t : forall r w z, t ++ r = w ++ z -> stop z -> no_close t -> exists w2, w = t ++ w2 /\ r = w2 ++ z.
Proof.
  induction t as [|c t IH]; intros r w z E Hz Hn; [exists w; auto|]. destruct w as [|x w].
  - cbn in E. subst z. pose proof (Hn c (or_introl eq_refl)) as H0. change (is_close c = true) in Hz. congruence.
  - injection E as <- E. destruct (IH r w z E Hz) as (w2 & -> & ->); [intros y Hy; apply Hn; right; exact Hy|]. exists w2. auto.
Qed.
Definition even (Z : str -> Prop) : Prop := forall w u u', stop u -> stop u' -> Z (w ++ u) -> Z (w ++ u').
Lemma even_ends f : (forall c, is_close c = true -> f c = false) -> even (ends f).
Proof. intros Hf [|c w] u u' Hu Hu'; cbn; [|auto]. intros _. destruct u' as [|c u']; [exact I|]. apply Hf, Hu'. Qed.
Lemma even_true : even (fun _ => True).
Proof. intros w v v'. auto. Qed.
Lemma close_cases c : is_close c = true -> c = C ")" \/ c = C "]" \/ c = C "}".
Proof. intros H. apply mem_char_In in H. destruct H as [<-|[<-|[<-|[]]]]; auto. Qed.
Ltac closers := let c := fresh in let H := fresh in intros c H; apply close_cases in H as [->|[->| ->]]; reflexivity.
Lemma snoc_nonempty (w : str) k : w ++ [k] <> [].
Proof. destruct w; discriminate. Qed.

Section Tokens.
  Variables (z z' : str).
  Hypotheses (Hz : stop z) (Hz' : stop z').
Lemma apart_token {A} (p : parser A) (W : str -> A -> Prop) (Z : str -> str -> Prop) (P P' : str -> Prop) d :
  (forall s r a, p s = Ok r a <-> exists t, s = t ++ r /\ W t a /\ Z t r) ->
  (forall t a, W t a -> no_close t) -> (forall t, even (Z t)) ->
  (forall t a w, w <> [] -> closes (S d) (t ++ w) -> P (t ++ w) -> W t a -> closes (S d) w /\ P' w) ->
  step (apart P d z z') (apart P' d z z') p p.
Proof.
  intros Hp Hn HZ Hd s s' (w & k & Hk & Hw & HP & -> & ->).
  assert (K : forall v v' r a, stop v -> stop v' -> p (w ++ v) = Ok r a -> exists t w2, w = t ++ w2 /\ r = w2 ++ v /\
    p (w ++ v') = Ok (w2 ++ v') a /\ closes (S d) (w2 ++ [k]) /\ P' (w2 ++ [k])).
  { intros u u' r a Hu Hu' H. apply Hp in H as (t & E & HW & Ht). symmetry in E. destruct (no_close_before _ _ _ _ E Hu (Hn _ _ HW)) as (w2 & -> & ->).
    exists t, w2. split; [reflexivity|]. split; [reflexivity|]. split.
    - apply Hp. exists t. rewrite <- app_assoc. split; [reflexivity|]. split; [exact HW|]. apply (HZ t w2 u u' Hu Hu' Ht).
    - rewrite <- app_assoc in Hw, HP. eapply Hd; [apply snoc_nonempty|eassumption..]. }
  destruct (p (w ++ z)) as [r a| |] eqn:E1; [|..].
  - destruct (K z z' r a Hz Hz' E1) as (t & w2 & -> & -> & -> & Hw' & HP'). cbn. split; [reflexivity|]. split; [exists w2, k; auto|].
    exists t. rewrite <- !app_assoc. auto.
  - destruct (p (w ++ z')) as [r a| |] eqn:E2; try exact I.
    destruct (K z' z r a Hz' Hz E2) as (t & w2 & _ & _ & E & _). congruence.
  - exact I.
Qed.
  Variable d : nat.
  Notation X := (apart on d z z').
  Lemma ap_lo_name : step X X lo_name lo_name.
  Proof.
    apply (apart_token lo_name (fun t a => t = a /\ lower_name a) (fun t r => t = L "_" \/ ends is_name_char r)).
    - intros s r a. rewrite lo_name_iff. split; [intros (-> & H1 & H2); exists a; auto|intros (t & -> & [-> H] & H2); auto].
    - intros t a [-> H]. destruct (lower_not_newline _ H) as (_ & _ & Hn). apply (run_no_close is_name_char); [exact name_not_4|exact Hn].
    - intros t w u u' Hu Hu' [H|H]; [auto|]. right. revert H. apply even_ends; [closers|exact Hu|exact Hu'].
    - intros t a w _ Hw _ [-> Hn]. split; [|exact I]. destruct (lower_not_newline _ Hn) as (_ & _ & Hc). revert Hw. apply shut_names, Hc.
  Qed.
  Lemma ap_up_name : step X X up_name up_name.
  Proof.
    apply (apart_token up_name (fun t a => t = a /\ upper_name a) (fun _ r => ends is_name_char r)).
    - intros s r a. rewrite up_name_iff. split; [intros (-> & H1 & H2); exists a; auto|intros (t & -> & [-> H] & H2); auto].
    - intros t a [-> H]. destruct (upper_run _ H) as (_ & Hn & _). apply (run_no_close is_name_char); [exact name_not_4|exact Hn].
    - intros t. apply even_ends. closers.
    - intros t a w _ Hw _ [-> Hn]. split; [|exact I]. destruct (upper_run _ Hn) as (_ & Hc & _). revert Hw. apply shut_names, Hc.
  Qed.
  Lemma ap_run f : (forall c, f c = true -> class c = 7) -> step X X (take_while1 f) (take_while1 f).
  Proof.
    intros Hc. apply (apart_token _ (fun t a => t = a /\ t <> [] /\ forallb f t = true) (fun _ r => ends f r)).
    - intros s r a. apply take1_word.
    - intros t a (_ & _ & H). apply (run_no_close f); [|exact H]. intros c E. rewrite (Hc c E). discriminate.
    - intros t. apply even_ends. intros c Hk. destruct (f c) eqn:Ef; [|reflexivity]. apply Hc in Ef. apply class_close in Hk. congruence.
    - intros t a w _ Hw _ (_ & _ & Ht). split; [|exact I]. revert Hw. apply shut_plains. intros c Hi. right.
      rewrite forallb_forall in Ht. apply Hc, Ht, Hi.
  Qed.
  Lemma ap_spaces : step X X spaces spaces.
  Proof. apply ap_run, class_mem. reflexivity. Qed.
  Lemma ap_commas : step X X (is_a (L ",")) (is_a (L ",")).
  Proof. apply ap_run, class_mem. reflexivity. Qed.
  Lemma ap_space1 : step X X space1 space1.
  Proof. apply ap_run, class_mem. reflexivity. Qed.
  Lemma ap_spnl : step X X spaces_and_newlines spaces_and_newlines.
  Proof. apply ap_run, class_mem. reflexivity. Qed.
  Lemma ap_multispace : step X X multispace multispace.
  Proof. apply ap_run, class_mem. reflexivity. Qed.
  Lemma ap_multispace0 : step X X multispace0 multispace0.
  Proof.
    intros s s' Hs. pose proof (ap_multispace s s' Hs) as H. rewrite !multispace0_eq.
    destruct (multispace s), (multispace s'); cbn in *; try tauto.
    split; [reflexivity|]. split; [exact Hs|exists []; auto].
  Qed.
  Lemma ap_char (P P' : str -> Prop) c : class c <> 4 -> (forall w, w <> [] -> closes (S d) (c :: w) -> P (c :: w) -> closes (S d) w /\ P' w) ->
    step (apart P d z z') (apart P' d z z') (char_ c) (char_ c).
  Proof.
    intros Hc H. apply (apart_token _ (fun t a => t = [c] /\ a = c) (fun _ _ => True)).
    - intros s r a. apply char_word.
    - intros t a [-> _] x [<-|[]]. apply class_no_close, Hc.
    - intros t. apply even_true.
    - intros t a w Hne Hw HP [-> _]. exact (H w Hne Hw HP).
  Qed.
  Lemma ap_comma : step X X (char_ (C ",")) (char_ (C ",")).
  Proof. apply ap_char; [discriminate|]. intros w _ H _. split; [|exact I]. eapply shut_plain; [|exact H]. right. reflexivity. Qed.
  Lemma ap_op_char c : is_op_char c = true -> c <> C "-" -> step X X (char_ c) (char_ c).
  Proof.
    intros Hc H1. apply class_op in Hc. apply ap_char; [congruence|]. intros w _ H _.
    apply shut_op in H; [|exact Hc]. destruct H as [(_ & _ & K4)|(x & y & E & _)]; [split; [exact K4|exact I]|]. injection E as -> _; congruence.
  Qed.
  Lemma ap_arrow : step X X (tag (L "->")) (tag (L "->")).
  Proof.
    apply (apart_token _ (fun t a => t = L "->" /\ a = L "->") (fun _ _ => True)).
    - intros s r a. apply tag_word.
    - intros t a [-> _]. apply (run_no_close is_op_char); [exact op_not_4|reflexivity].
    - intros t. apply even_true.
    - intros t a w _ Hw _ [-> _]. split; [|exact I]. apply (shut_ops _ (L "->")); [reflexivity| |exact Hw]. intros (x & E). discriminate E.
  Qed.
  Lemma ap_word k (P : str -> Prop) : forallb is_name_char k = true -> step (apart P d z z') X (tag k) (tag k).
  Proof.
    intros Hk. apply (apart_token _ (fun t a => t = k /\ a = k) (fun _ _ => True)).
    - intros s r a. apply tag_word.
    - intros t a [-> _]. apply (run_no_close is_name_char); [exact name_not_4|exact Hk].
    - intros t. apply even_true.
    - intros t a w _ Hw _ [-> _]. split; [|exact I]. revert Hw. apply shut_names, Hk.
  Qed.
  Lemma ap_integer : step X X integer integer.
  Proof.
    apply (apart_token integer (fun t a => a = Integer t /\ integer_text t) (fun _ r => ends is_dec r)).
    - intros s r a. rewrite integer_iff. split; [intros (n & -> & -> & H1 & H2); exists n; auto|intros (t & -> & [-> H] & H2); exists t; auto].
    - intros t a [-> (sg & x & -> & Hs & Hx)]. apply no_close_app; [apply sign_no_close, Hs|apply digits_no_close, Hx].
    - intros t. apply even_ends. closers.
    - intros t a w _ Hw _ [-> (sg & x & -> & Hs & Hx)]. split; [|exact I].
      rewrite <- app_assoc in Hw. eapply shut_sign; eassumption.
  Qed.
  Lemma ap_float : step X X float float.
  Proof.
    apply (apart_token float (fun t a => a = Float t /\ float_text t) (fun _ r => ends is_dec r)).
    - intros s r a. rewrite float_iff. split; [intros (n & -> & -> & H1 & H2); exists n; auto|intros (t & -> & [-> H] & H2); exists t; auto].
    - intros t a [-> (sg & x & y & -> & Hs & Hx & Hy)]. apply no_close_app; [apply sign_no_close, Hs|]. apply no_close_app; [apply digits_no_close, Hx|].
      apply (no_close_app (L ".")); [intros c [<-|[]]; reflexivity|apply digits_no_close, Hy].
    - intros t. apply even_ends. closers.
    - intros t a w _ Hw _ [-> (sg & x & y & -> & Hs & Hx & Hy)]. split; [|exact I].
      rewrite <- !app_assoc in Hw. eapply shut_sign in Hw; [|eassumption|eassumption].
      apply (shut_ops _ (L ".")) in Hw; [|reflexivity|intros (y0 & E); discriminate E].
      eapply (shut_sign d [] y); [left; reflexivity|exact Hy|exact (proj1 Hw)].
  Qed.
  Lemma snoc_split (t w2 w : str) k : t ++ w2 = w ++ [k] -> w2 <> [] -> exists w3, w2 = w3 ++ [k] /\ w = t ++ w3.
  Proof.
    intros E Hne. destruct (exists_last Hne) as (w3 & x & ->). rewrite app_assoc in E. apply app_inj_tail in E as [<- ->]. exists w3. auto.
  Qed.
  Lemma string_apart t w k : is_close k = true -> string_token (w ++ [k]) t -> exists a, forall u, stop u -> string_ (t ++ w ++ u) = Ok (w ++ u) a.
  Proof.
    intros Hk H. remember (w ++ [k]) as w0 eqn:Ew. destruct H as [c Hc|c Hc He].
    - exists (String_ c). intros u0 _. apply string_iff. exists c. split; [reflexivity|]. left. split; [|exact Hc].
      unfold quotes3. rewrite <- !app_assoc. reflexivity.
    - exists (String_ c). intros u0 Hu. apply string_iff. exists c. split; [reflexivity|]. right. split; [|split; [|exact Hc]].
      + intros (r & c' & E & Hn). cbn [app] in E. rewrite <- app_assoc in E. unfold quotes3 in E. cbn [app] in E. injection E as E.
        destruct c as [|x c].
        * cbn [app] in E. specialize (He eq_refl). injection E as E. destruct w as [|y w].
          -- cbn [app] in E. subst u0. discriminate Hu.
          -- subst w0. cbn in E, He. injection E as E. subst y. discriminate He.
        * cbn [app] in E. injection E as -> _. inversion Hc; congruence.
      + cbn [app]. rewrite <- app_assoc. reflexivity.
  Qed.
  Lemma not_quote c u : (c =? quote)%N = false -> no_ok (string_ (c :: u)).
  Proof. intros Hc. destruct (string_head (c :: u)) as [H|[x H]]; [exact H|]. injection H as -> _. discriminate Hc. Qed.
  Lemma not_squote c u : (c =? squote)%N = false -> no_ok (character (c :: u)).
  Proof. intros Hc. destruct (character_head (c :: u)) as [H|[x H]]; [exact H|]. injection H as -> _. discriminate Hc. Qed.
  Lemma stop_string u : stop u -> no_ok (string_ u).
  Proof. destruct u as [|c u]; [intros _; exact I|]. intros H. apply not_quote. apply close_cases in H as [->|[->| ->]]; reflexivity. Qed.
  Lemma stop_character u : stop u -> no_ok (character u).
  Proof. destruct u as [|c u]; [intros _; exact I|]. intros H. apply not_squote. apply close_cases in H as [->|[->| ->]]; reflexivity. Qed.
  Lemma ap_string : step X X string_ string_.
  Proof.
    intros s s' (w & k & Hk & Hw & _ & -> & ->).
    destruct w as [|c w]; [apply agree_fail; apply stop_string; assumption|].
    destruct (N.eqb_spec c quote) as [->|Hc].
    - cbn [app] in Hw. apply shut_quote in Hw as (t & w2 & E & H2 & H1). symmetry in E.
      change (quote :: w ++ [k]) with ((quote :: w) ++ [k]) in E. apply snoc_split in E as (w3 & -> & ->); [|eapply closes_nonempty, H1].
      destruct (string_apart t w3 k Hk H2) as (a & Ha). rewrite <- !app_assoc, !Ha by assumption. cbn. split; [reflexivity|].
      split; [exists w3, k; repeat split; auto|]. exists t. auto.
    - apply N.eqb_neq in Hc. apply agree_fail; apply not_quote, Hc.
  Qed.
  Lemma ap_character : step X X character character.
  Proof.
    intros s s' (w & k & Hk & Hw & _ & -> & ->).
    destruct w as [|c w]; [apply agree_fail; apply stop_character; assumption|].
    destruct (N.eqb_spec c squote) as [->|Hc].
    - cbn [app] in Hw. apply shut_squote in Hw as (t & w2 & E & H2 & H1). symmetry in E.
      change (squote :: w ++ [k]) with ((squote :: w) ++ [k]) in E. apply snoc_split in E as (w3 & -> & ->); [|eapply closes_nonempty, H1].
      destruct H2 as [x y Hx].
      assert (K : forall u, character ((squote :: x ++ [squote]) ++ w3 ++ u) = Ok (w3 ++ u) (Character y)).
      { intros u. apply character_iff. exists x, y. split; [reflexivity|]. split; [|exact Hx]. cbn [app]. rewrite <- app_assoc. reflexivity. }
      rewrite <- !app_assoc. rewrite !K. cbn -[app]. split; [reflexivity|].
      split; [exists w3, k; repeat split; auto|]. eexists. split; reflexivity.
    - apply N.eqb_neq in Hc. apply agree_fail; apply not_squote, Hc.
  Qed.
  Lemma ap_operator : step (apart code d z z') X operator operator.
  Proof.
    apply (apart_token operator (fun t a => t = a /\ operator_name a) (fun _ r => ends is_op_char r)).
    - intros s r a. rewrite operator_iff. split; [intros (-> & H1 & H2); exists a; auto|intros (t & -> & [-> H] & H2); auto].
    - intros t a [-> (_ & H & _)]. apply (run_no_close is_op_char); [exact op_not_4|exact H].
    - intros t. apply even_ends. closers.
    - intros t a w _ Hw HP [-> (Hne & Ho & _)]. split; [|exact I]. apply (shut_ops _ a w Ho HP Hw).
  Qed.
  Lemma ap_type_variable : step X X type_variable type_variable.
  Proof.
    apply (apart_token type_variable (fun t a => a = TypeVariable t /\ type_var_name t) (fun _ r => ends is_tyvar_char r)).
    - intros s r a. rewrite type_variable_iff. split; [intros (n & -> & -> & H1 & H2); exists n; auto|intros (t & -> & [-> H] & H2); exists t; auto].
    - intros t a [-> (c & x & -> & Hc & Hx)]. apply (run_no_close is_name_char); [exact name_not_4|]. cbn. unfold is_name_char at 1. rewrite Hc.
      apply forallb_forall. intros y Hy. rewrite forallb_forall in Hx. apply tyvar_name, Hx, Hy.
    - intros t. apply even_ends. closers.
    - intros t a w _ Hw _ [-> (c & x & -> & Hc & Hx)]. split; [|exact I]. revert Hw. apply shut_names. cbn. unfold is_name_char at 1. rewrite Hc.
      apply forallb_forall. intros y Hy. rewrite forallb_forall in Hx. apply tyvar_name, Hx, Hy.
  Qed.


  (** ** Layout *)
  Lemma trivia_apart t : trivia t -> forall w k r u, is_close k = true -> stop u -> closes (S d) (w ++ [k]) -> t ++ r = w ++ u -> closed t \/ r = [] ->
    exists w2, w = t ++ w2 /\ r = w2 ++ u /\ closes (S d) (w2 ++ [k]).
  Proof.
    induction 1 as [|t Ht IH|t Ht IH|c t Hc Hle Ht IH]; intros w k r u Hk Hu Hw E Hcl.
    - exists w. auto.
    - destruct w as [|x w]; [cbn in E; subst u; discriminate Hu|]. injection E as <- E. cbn [app] in Hw. apply shut_plain in Hw; [|right; reflexivity].
      destruct (IH w k r u Hk Hu Hw E) as (w2 & -> & -> & H2); [destruct Hcl as [H|H]; [left; apply (closed_tail [space]), H|auto]|]. exists w2. auto.
    - destruct w as [|x w]; [cbn in E; subst u; discriminate Hu|]. injection E as <- E. cbn [app] in Hw. apply shut_plain in Hw; [|right; reflexivity].
      destruct (IH w k r u Hk Hu Hw E) as (w2 & -> & -> & H2); [destruct Hcl as [H|H]; [left; apply (closed_tail [newline]), H|auto]|]. exists w2. auto.
    - destruct w as [|x w]; [cbn in E; subst u; discriminate Hu|]. destruct w as [|y w]; [injection E as <- E; cbn in E; subst u; discriminate Hu|].
      injection E as <- <- E. cbn [app] in Hw. apply shut_op in Hw; [|reflexivity]. destruct Hw as [(H & _)|(x & w0 & Ez & Hx & Hl & Hw0)]; [exfalso; apply H; eexists; reflexivity|].
      injection Ez as Ez. symmetry in Ez. apply snoc_split in Ez as (w3 & -> & ->); [|eapply closes_nonempty, Hw0].
      rewrite <- !app_assoc in E. destruct w3 as [|nl w3]; [cbn in Hl; subst k; discriminate Hk|]. cbn in Hl. subst nl.
      assert (Hl : line_end (t ++ r)).
      { destruct t as [|h t]; [|exact Hle]. cbn [app]. destruct Hcl as [Hcl| ->]; [|exact I]. rewrite app_nil_r in Hcl. exfalso.
        unfold closed in Hcl. rewrite last_line_no_newline in Hcl; [discriminate Hcl|]. apply not_newline_no_newline. exact Hc. }
      assert (c = x /\ t ++ r = (newline :: w3) ++ u) as [-> E2].
      { apply (run_unique not_newline); auto; [|reflexivity]. destruct (t ++ r) as [|h q]; [exact I|]. cbn in *. subst h. reflexivity. }
      destruct (IH (newline :: w3) k r u Hk Hu Hw0 E2) as (w2 & E3 & -> & H2).
      + destruct Hcl as [H|H]; [left|auto]. apply (closed_tail (L "--" ++ x)). rewrite <- app_assoc. exact H.
      + exists w2. rewrite <- !app_assoc, E3. auto.
  Qed.
  Lemma closed_space t : closed t -> closed (space :: t).
  Proof.
    unfold closed. change (space :: t) with ([space] ++ t). destruct (has_newline t) eqn:E.
    - rewrite last_line_app_newline by exact E. auto.
    - rewrite last_line_app_plain by exact E. rewrite last_line_no_newline by exact E. auto.
  Qed.
  Lemma closed_newline t : closed t -> closed (newline :: t).
  Proof.
    unfold closed. change (newline :: t) with ([newline] ++ t). destruct (has_newline t) eqn:E.
    - rewrite last_line_app_newline by exact E. auto.
    - rewrite last_line_app_plain by exact E. rewrite last_line_no_newline by exact E. auto.
  Qed.
  Lemma closed_end t : trivia t -> forall k, is_close k = true -> closes (S d) (t ++ [k]) -> closed t.
  Proof.
    induction 1 as [|t Ht IH|t Ht IH|c t Hc Hle Ht IH]; intros k Hk Hw.
    - reflexivity.
    - apply closed_space, (IH k Hk). cbn [app] in Hw. apply shut_plain in Hw; [exact Hw|right; reflexivity].
    - apply closed_newline, (IH k Hk). cbn [app] in Hw. apply shut_plain in Hw; [exact Hw|right; reflexivity].
    - rewrite <- !app_assoc in Hw. cbn [app] in Hw. apply shut_op in Hw; [|reflexivity].
      destruct Hw as [(H & _)|(x & w0 & Ez & Hx & Hl & Hw0)]; [exfalso; apply H; eexists; reflexivity|]. injection Ez as Ez.
      destruct w0 as [|nl w0]; [destruct (shut_nil _ Hw0)|]. cbn in Hl. subst nl.
      destruct t as [|h t].
      + exfalso. assert (Hi : In newline (c ++ [k])) by (cbn [app] in Ez; rewrite Ez; apply in_or_app; right; left; reflexivity).
        apply in_app_iff in Hi as [Hi|[Hi|[]]]; [|subst k; discriminate Hk]. rewrite forallb_forall in Hc. specialize (Hc _ Hi). discriminate Hc.
      + cbn in Hle. subst h. cbn [app] in Ez.
        assert (c = x /\ newline :: t ++ [k] = newline :: w0) as [_ E2] by (apply (run_unique not_newline); auto; reflexivity).
        unfold closed. rewrite last_line_app_newline by (rewrite has_newline_app; cbn; rewrite ?orb_true_r; reflexivity).
        rewrite last_line_app_newline by reflexivity. apply (IH k Hk). cbn [app]. rewrite E2. exact Hw0.
  Qed.
  Lemma no_trivia_apart w k u u' : is_close k = true -> stop u -> stop u' -> no_trivia (w ++ u) -> ~ dashes (w ++ [k]) /\ no_trivia (w ++ u').
  Proof.
    intros Hk Hu Hu' H. destruct w as [|c w].
    - split; [intros (w' & E); injection E as -> _; discriminate Hk|]. cbn [app]. destruct u' as [|x u']; [exact I|].
      apply close_cases in Hu' as [->|[->| ->]]; (split; [discriminate|]; split; [discriminate|]; intros [K _]; discriminate K).
    - destruct H as (H1 & H2 & H3). split.
      + intros (w' & E). destruct w as [|x w]; [injection E as _ -> _; discriminate Hk|]. injection E as -> -> _. apply H3. split; [reflexivity|]. eexists. reflexivity.
      + split; [exact H1|]. split; [exact H2|]. intros [-> (r & E)]. destruct w as [|x w]; [cbn in E; subst u'; discriminate Hu'|].
        injection E as -> _. apply H3. split; [reflexivity|]. eexists. reflexivity.
  Qed.
  Lemma ap_sp i ir : step X (apart code d z z') (spaces_or_new_lines_and_indent i ir) (spaces_or_new_lines_and_indent i ir).
  Proof.
    intros s s' (w & k & Hk & Hw & _ & -> & ->).
    assert (K : forall u u' r n, stop u -> stop u' -> spaces_or_new_lines_and_indent i ir (w ++ u) = Ok r n -> exists t w2, w = t ++ w2 /\ r = w2 ++ u /\
      closes (S d) (w2 ++ [k]) /\ ~ dashes (w2 ++ [k]) /\ spaces_or_new_lines_and_indent i ir (w ++ u') = Ok (w2 ++ u') n).
    { intros u u' r n Hu Hu' H. apply sp_iff in H as (t & (E & Ht & Hr & Hc) & Hne & Hacc & ->). symmetry in E.
      destruct (trivia_apart t Ht w k r u Hk Hu Hw E Hc) as (w2 & -> & -> & H2). destruct (no_trivia_apart w2 k u u' Hk Hu Hu' Hr) as [H3 H4].
      exists t, w2. split; [reflexivity|]. split; [reflexivity|]. split; [exact H2|]. split; [exact H3|].
      apply sp_iff. exists t. split; [|auto]. split; [rewrite <- app_assoc; reflexivity|]. split; [exact Ht|]. split; [exact H4|].
      destruct Hc as [Hc|Hc]; [auto|]. left. apply app_eq_nil in Hc as [-> _]. rewrite app_nil_r in Hw. apply (closed_end t Ht k Hk Hw). }
    destruct (spaces_or_new_lines_and_indent i ir (w ++ z)) as [r n| |] eqn:E1; [|..].
    - destruct (K z z' r n Hz Hz' E1) as (t & w2 & -> & -> & H1 & H2 & ->). cbn. split; [reflexivity|]. split; [exists w2, k; auto|]. exists t. rewrite <- !app_assoc. auto.
    - destruct (spaces_or_new_lines_and_indent i ir (w ++ z')) as [r n| |] eqn:E2; try exact I. destruct (K z' z r n Hz' Hz E2) as (t & w2 & _ & _ & _ & _ & E). congruence.
    - exact I.
  Qed.
  Lemma ap_sp_on i ir : step X X (spaces_or_new_lines_and_indent i ir) (spaces_or_new_lines_and_indent i ir).
  Proof. eapply step_out; [|apply ap_sp]. wider. Qed.
  Lemma ap_same_indent i : step X X (new_line_and_same_indent i) (new_line_and_same_indent i).
  Proof.
    unfold new_line_and_same_indent. apply step_map_res. eapply step_preceded.
    - apply (ap_char on on); [discriminate|]. intros w _ H _. split; [|exact I]. eapply shut_plain; [|exact H]. right. reflexivity.
    - apply step_map. unfold spaces0. apply step_map, step_opt, ap_spaces.
  Qed.
  (** ** Brackets *)
  Lemma ap_open c : is_open c = true -> step X (apart (fun w => c = C "(" -> code w) (S d) z z') (char_ c) (char_ c).
  Proof.
    intros Hc s s' (w & k & Hk & Hw & _ & -> & ->). destruct w as [|x w].
    - assert (K : forall u, stop u -> char_ c u = Err).
      { intros [|x u] Hu; [reflexivity|]. unfold char_. destruct (N.eqb_spec x c) as [->|]; [|reflexivity].
        apply class_open in Hc. change (is_close c = true) in Hu. apply class_close in Hu. congruence. }
      cbn [app]. rewrite !K by assumption. exact I.
    - unfold char_. cbn [app]. cbn [app] in Hw.
      destruct (N.eqb_spec x c) as [->|]; [|exact I]. apply shut_open in Hw as [H1 H2]; [|apply class_open, Hc].
      split; [reflexivity|]. split; [exists w, k; repeat split; auto|]. exists [c]. auto.
  Qed.
  Lemma ap_open_on c : is_open c = true -> step X (apart on (S d) z z') (char_ c) (char_ c).
  Proof. intros Hc. eapply step_out; [|apply ap_open, Hc]. wider. Qed.
  Lemma ap_open_code : step X (apart code (S d) z z') (char_ (C "(")) (char_ (C "(")).
  Proof. eapply step_out; [|apply ap_open; reflexivity]. intros s s' H. eapply apart_weak; [|exact H]. cbn. auto. Qed.
  Lemma ap_close c : is_close c = true -> step (apart on (S d) z z') X (char_ c) (char_ c).
  Proof.
    intros Hc s s' (w & k & Hk & Hw & _ & -> & ->). destruct w as [|x w].
    - cbn [app] in Hw. apply shut_close in Hw as (d' & E & H2); [|apply class_close, Hk]. injection E as <-. destruct (shut_nil _ H2).
    - unfold char_. cbn [app]. cbn [app] in Hw. destruct (N.eqb_spec x c) as [->|]; [|exact I].
      apply shut_close in Hw as (d' & E & H2); [|apply class_close, Hc]. injection E as <-.
      split; [reflexivity|]. split; [exists w, k; repeat split; auto|]. exists [c]. auto.
  Qed.
End Tokens.
