(** * Inside brackets

    [closes d w]: read from left to right, [w] has all its strings, character
    literals and comments complete, and its last character closes the last of [d]
    brackets that are open before it.  Comments do not follow a symbol directly.
    Nothing in this first part refers to the parser. *)
From Verif Require Import Base Nom Regex Ast Good Spec Helpers Types Expr Lexers Total Layout Follow LexProps TwoRuns RenameSim Whole Steps Indep.

Definition is_plain (c : char) : bool := is_name_char c || is_other c.
Inductive closes : nat -> str -> Prop :=
| closes_end : closes 0 []
| closes_close d c w : is_close c = true -> closes d w -> closes (S d) (c :: w)
| closes_open d c w : is_open c = true -> (c = C "(" -> ~ dashes w) -> closes (S (S d)) w -> closes (S d) (c :: w)
| closes_operator d c w : is_op_char c = true -> ~ dashes (c :: w) -> ~ dashes w -> closes (S d) w -> closes (S d) (c :: w)
| closes_string d t w : string_token w t -> closes (S d) w -> closes (S d) (t ++ w)
| closes_char d t w : char_token t -> closes (S d) w -> closes (S d) (t ++ w)
| closes_comment d c w : forallb not_newline c = true -> line_end w -> closes (S d) w -> closes (S d) (L "--" ++ c ++ w)
| closes_plain d c w : is_plain c = true -> closes (S d) w -> closes (S d) (c :: w).

(** ** What the first character says *)
Lemma plain_class c : is_plain c = true -> class c = 1 \/ class c = 7.
Proof. unfold is_plain. intros H. apply orb_true_iff in H as [H|H]; [left; apply class_name, H|right; apply class_other, H]. Qed.
Lemma class_name_back c : class c = 1 -> is_name_char c = true.
Proof. unfold class. repeat match goal with |- context [if ?b then _ else _] => destruct b end; congruence. Qed.
Ltac inv_closes H :=
  let d0 := fresh "d0" in let n := fresh "n" in let w0 := fresh "w0" in let E := fresh "E" in let Ed := fresh "Ed" in
  let H1 := fresh "G1" in let H2 := fresh "G2" in let H3 := fresh "G3" in let H4 := fresh "G4" in
  inversion H as [|d0 n w0 H1 H2 Ed E|d0 n w0 H1 H2 H3 Ed E|d0 n w0 H1 H2 H3 H4 Ed E|d0 n w0 H1 H2 Ed E|d0 n w0 H1 H2 Ed E|d0 n w0 H1 H2 H3 Ed E|d0 n w0 H1 H2 Ed E];
  subst; try other_class; try (apply plain_class in H1; exfalso; destruct H1; congruence);
  try (destruct (token_head _ _ H1) as (? & ->); injection E as <- _; match goal with K : class _ = _ |- _ => discriminate K end);
  try (destruct (literal_head _ H1) as (? & ->); injection E as <- _; match goal with K : class _ = _ |- _ => discriminate K end).
Lemma shut_op d c s : class c = 2 -> closes d (c :: s) ->
  (~ dashes (c :: s) /\ ~ dashes s /\ closes d s) \/
  (exists x w, c :: s = L "--" ++ x ++ w /\ forallb not_newline x = true /\ line_end w /\ closes d w).
Proof. intros Hc H. inv_closes H; [left; auto|]. right. exists n, w0. auto. Qed.
Lemma shut_open d c s : class c = 3 -> closes d (c :: s) -> (c = C "(" -> ~ dashes s) /\ closes (S d) s.
Proof. intros Hc H. inv_closes H. auto. Qed.
Lemma shut_close d c s : class c = 4 -> closes d (c :: s) -> exists d', d = S d' /\ closes d' s.
Proof. intros Hc H. inv_closes H. eauto. Qed.
Lemma shut_quote d s : closes d (quote :: s) -> exists t w, quote :: s = t ++ w /\ string_token w t /\ closes d w.
Proof.
  intros H. assert (Hc : class quote = 5) by reflexivity. inv_closes H; [eauto|].
  destruct (literal_head _ G1) as (? & ->). discriminate E.
Qed.
Lemma shut_squote d s : closes d (squote :: s) -> exists t w, squote :: s = t ++ w /\ char_token t /\ closes d w.
Proof.
  intros H. assert (Hc : class squote = 6) by reflexivity. inv_closes H; [|eauto].
  destruct (token_head _ _ G1) as (? & ->). discriminate E.
Qed.
Lemma shut_plain d c s : class c = 1 \/ class c = 7 -> closes d (c :: s) -> closes d s.
Proof. intros [Hc|Hc] H; inv_closes H; assumption. Qed.
Lemma shut_nil d : closes (S d) [] -> False.
Proof.
  intros H. inversion H as [| | | |d0 t w H1 H2 Ed E|d0 t w H1 H2 Ed E| |]; subst; apply app_eq_nil in E as [-> ->].
  - destruct (token_head _ _ H1) as (? & ?). discriminate.
  - destruct (literal_head _ H1) as (? & ?). discriminate.
Qed.
Lemma shut_plains d t w : (forall c, In c t -> class c = 1 \/ class c = 7) -> closes d (t ++ w) -> closes d w.
Proof.
  induction t as [|c t IH]; intros Ht H; [exact H|]. apply IH; [intros x Hx; apply Ht; right; exact Hx|].
  eapply shut_plain; [apply Ht; left; reflexivity|exact H].
Qed.
Lemma shut_ops d o : forall w, forallb is_op_char o = true -> ~ dashes (o ++ w) -> closes d (o ++ w) ->
  closes d w /\ (o <> [] -> ~ dashes w).
Proof.
  induction o as [|c o IH]; intros w Ho Hd H; [split; [exact H|congruence]|].
  cbn in Ho. apply andb_true_iff in Ho as [Hc Ho]. apply shut_op in H; [|apply class_op, Hc].
  destruct H as [(H2 & H3 & H4)|(x & w' & E & _)]; [|exfalso; apply Hd; exists (x ++ w'); exact E].
  destruct (IH w Ho H3 H4) as (H5 & H6). split; [exact H5|]. intros _.
  destruct o as [|c' o]; [auto|]. apply H6. discriminate.
Qed.

(** ** The last character closes *)
Lemma closes_last d w : closes d w -> forall d', d = S d' -> exists u c, w = u ++ [c] /\ is_close c = true.
Proof.
  induction 1 as [|d c w Hc Hw IH|d c w Hc _ Hw IH|d c w Hc _ _ Hw IH|d t w Ht Hw IH|d t w Ht Hw IH|d c w Hc _ Hw IH|d c w Hc Hw IH]; intros d' E.
  - discriminate E.
  - destruct d as [|d]; [inversion Hw; subst; exists [], c; auto|]. destruct (IH d eq_refl) as (u & x & -> & Hx). exists (c :: u), x. auto.
  - destruct (IH _ eq_refl) as (u & x & -> & Hx). exists (c :: u), x. auto.
  - destruct (IH _ eq_refl) as (u & x & -> & Hx). exists (c :: u), x. auto.
  - destruct (IH _ eq_refl) as (u & x & -> & Hx). exists (t ++ u), x. rewrite app_assoc. auto.
  - destruct (IH _ eq_refl) as (u & x & -> & Hx). exists (t ++ u), x. rewrite app_assoc. auto.
  - destruct (IH _ eq_refl) as (u & x & -> & Hx). exists (L "--" ++ c ++ u), x. rewrite !app_assoc. auto.
  - destruct (IH _ eq_refl) as (u & x & -> & Hx). exists (c :: u), x. auto.
Qed.
Definition no_close (t : str) : Prop := forall c, In c t -> is_close c = false.
Lemma before_last (t r u v : str) x : t ++ r = u ++ x :: v -> ~ In x t -> exists u2, u = t ++ u2 /\ r = u2 ++ x :: v.
Proof.
  revert u. induction t as [|c t IH]; intros u E Hn; [exists u; auto|]. destruct u as [|y u].
  - injection E as -> _. exfalso. apply Hn. left. reflexivity.
  - injection E as -> E. destruct (IH u E) as (u2 & -> & ->); [intros H; apply Hn; right; exact H|]. exists u2. auto.
Qed.
Lemma token_inside d t r w v : closes (S d) w -> t ++ r = w ++ v -> no_close t -> exists w2, w = t ++ w2 /\ r = w2 ++ v /\ w2 <> [].
Proof.
  intros H E Hn. destruct (closes_last _ _ H d eq_refl) as (u & c & -> & Hc). rewrite <- app_assoc in E.
  destruct (before_last t r u v c E) as (u2 & -> & ->).
  - intros Hi. rewrite (Hn c Hi) in Hc. discriminate.
  - exists (u2 ++ [c]). rewrite <- !app_assoc. split; [reflexivity|]. split; [reflexivity|]. destruct u2; discriminate.
Qed.
Lemma closes_nonempty d w : closes (S d) w -> w <> [].
Proof. intros H ->. eapply shut_nil, H. Qed.

(** ** The relation: the same text up to the closing bracket, then [v] or [v'] *)
Definition in_ (P : str -> Prop) (d : nat) (v v' s s' : str) : Prop :=
  exists w, closes d w /\ P w /\ s = w ++ v /\ s' = w ++ v'.
Lemma in_weak (P P' : str -> Prop) d v v' s s' : (forall w, P w -> P' w) -> in_ P d v v' s s' -> in_ P' d v v' s s'.
Proof. intros HP (w & H1 & H2 & H3 & H4). exists w. auto. Qed.
Ltac wide := let s := fresh in let s' := fresh in let H := fresh in intros s s' H;
  first [exact H | eapply in_weak; [|exact H]; exact (fun _ _ => I)].

Definition near (Z : str -> Prop) : Prop := forall w v v', w <> [] -> Z (w ++ v) -> Z (w ++ v').
Lemma near_ends f : near (ends f).
Proof. intros w v v' Hw. destruct w; [congruence|]. cbn. auto. Qed.
Lemma near_true : near (fun _ => True).
Proof. intros w v v'. auto. Qed.
Lemma in_token {A} (p : parser A) (W : str -> A -> Prop) (Z : str -> str -> Prop) (P P' : str -> Prop) d v v' :
  (forall s r a, p s = Ok r a <-> exists t, s = t ++ r /\ W t a /\ Z t r) ->
  (forall t a, W t a -> no_close t) -> (forall t, near (Z t)) ->
  (forall t a w u, w <> [] -> closes (S d) (t ++ w) -> P (t ++ w) -> W t a -> Z t (w ++ u) -> closes (S d) w /\ P' w) ->
  step (in_ P (S d) v v') (in_ P' (S d) v v') p p.
Proof.
  intros Hp Hn HZ Hd s s' (w & Hw & HP & -> & ->).
  assert (K : forall v v' r a, p (w ++ v) = Ok r a -> exists t w2, w = t ++ w2 /\ r = w2 ++ v /\
    p (w ++ v') = Ok (w2 ++ v') a /\ closes (S d) w2 /\ P' w2).
  { intros u u' r a H. apply Hp in H as (t & E & HW & Ht). symmetry in E. destruct (token_inside d _ _ _ _ Hw E (Hn _ _ HW)) as (w2 & -> & -> & Hne).
    exists t, w2. split; [reflexivity|]. split; [reflexivity|]. split.
    - apply Hp. exists t. rewrite <- app_assoc. split; [reflexivity|]. split; [exact HW|]. eapply HZ; eassumption.
    - eapply Hd; eassumption. }
  destruct (p (w ++ v)) as [r a| |] eqn:E1; [|..].
  - destruct (K v v' r a E1) as (t & w2 & -> & -> & -> & Hw' & HP'). cbn. split; [reflexivity|]. split; [exists w2; auto|].
    exists t. rewrite <- !app_assoc. auto.
  - destruct (p (w ++ v')) as [r a| |] eqn:E2; try exact I.
    destruct (K v' v r a E2) as (t & w2 & _ & _ & E & _). congruence.
  - exact I.
Qed.

(** ** Tokens *)
Lemma class_no_close c : class c <> 4 -> is_close c = false.
Proof. intros H. destruct (is_close c) eqn:E; [|reflexivity]. apply class_close in E. congruence. Qed.
Lemma run_no_close f t : (forall c, f c = true -> class c <> 4) -> forallb f t = true -> no_close t.
Proof. intros Hf Ht c Hc. rewrite forallb_forall in Ht. apply class_no_close, Hf, Ht, Hc. Qed.
Lemma name_not_4 c : is_name_char c = true -> class c <> 4.
Proof. intros H. rewrite (class_name _ H). discriminate. Qed.
Lemma op_not_4 c : is_op_char c = true -> class c <> 4.
Proof. intros H. rewrite (class_op _ H). discriminate. Qed.
Lemma dec_name c : is_dec c = true -> is_name_char c = true.
Proof. intros H. unfold is_name_char. rewrite H, ?orb_true_r. reflexivity. Qed.
Section Tokens.
  Variables (d : nat) (v v' : str).
  Notation X := (in_ on (S d) v v').
  Lemma shut_names t w : forallb is_name_char t = true -> closes (S d) (t ++ w) -> closes (S d) w.
  Proof. intros Ht. apply shut_plains. intros c Hc. left. rewrite forallb_forall in Ht. apply class_name, Ht, Hc. Qed.
  Lemma in_lo_name : step X X lo_name lo_name.
  Proof.
    apply (in_token lo_name (fun t a => t = a /\ lower_name a) (fun t r => t = L "_" \/ ends is_name_char r)).
    - intros s r a. rewrite lo_name_iff. split; [intros (-> & H1 & H2); exists a; auto|intros (t & -> & [-> H] & H2); auto].
    - intros t a [-> H]. destruct (lower_not_newline _ H) as (_ & _ & Hn). apply (run_no_close is_name_char); [exact name_not_4|exact Hn].
    - intros t w u u' Hw [H|H]; [auto|]. right. revert H. apply near_ends, Hw.
    - intros t a w u _ Hw _ [-> Hn] _. split; [|exact I]. destruct (lower_not_newline _ Hn) as (_ & _ & Hc). revert Hw. apply shut_names, Hc.
  Qed.
  Lemma in_up_name : step X X up_name up_name.
  Proof.
    apply (in_token up_name (fun t a => t = a /\ upper_name a) (fun _ r => ends is_name_char r)).
    - intros s r a. rewrite up_name_iff. split; [intros (-> & H1 & H2); exists a; auto|intros (t & -> & [-> H] & H2); auto].
    - intros t a [-> H]. destruct (upper_run _ H) as (_ & Hn & _). apply (run_no_close is_name_char); [exact name_not_4|exact Hn].
    - intros t. apply near_ends.
    - intros t a w u _ Hw _ [-> Hn] _. split; [|exact I]. destruct (upper_run _ Hn) as (_ & Hc & _). revert Hw. apply shut_names, Hc.
  Qed.
  Lemma in_run f : (forall c, f c = true -> class c = 7) -> step X X (take_while1 f) (take_while1 f).
  Proof.
    intros Hc. apply (in_token _ (fun t a => t = a /\ t <> [] /\ forallb f t = true) (fun _ r => ends f r)).
    - intros s r a. apply take1_word.
    - intros t a (_ & _ & H). apply (run_no_close f); [|exact H]. intros c E. rewrite (Hc c E). discriminate.
    - intros t. apply near_ends.
    - intros t a w u _ Hw _ (_ & _ & Ht) _. split; [|exact I]. revert Hw. apply shut_plains. intros c Hi. right.
      rewrite forallb_forall in Ht. apply Hc, Ht, Hi.
  Qed.
  Lemma in_spaces : step X X spaces spaces.
  Proof. apply in_run, class_mem. reflexivity. Qed.
  Lemma in_commas : step X X (is_a (L ",")) (is_a (L ",")).
  Proof. apply in_run, class_mem. reflexivity. Qed.
  Lemma in_space1 : step X X space1 space1.
  Proof. apply in_run, class_mem. reflexivity. Qed.
  Lemma in_spnl : step X X spaces_and_newlines spaces_and_newlines.
  Proof. apply in_run, class_mem. reflexivity. Qed.
  Lemma in_multispace : step X X multispace multispace.
  Proof. apply in_run, class_mem. reflexivity. Qed.
  Lemma in_multispace0 : step X X multispace0 multispace0.
  Proof.
    intros s s' Hs. pose proof (in_multispace s s' Hs) as H. rewrite !multispace0_eq.
    destruct (multispace s), (multispace s'); cbn in *; try tauto.
    split; [reflexivity|]. split; [exact Hs|exists []; auto].
  Qed.
  Lemma in_char (P P' : str -> Prop) c : class c <> 4 -> (forall w, w <> [] -> closes (S d) (c :: w) -> P (c :: w) -> closes (S d) w /\ P' w) ->
    step (in_ P (S d) v v') (in_ P' (S d) v v') (char_ c) (char_ c).
  Proof.
    intros Hc H. apply (in_token _ (fun t a => t = [c] /\ a = c) (fun _ _ => True)).
    - intros s r a. apply char_word.
    - intros t a [-> _] x [<-|[]]. apply class_no_close, Hc.
    - intros t. apply near_true.
    - intros t a w u Hne Hw HP [-> _] _. exact (H w Hne Hw HP).
  Qed.
  Lemma in_comma : step X X (char_ (C ",")) (char_ (C ",")).
  Proof. apply in_char; [discriminate|]. intros w _ H _. split; [|exact I]. eapply shut_plain; [|exact H]. right. reflexivity. Qed.
  Lemma in_op_char c : is_op_char c = true -> c <> C "-" -> step X X (char_ c) (char_ c).
  Proof.
    intros Hc H1. apply class_op in Hc. apply in_char; [congruence|]. intros w _ H _.
    apply shut_op in H; [|exact Hc]. destruct H as [(_ & _ & K4)|(x & y & E & _)]; [split; [exact K4|exact I]|]. injection E as -> _; congruence.
  Qed.
  Lemma in_arrow : step X X (tag (L "->")) (tag (L "->")).
  Proof.
    apply (in_token _ (fun t a => t = L "->" /\ a = L "->") (fun _ _ => True)).
    - intros s r a. apply tag_word.
    - intros t a [-> _]. apply (run_no_close is_op_char); [exact op_not_4|reflexivity].
    - intros t. apply near_true.
    - intros t a w u _ Hw _ [-> _] _. split; [|exact I]. apply (shut_ops _ (L "->")); [reflexivity| |exact Hw]. intros (x & E). discriminate E.
  Qed.
  Lemma in_word k (P : str -> Prop) : forallb is_name_char k = true -> step (in_ P (S d) v v') X (tag k) (tag k).
  Proof.
    intros Hk. apply (in_token _ (fun t a => t = k /\ a = k) (fun _ _ => True)).
    - intros s r a. apply tag_word.
    - intros t a [-> _]. apply (run_no_close is_name_char); [exact name_not_4|exact Hk].
    - intros t. apply near_true.
    - intros t a w u _ Hw _ [-> _] _. split; [|exact I]. revert Hw. apply shut_names, Hk.
  Qed.
  Lemma shut_sign sg x w : sign_text sg -> digits1 x -> closes (S d) (sg ++ x ++ w) -> closes (S d) w.
  Proof.
    intros Hs [Hx Hd] H.
    assert (Hn : forallb is_name_char x = true) by (rewrite forallb_forall in *; intros c Hc; apply dec_name, Hd, Hc).
    apply (shut_names x); [exact Hn|]. destruct x as [|c x]; [congruence|]. cbn in Hd. apply andb_true_iff in Hd as [Hc _].
    apply (shut_ops _ sg) in H; [exact (proj1 H)| |].
    - destruct Hs as [->|[->| ->]]; reflexivity.
    - intros (z & E). destruct Hs as [->|[->| ->]]; cbn in E; injection E; intros; subst; discriminate.
  Qed.
  Lemma sign_no_close sg : sign_text sg -> no_close sg.
  Proof. intros Hs. apply (run_no_close is_op_char); [exact op_not_4|]. destruct Hs as [->|[->| ->]]; reflexivity. Qed.
  Lemma digits_no_close x : digits1 x -> no_close x.
  Proof. intros [_ H]. apply (run_no_close is_dec); [|exact H]. intros c Hc. apply name_not_4, dec_name, Hc. Qed.
  Lemma no_close_app a b : no_close a -> no_close b -> no_close (a ++ b).
  Proof. intros H1 H2 c Hc. apply in_app_iff in Hc as [Hc|Hc]; auto. Qed.
  Lemma in_integer : step X X integer integer.
  Proof.
    apply (in_token integer (fun t a => a = Integer t /\ integer_text t) (fun _ r => ends is_dec r)).
    - intros s r a. rewrite integer_iff. split; [intros (n & -> & -> & H1 & H2); exists n; auto|intros (t & -> & [-> H] & H2); exists t; auto].
    - intros t a [-> (sg & x & -> & Hs & Hx)]. apply no_close_app; [apply sign_no_close, Hs|apply digits_no_close, Hx].
    - intros t. apply near_ends.
    - intros t a w u _ Hw _ [-> (sg & x & -> & Hs & Hx)] _. split; [|exact I].
      rewrite <- app_assoc in Hw. eapply shut_sign; eassumption.
  Qed.
  Lemma in_float : step X X float float.
  Proof.
    apply (in_token float (fun t a => a = Float t /\ float_text t) (fun _ r => ends is_dec r)).
    - intros s r a. rewrite float_iff. split; [intros (n & -> & -> & H1 & H2); exists n; auto|intros (t & -> & [-> H] & H2); exists t; auto].
    - intros t a [-> (sg & x & y & -> & Hs & Hx & Hy)]. apply no_close_app; [apply sign_no_close, Hs|]. apply no_close_app; [apply digits_no_close, Hx|].
      apply (no_close_app (L ".")); [intros c [<-|[]]; reflexivity|apply digits_no_close, Hy].
    - intros t. apply near_ends.
    - intros t a w u _ Hw _ [-> (sg & x & y & -> & Hs & Hx & Hy)] _. split; [|exact I].
      rewrite <- !app_assoc in Hw. eapply shut_sign in Hw; [|eassumption|eassumption].
      apply (shut_ops _ (L ".")) in Hw; [|reflexivity|intros (z & E); discriminate E].
      eapply (shut_sign [] y); [left; reflexivity|exact Hy|exact (proj1 Hw)].
  Qed.
  Lemma string_inside t w : w <> [] -> string_token w t -> exists a, forall u, string_ (t ++ w ++ u) = Ok (w ++ u) a.
  Proof.
    intros Hne [c Hc|c Hc He].
    - exists (String_ c). intros u0. apply string_iff. exists c. split; [reflexivity|]. left. split; [|exact Hc].
      unfold quotes3. rewrite <- !app_assoc. reflexivity.
    - exists (String_ c). intros u0. apply string_iff. exists c. split; [reflexivity|]. right. split; [|split; [|exact Hc]].
      + intros (r & c' & E & Hn). cbn [app] in E. rewrite <- app_assoc in E. unfold quotes3 in E. cbn [app] in E. injection E as E.
        destruct c as [|x c].
        * cbn [app] in E. specialize (He eq_refl). injection E as E. destruct w as [|y w]; [congruence|]. cbn in E, He. injection E as E.
          subst y. discriminate He.
        * cbn [app] in E. injection E as -> _. inversion Hc; congruence.
      + cbn [app]. rewrite <- app_assoc. reflexivity.
  Qed.
  Lemma in_string : step X X string_ string_.
  Proof.
    intros s s' (w & Hw & _ & -> & ->).
    destruct w as [|c w]; [destruct (shut_nil _ Hw)|].
    destruct (N.eqb_spec c quote) as [->|Hc].
    - apply shut_quote in Hw as (t & w2 & E & H2 & H1).
      rewrite E, <- !app_assoc. destruct (string_inside t w2 (closes_nonempty _ _ H1) H2) as (a & Ha). rewrite !Ha. cbn. split; [reflexivity|].
      split; [exists w2; repeat split; auto|]. exists t. auto.
    - apply agree_fail.
      + destruct (string_head ((c :: w) ++ v)) as [H|[x H]]; [exact H|]. injection H as -> _. congruence.
      + destruct (string_head ((c :: w) ++ v')) as [H|[x H]]; [exact H|]. injection H as -> _. congruence.
  Qed.
  Lemma in_character : step X X character character.
  Proof.
    intros s s' (w & Hw & _ & -> & ->).
    destruct w as [|c w]; [destruct (shut_nil _ Hw)|].
    destruct (N.eqb_spec c squote) as [->|Hc].
    - apply shut_squote in Hw as (t & w2 & E & H2 & H1).
      rewrite E, <- !app_assoc. destruct H2 as [x y Hx].
      assert (K : forall u, character ((squote :: x ++ [squote]) ++ w2 ++ u) = Ok (w2 ++ u) (Character y)).
      { intros u. apply character_iff. exists x, y. split; [reflexivity|]. split; [|exact Hx]. cbn [app]. rewrite <- app_assoc. reflexivity. }
      rewrite !K. cbn -[app]. split; [reflexivity|].
      split; [exists w2; repeat split; auto|]. eexists. split; reflexivity.
    - apply agree_fail.
      + destruct (character_head ((c :: w) ++ v)) as [H|[x H]]; [exact H|]. injection H as -> _. congruence.
      + destruct (character_head ((c :: w) ++ v')) as [H|[x H]]; [exact H|]. injection H as -> _. congruence.
  Qed.
  Lemma in_operator : step (in_ code (S d) v v') X operator operator.
  Proof.
    apply (in_token operator (fun t a => t = a /\ operator_name a) (fun _ r => ends is_op_char r)).
    - intros s r a. rewrite operator_iff. split; [intros (-> & H1 & H2); exists a; auto|intros (t & -> & [-> H] & H2); auto].
    - intros t a [-> (_ & H & _)]. apply (run_no_close is_op_char); [exact op_not_4|exact H].
    - intros t. apply near_ends.
    - intros t a w u _ Hw HP [-> (Hne & Ho & _)] _. split; [|exact I]. apply (shut_ops _ a w Ho HP Hw).
  Qed.
  Lemma in_type_variable : step X X type_variable type_variable.
  Proof.
    apply (in_token type_variable (fun t a => a = TypeVariable t /\ type_var_name t) (fun _ r => ends is_tyvar_char r)).
    - intros s r a. rewrite type_variable_iff. split; [intros (n & -> & -> & H1 & H2); exists n; auto|intros (t & -> & [-> H] & H2); exists t; auto].
    - intros t a [-> (c & x & -> & Hc & Hx)]. apply (run_no_close is_name_char); [exact name_not_4|]. cbn. unfold is_name_char at 1. rewrite Hc.
      apply forallb_forall. intros y Hy. rewrite forallb_forall in Hx. apply tyvar_name, Hx, Hy.
    - intros t. apply near_ends.
    - intros t a w u _ Hw _ [-> (c & x & -> & Hc & Hx)] _. split; [|exact I]. revert Hw. apply shut_names. cbn. unfold is_name_char at 1. rewrite Hc.
      apply forallb_forall. intros y Hy. rewrite forallb_forall in Hx. apply tyvar_name, Hx, Hy.
  Qed.

  (** ** Layout *)
  Lemma trivia_inside t : trivia t -> forall w r u, closes (S d) w -> t ++ r = w ++ u -> closed t \/ r = [] ->
    exists w2, w = t ++ w2 /\ r = w2 ++ u /\ closes (S d) w2.
  Proof.
    induction 1 as [|t Ht IH|t Ht IH|c t Hc Hle Ht IH]; intros w r u Hw E Hcl.
    - exists w. auto.
    - destruct w as [|x w]; [destruct (shut_nil _ Hw)|]. injection E as <- E. apply shut_plain in Hw; [|right; reflexivity].
      destruct (IH w r u Hw E) as (w2 & -> & -> & H2); [destruct Hcl as [H|H]; [left; apply (closed_tail [space]), H|auto]|]. exists w2. auto.
    - destruct w as [|x w]; [destruct (shut_nil _ Hw)|]. injection E as <- E. apply shut_plain in Hw; [|right; reflexivity].
      destruct (IH w r u Hw E) as (w2 & -> & -> & H2); [destruct Hcl as [H|H]; [left; apply (closed_tail [newline]), H|auto]|]. exists w2. auto.
    - destruct w as [|x w]; [destruct (shut_nil _ Hw)|]. destruct w as [|y w].
      { exfalso. injection E as <- _. inversion Hw as [|d0 n w0 H1 H2 Ed E|d0 n w0 H1 H2 H3 Ed E|d0 n w0 H1 H2 H3 H4 Ed E|d0 n w0 H1 H2 Ed E|d0 n w0 H1 H2 Ed E|d0 n w0 H1 H2 H3 Ed E|d0 n w0 H1 H2 Ed E]; subst; try discriminate.
        - eapply shut_nil; eassumption.
        - destruct (token_head _ _ H1) as (? & ->). discriminate E.
        - destruct (literal_head _ H1) as (? & ->). discriminate E. }
      injection E as <- <- E. apply shut_op in Hw; [|reflexivity]. destruct Hw as [(H & _)|(z & w0 & Ez & Hz & Hl & Hw0)]; [exfalso; apply H; eexists; reflexivity|].
      injection Ez as ->. rewrite <- !app_assoc in E.
      destruct w0 as [|nl w0]; [destruct (shut_nil _ Hw0)|]. cbn in Hl. subst nl.
      assert (Hl : line_end (t ++ r)).
      { destruct t as [|h t]; [|exact Hle]. cbn [app]. destruct Hcl as [Hcl| ->]; [|exact I]. rewrite app_nil_r in Hcl. exfalso.
        unfold closed in Hcl. rewrite last_line_no_newline in Hcl; [discriminate Hcl|]. apply not_newline_no_newline. exact Hc. }
      assert (c = z /\ t ++ r = (newline :: w0) ++ u) as [-> E2].
      { apply (run_unique not_newline); auto; [|reflexivity]. destruct (t ++ r) as [|h q]; [exact I|]. cbn in *. subst h. reflexivity. }
      destruct (IH (newline :: w0) r u Hw0 E2) as (w2 & -> & -> & H2).
      + destruct Hcl as [H|H]; [left|auto]. apply (closed_tail (L "--" ++ z)). rewrite <- app_assoc. exact H.
      + exists w2. rewrite <- !app_assoc. auto.
  Qed.
  Lemma no_trivia_near w u u' : w <> [] -> closes (S d) w -> no_trivia (w ++ u) -> ~ dashes w /\ no_trivia (w ++ u').
  Proof.
    intros Hne Hw H. destruct w as [|c w]; [congruence|]. destruct H as (H1 & H2 & H3). split.
    - intros (w' & E). apply H3. injection E as -> ->. split; [reflexivity|]. eexists. reflexivity.
    - split; [exact H1|]. split; [exact H2|]. intros [-> (r & E)]. destruct w as [|x w].
      + inversion Hw as [|d0 n w0 G1 G2 Ed E0|d0 n w0 G1 G2 G3 Ed E0|d0 n w0 G1 G2 G3 G4 Ed E0|d0 n w0 G1 G2 Ed E0|d0 n w0 G1 G2 Ed E0|d0 n w0 G1 G2 G3 Ed E0|d0 n w0 G1 G2 Ed E0]; subst; try discriminate.
        * eapply shut_nil; eassumption.
        * destruct (token_head _ _ G1) as (? & ->). discriminate E0.
        * destruct (literal_head _ G1) as (? & ->). discriminate E0.
      + injection E as -> _. apply H3. split; [reflexivity|]. eexists. reflexivity.
  Qed.
  Lemma in_sp i ir : step X (in_ code (S d) v v') (spaces_or_new_lines_and_indent i ir) (spaces_or_new_lines_and_indent i ir).
  Proof.
    intros s s' (w & Hw & _ & -> & ->).
    assert (K : forall u u' r n, spaces_or_new_lines_and_indent i ir (w ++ u) = Ok r n -> exists t w2, w = t ++ w2 /\ r = w2 ++ u /\ closes (S d) w2 /\ ~ dashes w2 /\
      spaces_or_new_lines_and_indent i ir (w ++ u') = Ok (w2 ++ u') n).
    { intros u u' r n H. apply sp_iff in H as (t & (E & Ht & Hr & Hc) & Hne & Hacc & ->). symmetry in E.
      destruct (trivia_inside t Ht w r u Hw E Hc) as (w2 & -> & -> & H2). destruct (no_trivia_near w2 u u' (closes_nonempty _ _ H2) H2 Hr) as [H3 H4].
      exists t, w2. split; [reflexivity|]. split; [reflexivity|]. split; [exact H2|]. split; [exact H3|].
      apply sp_iff. exists t. split; [|auto]. split; [rewrite <- app_assoc; reflexivity|]. split; [exact Ht|]. split; [exact H4|].
      destruct Hc as [Hc|Hc]; [auto|]. exfalso. apply app_eq_nil in Hc as [-> _]. exact (shut_nil _ H2). }
    destruct (spaces_or_new_lines_and_indent i ir (w ++ v)) as [r n| |] eqn:E1; [|..].
    - destruct (K v v' r n E1) as (t & w2 & -> & -> & H1 & H2 & ->). cbn. split; [reflexivity|]. split; [exists w2; auto|]. exists t. rewrite <- !app_assoc. auto.
    - destruct (spaces_or_new_lines_and_indent i ir (w ++ v')) as [r n| |] eqn:E2; try exact I. destruct (K v' v r n E2) as (t & w2 & _ & _ & _ & _ & E). congruence.
    - exact I.
  Qed.
  Lemma in_sp_on i ir : step X X (spaces_or_new_lines_and_indent i ir) (spaces_or_new_lines_and_indent i ir).
  Proof. eapply step_out; [|apply in_sp]. wide. Qed.
  Lemma in_same_indent i : step X X (new_line_and_same_indent i) (new_line_and_same_indent i).
  Proof.
    unfold new_line_and_same_indent. apply step_map_res. eapply step_preceded.
    - apply (in_char on on); [discriminate|]. intros w _ H _. split; [|exact I]. eapply shut_plain; [|exact H]. right. reflexivity.
    - apply step_map. unfold spaces0. apply step_map, step_opt, in_spaces.
  Qed.
End Tokens.

(** ** Brackets *)
Section Brackets.
  Variables v v' : str.
  Lemma in_open d c : is_open c = true -> step (in_ on (S d) v v') (in_ (fun w => c = C "(" -> code w) (S (S d)) v v') (char_ c) (char_ c).
  Proof.
    intros Hc s s' (w & Hw & _ & -> & ->). destruct w as [|x w]; [destruct (shut_nil _ Hw)|]. unfold char_. cbn [app].
    destruct (N.eqb_spec x c) as [->|]; [|exact I]. apply shut_open in Hw as [H1 H2]; [|apply class_open, Hc].
    split; [reflexivity|]. split; [exists w; auto|]. exists [c]. auto.
  Qed.
  Lemma in_close d c : is_close c = true -> step (in_ on (S d) v v') (in_ on d v v') (char_ c) (char_ c).
  Proof.
    intros Hc s s' (w & Hw & _ & -> & ->). destruct w as [|x w]; [destruct (shut_nil _ Hw)|]. unfold char_. cbn [app].
    destruct (N.eqb_spec x c) as [->|]; [|exact I]. apply shut_close in Hw as (d' & E & H2); [|apply class_close, Hc]. injection E as <-.
    split; [reflexivity|]. split; [exists w; repeat split; auto|]. exists [c]. auto.
  Qed.
  (** the outermost bracket *)
  Definition top (s s' : str) : Prop := exists c w, is_open c = true /\ (c = C "(" -> ~ dashes w) /\ closes 1 w /\ s = c :: w ++ v /\ s' = c :: w ++ v'.
  Lemma top_open c : is_open c = true -> step top (in_ (fun w => c = C "(" -> code w) 1 v v') (char_ c) (char_ c).
  Proof.
    intros Hc s s' (x & w & Hx & Hd & Hw & -> & ->). unfold char_.
    destruct (N.eqb_spec x c) as [->|]; [|exact I]. split; [reflexivity|]. split; [exists w; auto|]. exists [c]. auto.
  Qed.
  (** where a bracket may stand: inside another one, or at the top *)
  Definition place (d : nat) (s s' : str) : Prop := match d with O => top s s' | S _ => in_ on d v v' s s' end.
  Lemma open_at d c : is_open c = true -> step (place d) (in_ (fun w => c = C "(" -> code w) (S d) v v') (char_ c) (char_ c).
  Proof. intros Hc. destruct d; [apply top_open, Hc|apply in_open, Hc]. Qed.
  Lemma open_on d c : is_open c = true -> step (place d) (in_ on (S d) v v') (char_ c) (char_ c).
  Proof. intros Hc. eapply step_out; [|apply open_at, Hc]. wide. Qed.
  Lemma open_code d : step (place d) (in_ code (S d) v v') (char_ (C "(")) (char_ (C "(")).
  Proof. eapply step_out; [|apply open_at; reflexivity]. intros s s' H. eapply in_weak; [|exact H]. cbn. auto. Qed.
End Brackets.
