(** * C74: blank space decides what a symbol between two values means *)
From Verif Require Import Base Nom Regex Ast Good Spec Helpers Types Expr Stmt Total Layout Front Seqs Heads Rules Follow Render
  LexProps CompleteE CompleteX CompleteS Chains Errors Keywords Language CutFile TwoRuns Whole Steps Indep Decls.

(** ** C74: blank space decides what an operator symbol means

    [f] is the term with which an expression starts and [xs] are the arguments read
    so far.  What the symbols that follow mean depends on the blank space on both
    sides of them: [f - 1] subtracts, [f -1] applies [f] to a number, and in [f-1],
    [f -x] and [f- 1] the expression ends before the minus sign. *)

(** the symbols [o] and what follows them, [s], start no argument: not a number and
    not an access function *)
Definition no_argument (o s : str) : Prop :=
  (o = L "+" \/ o = L "-" -> ends is_dec s) /\ (o = L "." -> ends (fun d => is_lower d || (d =? C "_")%N) s).

(** Blank space on both sides: an operation. *)
Theorem C74_operation : forall i s s1 f xs t j o b s2 r e,
  term i s = Ok s1 f -> arguments i s1 xs (t ++ o ++ b ++ s2) -> lay_ge i t j ->
  operator_name o -> (forall o', o <> L "--" ++ o') -> blanks1 b -> expression i s2 = Ok r e ->
  expression i s = Ok r (BinOp (Variable_ [o]) (fold_left Application xs f) e).
Proof.
  intros i s s1 f xs t j o b s2 r e Hf Hxs Ht Ho Hc Hb He. apply (expression_iff _ _ _ _ _ _ Hf).
  assert (Ho' : infix_operator o) by (right; split; [exact Ho|intros [o' E]; eapply Hc, E]).
  exists xs, (t ++ o ++ b ++ s2). split; [exact Hxs|]. split.
  - intros t' j' s' r' x E Ht' Hx. destruct (lay_unique _ _ _ _ _ _ _ _ _ E Ht Ht') as [<- <-].
    + apply infix_no_trivia; assumption.
    + eapply term_no_trivia, Hx.
    + eapply term_some; [exact Hx|]. apply op_term_Err; [exact Ho|].
      destruct Hb as [Hne Hb]. destruct b as [|d b]; [congruence|]. apply andb_true_iff in Hb as [Hb _]. exact Hb.
  - right. exists o, e. split; [|reflexivity]. exists t, j, b, s2. auto.
Qed.
Print Assumptions C74_operation.

(** Blank space before a sign and a digit after it: an argument, whatever follows. *)
Theorem C74_argument : forall i s s1 f xs t j c d s2 r e,
  term i s = Ok s1 f -> arguments i s1 xs (t ++ c :: d ++ s2) -> lay_gt i t j ->
  c = C "+" \/ c = C "-" -> digits1 d -> ends_integer s2 -> expression i s = Ok r e ->
  exists ys r1, arguments i s2 ys r1 /\
    ((r = r1 /\ e = fold_left Application (xs ++ Integer (c :: d) :: ys) f) \/
     exists o e2, operation i r1 o e2 r /\
       e = BinOp (Variable_ [o]) (fold_left Application (xs ++ Integer (c :: d) :: ys) f) e2).
Proof.
  intros i s s1 f xs t j c d s2 r e Hf Hxs Ht Hc Hd Hs2 He.
  refine (offside_in _ _ _ _ _ _ _ _ _ _ Hf Hxs Ht _ _ _ He). apply complete_term.
  change (c :: d ++ s2) with ((c :: d) ++ s2). apply RTerm_integer; [|exact Hs2].
  exists [c], d. split; [reflexivity|]. split; [|exact Hd]. destruct Hc as [->| ->]; [right; left|right; right]; reflexivity.
Qed.
Print Assumptions C74_argument.

(** No blank space before the symbols: the expression ends. *)
Theorem C74_touching : forall i s s1 f xs c r,
  term i s = Ok s1 f -> arguments i s1 xs (c :: r) -> no_trivia (c :: r) ->
  expression i s = Ok (c :: r) (fold_left Application xs f).
Proof.
  intros i s s1 f xs c r Hf Hxs Hn. apply (expression_iff _ _ _ _ _ _ Hf). exists xs, (c :: r).
  assert (K : forall R t j s', c :: r = t ++ s' -> lay R i t j -> False).
  { intros R t j s' E (Ht & Hc & Hne & _). destruct t as [|x t]; [congruence|]. injection E as <- ->.
    destruct Hn as (N1 & N2 & N3). inversion Ht; subst.
    - congruence.
    - congruence.
    - apply N3. split; [reflexivity|]. eexists. reflexivity. }
  split; [exact Hxs|]. split; [|left; repeat split].
  - intros t j s' r' x E Ht _. exact (K _ _ _ _ E Ht).
  - intros o e r' (t & j & b & s' & E & Ht & _). exact (K _ _ _ _ E Ht).
Qed.
Print Assumptions C74_touching.

Lemma op_prefix o c r o' b s' : forallb is_op_char o = true -> is_op_char c = false -> forallb is_op_char o' = true ->
  blanks1 b -> o ++ c :: r = o' ++ b ++ s' -> c :: r = b ++ s'.
Proof.
  intros Ho Hc Ho' [Hne Hb] E. destruct b as [|d b]; [congruence|]. apply andb_true_iff in Hb as [Hd _].
  assert (Hd' : is_op_char d = false).
  { destruct (is_op_char d) eqn:F; [|reflexivity]. assert (H : is_blank d = false) by opc F. congruence. }
  revert o' Ho' E. induction o as [|x o IH]; intros [|y o'] Ho' E; cbn [app forallb] in *.
  - exact E.
  - injection E as <- _. apply andb_true_iff in Ho' as [Ho' _]. congruence.
  - injection E as -> _. apply andb_true_iff in Ho as [Ho _]. congruence.
  - injection E as <- E. apply andb_true_iff in Ho as [_ Ho]. apply andb_true_iff in Ho' as [_ Ho']. exact (IH Ho _ Ho' E).
Qed.

(** No blank space after the symbols, and they start no argument: the expression ends
    before the blank space. *)
Theorem C74_half : forall i s s1 f xs t o c r,
  term i s = Ok s1 f -> arguments i s1 xs (t ++ o ++ c :: r) -> trivia t -> closed t -> no_trivia (o ++ c :: r) ->
  o <> [] -> forallb is_op_char o = true -> is_op_char c = false -> is_blank c = false -> no_argument o (c :: r) ->
  expression i s = Ok (t ++ o ++ c :: r) (fold_left Application xs f).
Proof.
  intros i s s1 f xs t o c r Hf Hxs Ht Hcl Hn Hne Ho Hc Hb [A1 A2]. apply (expression_iff _ _ _ _ _ _ Hf).
  exists xs, (t ++ o ++ c :: r).
  assert (Hr : trivia_run (t ++ o ++ c :: r) t (o ++ c :: r)) by (apply trivia_run_intro; assumption).
  assert (K : forall R t' j' s', t ++ o ++ c :: r = t' ++ s' -> lay R i t' j' -> no_trivia s' -> t = t' /\ o ++ c :: r = s').
  { intros R t' j' s' E H' N'. pose proof (lay_run _ _ _ _ _ H' N') as H2. rewrite <- E in H2. exact (trivia_run_unique _ _ _ _ _ Hr H2). }
  split; [exact Hxs|]. split; [|left; repeat split].
  - intros t' j' s' r' x E Ht' Hx. destruct (K _ _ _ _ E Ht') as [<- <-]; [eapply term_no_trivia, Hx|].
    eapply term_some; [exact Hx|]. destruct o as [|x0 o]; [congruence|]. cbn [app forallb no_term] in *. apply andb_true_iff in Ho as [Hx0 Ho].
    assert (E1 : forall x1, x0 = x1 -> (o = [] -> x0 :: o = [x1]) ) by (intros; subst; reflexivity).
    split; [opc Hx0|]. split; [opc Hx0|]. split; [opc Hx0|]. split; [intros H; exfalso; assert (H' : is_lower x0 = false) by opc Hx0; congruence|].
    split.
    + intros ->. destruct o as [|y o]; [apply A2; reflexivity|]. cbn [app forallb ends] in *. apply andb_true_iff in Ho as [Hy _]. opc Hy.
    + intros H. destruct o as [|y o]; [apply A1; destruct H as [->| ->]; auto|]. cbn [app forallb ends] in *. apply andb_true_iff in Ho as [Hy _]. opc Hy.
  - intros o' e r' (t' & j & b & s' & E & Ht' & Ho' & Hb' & _).
    destruct (K _ _ _ _ E Ht') as [_ E']; [apply infix_no_trivia; assumption|]. destruct Ho' as [->|[(_ & Ho' & _) _]].
    + destruct o as [|x o]; [congruence|]. injection E' as -> _. discriminate Ho.
    + pose proof (op_prefix _ _ _ _ _ _ Ho Hc Ho' Hb' E') as E2. destruct Hb' as [Hbn Hb']. destruct b as [|d b]; [congruence|].
      injection E2 as -> _. apply andb_true_iff in Hb' as [Hd _]. congruence.
Qed.
Print Assumptions C74_half.

(** So a definition in which an operator touches the value before it, or has blank
    space only before it, is not accepted. *)
Lemma statement_op c s : is_op_char c = true -> no_trivia (c :: s) -> statement (c :: s) = Err.
Proof.
  intros Hc Hn. destruct (statement_total (c :: s)) as [(r & st & H)|H]; [exfalso|exact H].
  pose proof (heads_statement _ _ _ H) as (d & s' & E & Hd). injection E as <- <-.
  assert (c = C "-") as ->.
  { unfold statement0, name0 in Hd. apply orb_true_iff in Hd as [Hd|Hd].
    - assert (E : is_lower c || (c =? C "_")%N = false) by opc Hc. congruence.
    - unfold mem_char in Hd. cbn in Hd. repeat (apply orb_true_iff in Hd as [Hd|Hd]; [apply N.eqb_eq in Hd; subst c|]); try discriminate; reflexivity. }
  revert H. unfold statement. do 8 (intros H; apply alt_Ok in H as [H|[_ H]]; [discriminate H|revert H]).
  intros H. apply alt_Ok in H as [H|[_ H]].
  { rewrite map_Err in H; [discriminate H|]. apply function_head_Err; [reflexivity|discriminate]. }
  apply alt_Ok in H as [H|[_ H]]; [discriminate H|]. apply comment_iff in H as (c & _ & [(E & _)|[E _]]); [|discriminate E].
  injection E as ->. destruct Hn as (_ & _ & Hn). apply Hn. split; [reflexivity|]. eexists. reflexivity.
Qed.

Lemma not_accepted n s e r : lower_name n -> no_trivia s -> expression 0 s = Ok r e ->
  (forall b r', r = b ++ r' -> blanks b -> no_blank r' -> r' <> [] /\ statement r' = Err) ->
  file (n ++ L " = " ++ s) = Err.
Proof.
  intros Hn Hs He Hr.
  assert (Hst : statement (n ++ L " = " ++ s) = Ok r (Function_ (mkFunc None (mkDef n [] e)))).
  { apply statement_function_iff, function_iff. left. eexists. split; [|reflexivity]. apply definition_iff.
    exists n, (L " = " ++ s), [], (L " "), (L " "), 0%N, s, e.
    split; [apply RName_lower; [exact Hn|right; reflexivity]|]. split; [apply items_nil|]. split; [split; [discriminate|reflexivity]|].
    split; [|split; [exact He|reflexivity]]. split; [apply trivia_space, trivia_nil|]. repeat split; discriminate. }
  assert (Hb : no_blank (n ++ L " = " ++ s)).
  { destruct (lower_not_newline _ Hn) as (_ & Hne & Hc). destruct n as [|c n]; [congruence|]. cbn in Hc. change (is_blank c = false). apply andb_true_iff in Hc as [Hc _].
    destruct (is_blank c) eqn:E; [|reflexivity]. apply class_name in Hc. apply class_blank in E. congruence. }
  destruct (file_total (n ++ L " = " ++ s)) as [[l E]|E]; [exfalso|exact E].
  apply file_reads in E as (b & s1 & r1 & E & Hb1 & Hs1 & H & Hr1).
  assert (b = [] /\ s1 = n ++ L " = " ++ s) as [-> ->].
  { destruct b as [|c b]; [split; [reflexivity|symmetry; exact E]|]. rewrite E in Hb. change (is_blank c = false) in Hb. apply andb_true_iff in Hb1 as [Hb1 _]. congruence. }
  inversion H as [s0 st r0 H0 E1 E2 E3|s0 st b s' l' r0 H0 Hbb Hs' Hl E1 E2 E3]; subst.
  - rewrite Hst in H0. injection H0 as <- _. destruct (Hr r [] (eq_sym (app_nil_r _)) Hr1 I) as [K _]. congruence.
  - rewrite Hst in H0. injection H0 as -> _. destruct (Hr b s' eq_refl (proj2 Hbb) Hs') as [_ K].
    inversion Hl; congruence.
Qed.

Theorem C74_rejected : forall n s s1 f xs t o c r,
  lower_name n -> term 0 s = Ok s1 f -> arguments 0 s1 xs (t ++ o ++ c :: r) -> ospnl t -> no_trivia (o ++ c :: r) ->
  o <> [] -> forallb is_op_char o = true ->
  t = [] \/ (is_op_char c = false /\ is_blank c = false /\ no_argument o (c :: r)) ->
  file (n ++ L " = " ++ s) = Err.
Proof.
  intros n s s1 f xs t o c r Hn Hf Hxs Ht Hnt Hne Ho Hc.
  assert (He : expression 0 s = Ok (t ++ o ++ c :: r) (fold_left Application xs f)).
  { destruct Hc as [->|(C1 & C2 & C3)].
    - destruct o as [|x o]; [congruence|]. apply C74_touching with (1 := Hf); assumption.
    - destruct (spnl_closed _ Ht) as [Ht1 Ht2]. apply C74_half with (1 := Hf); assumption. }
  apply not_accepted with (e := fold_left Application xs f) (r := t ++ o ++ c :: r); [exact Hn|eapply term_no_trivia, Hf|exact He|].
  destruct o as [|x o]; [congruence|]. cbn [forallb] in Ho. apply andb_true_iff in Ho as [Hx _].
  assert (Hx' : is_blank x = false) by opc Hx.
  intros b r' E Hb Hr'.
  assert (Hb' : blanks t).
  { unfold blanks, ospnl in *. rewrite forallb_forall in Ht |- *. intros y Hy. specialize (Ht y Hy). clear -Ht. chr. }
  pose proof (span_blank_app_eq t ((x :: o) ++ c :: r) Hb' Hx') as E1. rewrite E in E1. rewrite (span_blank_app_eq b r' Hb Hr') in E1.
  injection E1 as -> ->. split; [discriminate|]. apply statement_op; [exact Hx|exact Hnt].
Qed.
Print Assumptions C74_rejected.

(** *** Concrete instances *)
Lemma a_name n : n = L "x" \/ n = L "main" -> lower_name n.
Proof.
  intros [->| ->]; right; (split; [do 2 eexists; repeat split|]); cbn; intros K; repeat destruct K as [K|K]; try discriminate K; try destruct K.
Qed.

Lemma lay_space R : lay R 0 (L " ") 0.
Proof. split; [apply trivia_space, trivia_nil|]. repeat split; discriminate. Qed.
Ltac head_of s' := do 3 eexists; split; [vm_compute; reflexivity|]; split;
  [eapply (arguments_cons 0 (L " ") 0 s' _ _ _ _ (lay_space _)); [vm_compute; reflexivity|constructor]|].

(** [g b - 1] is a subtraction *)
Theorem C74_operation_instance : exists s1 f xs, term 0 (L "g b - 1") = Ok s1 f /\
  arguments 0 s1 xs (L " " ++ L "-" ++ L " " ++ L "1") /\
  expression 0 (L "g b - 1") = Ok [] (BinOp (Variable_ [L "-"]) (fold_left Application xs f) (Integer (L "1"))).
Proof.
  head_of (L "b - 1"). eapply (C74_operation 0 (L "g b - 1") _ _ _ (L " ") 0 (L "-") (L " ") (L "1")).
  - vm_compute; reflexivity.
  - eapply (arguments_cons 0 (L " ") 0 (L "b - 1") _ _ _ _ (lay_space _)); [vm_compute; reflexivity|constructor].
  - apply lay_space.
  - split; [discriminate|]. split; [reflexivity|]. cbn. intros K; repeat destruct K as [K|K]; try discriminate K; destruct K.
  - discriminate.
  - split; [discriminate|reflexivity].
  - vm_compute; reflexivity.
Qed.
(** [g b -1] is a call with two arguments *)
Theorem C74_argument_instance : exists s1 f xs, term 0 (L "g b -1") = Ok s1 f /\
  arguments 0 s1 xs (L " " ++ L "-1") /\
  expression 0 (L "g b -1") = Ok [] (fold_left Application (xs ++ [Integer (L "-1")]) f).
Proof.
  head_of (L "b -1"). destruct (expression 0 (L "g b -1")) as [r e| |] eqn:E; [|vm_compute in E; discriminate E..].
  destruct (C74_argument 0 (L "g b -1") (L " b -1") (Variable_ [L "g"]) [Variable_ [L "b"]] (L " ") 0 (C "-") (L "1") [] r e) as (ys & r1 & Hys & H).
  - vm_compute; reflexivity.
  - eapply (arguments_cons 0 (L " ") 0 (L "b -1") _ _ _ _ (lay_space _)); [vm_compute; reflexivity|constructor].
  - apply lay_space.
  - auto.
  - split; [discriminate|reflexivity].
  - split; [exact I|]. intros (d & r' & K & _). discriminate K.
  - exact E.
  - inversion Hys as [r0|t j s x s' xs r0 Ht Hx _ E1]; [|destruct Ht as (_ & _ & Hne & _); destruct t; [congruence|discriminate E1]]; subst.
    destruct H as [[-> ->]|(o & e2 & (t & j & b & s' & E1 & (_ & _ & Hne & _) & _) & _)]; [reflexivity|]. destruct t; [congruence|discriminate E1].
Qed.
(** [main = g b-1], [main = g b -x], [main = g b- 1] and [main = g b] and, one line
    further, [  +x] are rejected *)
Theorem C74_rejected_instance :
  file (L "main = g b-1") = Err /\ file (L "main = g b -x") = Err /\ file (L "main = g b- 1") = Err /\
  file (L "main = g b" ++ [newline] ++ L "  +x") = Err /\ file (L "main = g b<|>1") = Err.
Proof.
  assert (K : forall s', (exists s0, s' = L "b" ++ s0 /\ term 0 s' = Ok s0 (Variable_ [L "b"])) -> term 0 (L "g " ++ s') = Ok (L " " ++ s') (Variable_ [L "g"]) ->
    forall t o c r, s' = L "b" ++ t ++ o ++ c :: r -> ospnl t -> no_trivia (o ++ c :: r) ->
    o <> [] -> forallb is_op_char o = true -> t = [] \/ (is_op_char c = false /\ is_blank c = false /\ no_argument o (c :: r)) ->
    file (L "main = g " ++ s') = Err).
  { intros s' (s0 & E0 & H) H' t o c r E H1 H2 H3 H4 H5.
    apply (C74_rejected (L "main") (L "g " ++ s') _ _ [Variable_ [L "b"]] t o c r (a_name _ (or_intror eq_refl)) H'); try assumption.
    eapply (arguments_cons 0 (L " ") 0 s' _ s0 _ _ (lay_space _)); [exact H|]. rewrite E in E0. injection E0 as <-. constructor. }
  assert (N : forall o c r, is_dec c = false -> o <> L "." -> no_argument o (c :: r)) by (intros o c r H1 H2; split; [intros _; exact H1|congruence]).
  split; [|split; [|split; [|split]]].
  - apply (K (L "b-1")) with (t := []) (o := L "-") (c := C "1") (r := []); try reflexivity; try discriminate; auto.
    + eexists; split; vm_compute; reflexivity.
    + repeat split; try discriminate. intros [_ [r E]]. discriminate E.
  - apply (K (L "b -x")) with (t := L " ") (o := L "-") (c := C "x") (r := []); try reflexivity; try discriminate.
    + eexists; split; vm_compute; reflexivity.
    + repeat split; try discriminate. intros [_ [r E]]. discriminate E.
    + right. repeat split. discriminate.
  - apply (K (L "b- 1")) with (t := []) (o := L "-") (c := C " ") (r := L "1"); try reflexivity; try discriminate; auto.
    + eexists; split; vm_compute; reflexivity.
    + repeat split; try discriminate. intros [_ [r E]]. discriminate E.
  - apply (K (L "b" ++ [newline] ++ L "  +x")) with (t := newline :: L "  ") (o := L "+") (c := C "x") (r := []); try reflexivity; try discriminate.
    + eexists; split; vm_compute; reflexivity.
    + repeat split; try discriminate. intros [E _]. discriminate E.
    + right. repeat split. discriminate.
  - apply (K (L "b<|>1")) with (t := []) (o := L "<|>") (c := C "1") (r := []); try reflexivity; try discriminate; auto.
    + eexists; split; vm_compute; reflexivity.
    + repeat split; try discriminate. intros [E _]. discriminate E.
Qed.
