(** * C72: a phrase in parentheses can be replaced by another one *)
From Verif Require Import Base Nom Regex Ast Good Spec Helpers Types Expr Stmt Total TwoRuns Whole CommentSpec LiteralSpec Literals LiteralsAll LiteralCheck
  Brackets CompleteE Steps Indep Inside InsideAll InsideCheck Flat Phrases Properties24 Properties27 Properties28 Properties29.

(** ** C72: phrases in parentheses

    Take a complete text [u] (C71), to be written in parentheses.
    [only_a_value u]: [(u)] is neither a type nor a list of exported names.
    [value_phrase (u ++ ")", e)]: in all columns [u] is an expression with the tree [e].
    [tuple_phrase (u ++ ")", e)]: in all columns [(u)] is a tuple with the tree [e], and
    [u] is not an expression itself.
    By C69 one column is enough if [u] stands on one line ([C72_line]). *)
Definition only_a_value (u : str) : Prop :=
  (forall i, type_ i (L "(" ++ u ++ L ")") = Err) /\ exports (L "(" ++ u ++ L ")") = Err.
Definition value_phrase (x : str * expr) : Prop := exists u, fst x = u ++ L ")" /\ complete u /\ only_a_value u /\
  forall i, expression i u = Ok [] (snd x).
Definition tuple_phrase (x : str * expr) : Prop := exists u, fst x = u ++ L ")" /\ complete u /\ only_a_value u /\
  (forall i, term i (L "(" ++ u ++ L ")") = Ok [] (snd x)) /\ (exists l, snd x = Tuple l) /\ (forall i e, expression i u <> Ok [] e).
Definition both_phrases (x y : str * expr) : Prop :=
  (value_phrase x /\ value_phrase y) \/ (tuple_phrase x /\ tuple_phrase y).

Lemma complete_parts u : complete u -> closes 1 (u ++ [C ")"]) /\ ~ dashes (u ++ [C ")"]).
Proof. intros (c & w & E & Hc & Hd & Hw). cbn in E. injection E as <- <-. split; [exact Hw|exact (Hd eq_refl)]. Qed.
Lemma op_of_variable s : variable (C "(" :: s) = Err -> op (C "(" :: s) = Err.
Proof. rewrite (variable_is_op (C "(") [] eq_refl); [auto|]. intros _ (y & E). discriminate E. Qed.
Lemma step_F (F : N -> parser expr) : F = expression \/ (exists n, F = expression_n n) ->
  forall v v' i d, step (in_ on (S d) v v') (in_ on (S d) v v') (F i) (expression i).
Proof.
  intros [->|(n & ->)] v v' i d; [apply in_expression|]. intros s s' Hs. apply in_expression_n. exact Hs.
Qed.
Lemma value_alone x : value_phrase x -> nothing_else x /\ forall F, F = expression \/ (exists n, F = expression_n n) -> reads_parens F x.
Proof.
  intros (u & E & Hu & [H1 H2] & He). destruct x as [t e]. cbn [fst snd] in *. subst t. destruct (complete_parts u Hu) as [Hw Hd].
  assert (Hi : forall i, expression i (u ++ L ")") = Ok (L ")") e) by (intros i; apply (C71_whole i u (C ")") [] e eq_refl Hu), He).
  split; [|intros F HF; apply reads_parens_alone; auto using step_F].
  apply nothing_else_alone; auto. apply op_of_variable. apply (op_Err_expr 0 [] _ _ _ eq_refl (Hi 0%N)).
Qed.
Lemma tuple_alone x : tuple_phrase x -> nothing_else x /\ forall F, F = expression \/ (exists n, F = expression_n n) -> reads_tuple F x.
Proof.
  intros (u & E & Hu & [H1 H2] & He & (l & El) & Hn). destruct x as [t e]. cbn [fst snd] in *. subst t e. destruct (complete_parts u Hu) as [Hw Hd].
  assert (Hi : forall i a, expression i (u ++ L ")") <> Ok (L ")") a).
  { intros i a H. apply (C71_whole i u (C ")") [] a eq_refl Hu) in H. exact (Hn i a H). }
  split; [|intros F HF; apply (reads_tuple_alone u (Tuple l) Hw Hd F l); auto using step_F].
  apply nothing_else_alone; auto. specialize (He 0%N). apply paren_iff in He as [(o & s1 & fs & E & Ho & _ & _ & K)|[K|[[K _]|(x & s1 & xs & Hx & _)]]].
  - exfalso. destruct fs as [|f fs]; discriminate K.
  - destruct (Hi _ _ K).
  - rewrite app_nil_r in K. rewrite K. vm_compute. reflexivity.
  - destruct Hx as (b1 & s0 & b2 & -> & Hb & Hx & _). apply op_of_variable. exact (op_Err_expr _ _ _ _ _ Hb Hx).
Qed.
Lemma phrases_alone K : (forall x y, on_round K x y -> both_phrases x y) -> rounds_alone K.
Proof.
  intros HR x y Hxy. destruct (HR x y Hxy) as [[Hx Hy]|[Hx Hy]].
  - apply value_alone in Hx as [Hx Fx]. apply value_alone in Hy as [Hy Fy]. split; [exact Hx|]. split; [exact Hy|].
    split; [|intros n n']; left; split; first [apply Fx|apply Fy]; eauto.
  - apply tuple_alone in Hx as [Hx Fx]. apply tuple_alone in Hy as [Hy Fy]. split; [exact Hx|]. split; [exact Hy|].
    split; [|intros n n']; right; split; first [apply Fx|apply Fy]; eauto.
Qed.

(** [relit K after_other s s'] (LiteralSpec.v): [s'] is [s] with other literals,
    operators and comments (C65, C67), other lists (C70) and other phrases in
    parentheses, where [K] says what may stand for what.  If [K] exchanges values with
    values, tuples with tuples and lists with lists, then one text is a file if and only
    if the other one is, and the trees differ only in what [K] allows. *)
Theorem C72_phrases : forall K s s' l, (forall d, on_digits K d d) -> (forall x y, on_list K x y -> list_phrase x /\ list_phrase y) ->
  (forall x y, on_round K x y -> both_phrases x y) -> (forall x y, ~ on_curly K x y) -> relit K after_other s s' -> file s = Ok [] l ->
  exists l', file s' = Ok [] l' /\ Forall2 (same_stmt K) l l'.
Proof.
  intros K s s' l HK HL HR HC Hs H. assert (HA : lists_alone K) by (intros x y Hx; destruct (HL _ _ Hx); split; apply phrase_alone; assumption).
  pose proof (k_file K HK HA (phrases_alone K HR) (no_curlies K HC) s s' (ex_intro _ _ Hs)) as J. unfold rel in J. rewrite H in J.
  destruct (file s') as [r' l'| |w] eqn:E.
  - destruct J as (Hl & Hr & _). apply X_head in Hr. destruct r'; [|destruct Hr]. eauto.
  - destruct J.
  - exfalso. destruct (ok_file (S (length s')) s' (le_n _)) as [_ Ho]. rewrite E in Ho. exact Ho.
Qed.
Print Assumptions C72_phrases.
Theorem C72_rejected : forall K s s', (forall d, on_digits K d d) -> (forall x y, on_list K x y -> list_phrase x /\ list_phrase y) ->
  (forall x y, on_round K x y -> both_phrases x y) -> (forall x y, ~ on_curly K x y) -> relit K after_other s s' -> (file s = Err <-> file s' = Err).
Proof.
  assert (J : forall K s s', (forall d, on_digits K d d) -> (forall x y, on_list K x y -> list_phrase x /\ list_phrase y) ->
    (forall x y, on_round K x y -> both_phrases x y) -> (forall x y, ~ on_curly K x y) -> relit K after_other s s' -> file s = Err -> file s' = Err).
  { intros K s s' HK HL HR HC Hs H. assert (HA : lists_alone K) by (intros x y Hx; destruct (HL _ _ Hx); split; apply phrase_alone; assumption).
    pose proof (k_file K HK HA (phrases_alone K HR) (no_curlies K HC) s s' (ex_intro _ _ Hs)) as J. unfold rel in J. rewrite H in J.
    destruct (file s') as [r' l'| |w] eqn:E; [destruct J|reflexivity|].
    exfalso. destruct (ok_file (S (length s')) s' (le_n _)) as [_ Ho]. rewrite E in Ho. exact Ho. }
  intros K s s' HK HL HR HC Hs. split; [apply (J K); assumption|]. apply (J (flip K)); [intros d; apply HK|intros x y Hx; apply HL in Hx; tauto| |intros x y; apply HC|apply rl_sym, Hs].
  intros x y Hx. apply HR in Hx as [[H1 H2]|[H1 H2]]; [left|right]; auto.
Qed.
Print Assumptions C72_rejected.

(** *** On one line, one column is enough *)
Theorem C72_line : forall u e, complete u -> has_newline u = false -> type_ 0 (L "(" ++ u ++ L ")") = Err -> exports (L "(" ++ u ++ L ")") = Err ->
  (expression 0 u = Ok [] e -> value_phrase (u ++ L ")", e)) /\
  (forall l, e = Tuple l -> term 0 (L "(" ++ u ++ L ")") = Ok [] e -> (forall a, expression 0 u <> Ok [] a) -> tuple_phrase (u ++ L ")", e)).
Proof.
  intros u e Hu Hn Ht He.
  assert (Hp : has_newline (L "(" ++ u ++ L ")") = false) by (unfold has_newline in *; cbn; rewrite existsb_app, Hn; reflexivity).
  assert (Ho : only_a_value u) by (split; [intros i; rewrite <- Ht; apply C69_column, Hp|exact He]).
  split.
  - intros H. exists u. cbn [fst snd]. repeat (split; [first [reflexivity|assumption]|]). intros i. rewrite <- H. apply C69_column, Hn.
  - intros l -> H Ha. exists u. cbn [fst snd]. repeat (split; [first [reflexivity|assumption]|]).
    split; [intros i; rewrite <- H; apply C69_column, Hp|]. split; [eauto|].
    intros i a E. apply (Ha a). rewrite <- E. apply C69_column, Hn.
Qed.
Print Assumptions C72_line.

(** *** The tree with the empty tuple for every tuple *)
Fixpoint hollow (e : expr) : expr :=
  match e with
  | List_ l => List_ (map hollow l)
  | Tuple _ => Tuple []
  | Access e f => Access (hollow e) f
  | Record_ l => Record_ (map (fun '(n, e) => (n, hollow e)) l)
  | RecordUpdate n l => RecordUpdate n (map (fun '(n, e) => (n, hollow e)) l)
  | If_ a b c => If_ (hollow a) (hollow b) (hollow c)
  | Let_ l e => Let_ (map hollow_entry l) (hollow e)
  | Case_ e l => Case_ (hollow e) (map (fun '(p, e) => (hollow p, hollow e)) l)
  | Lambda l e => Lambda (map hollow l) (hollow e)
  | Application f x => Application (hollow f) (hollow x)
  | BinOp o a b => BinOp (hollow o) (hollow a) (hollow b)
  | e => e
  end
with hollow_entry (x : let_entry) : let_entry :=
  match x with LetFunction f => LetFunction (hollow_func f) | LetBinding t e => LetBinding (hollow t) (hollow e) end
with hollow_func (f : func) : func :=
  match f with mkFunc g (mkDef n l e) => mkFunc g (mkDef n (map hollow l) (hollow e)) end.
Definition hollow_statement (st : statement_ast) : statement_ast :=
  match st with
  | Function_ f => Function_ (hollow_func f)
  | PortDeclaration n a e => PortDeclaration n a (hollow e)
  | st => st
  end.
(** [any_tuple]: every tuple may stand for every tuple, all else stays *)
Definition any_tuple : kinds := mkKinds eq eq eq eq eq (fun _ _ => False) (fun x y => tuple_phrase x /\ tuple_phrase y) (fun _ _ => False).
Lemma tuple_tree x : tuple_phrase x -> exists l, snd x = Tuple l.
Proof. intros (u & H). apply H. Qed.
Lemma same_export_tuple : forall e e', same_export any_tuple e e' -> e = e'.
Proof.
  fix IH 3. intros e e' H. destruct H; try reflexivity; f_equal; [|destruct H as [->|H]; [reflexivity|exact H]].
  rewrite <- (map_id l), <- (map_id l'). exact (maps _ (fun x => x) IH _ _ H).
Qed.
Fixpoint same_hollow e e' (H : same_expr any_tuple e e') {struct H} : hollow e = hollow e'
with entry_hollow x x' (H : same_entry any_tuple x x') {struct H} : hollow_entry x = hollow_entry x'
with func_hollow f f' (H : same_func any_tuple f f') {struct H} : hollow_func f = hollow_func f'.
Proof.
  - destruct H; try reflexivity; cbn [hollow].
    + destruct H. reflexivity.
    + destruct H. reflexivity.
    + destruct H0. reflexivity.
    + destruct H0, H1. reflexivity.
    + destruct H. reflexivity.
    + destruct H.
    + destruct H as [H1 H2]. apply tuple_tree in H1 as (l & H1). apply tuple_tree in H2 as (l' & H2). cbn in H1, H2. subst e e'. reflexivity.
    + destruct H.
    + f_equal. exact (maps _ hollow same_hollow _ _ H).
    + f_equal. exact (same_hollow _ _ H).
    + f_equal. refine (maps _ _ _ _ _ H). intros [n e] [n' e'] [H1 H2]. cbn in *. subst n'. f_equal. exact (same_hollow _ _ H2).
    + f_equal. refine (maps _ _ _ _ _ H). intros [m e] [m' e'] [H1 H2]. cbn in *. subst m'. f_equal. exact (same_hollow _ _ H2).
    + f_equal; [exact (same_hollow _ _ H)|exact (same_hollow _ _ H0)|exact (same_hollow _ _ H1)].
    + f_equal; [exact (maps _ hollow_entry entry_hollow _ _ H)|exact (same_hollow _ _ H0)].
    + f_equal; [exact (same_hollow _ _ H)|]. refine (maps _ _ _ _ _ H0). intros [p x] [p' x'] [H1 H2]. cbn in *. f_equal; [exact (same_hollow _ _ H1)|exact (same_hollow _ _ H2)].
    + f_equal; [exact (maps _ hollow same_hollow _ _ H)|exact (same_hollow _ _ H0)].
    + f_equal; [exact (same_hollow _ _ H)|exact (same_hollow _ _ H0)].
    + f_equal; [exact (same_hollow _ _ H)|exact (same_hollow _ _ H0)|exact (same_hollow _ _ H1)].
  - destruct H; cbn [hollow_entry]; f_equal; [exact (func_hollow _ _ H)|exact (same_hollow _ _ H)|exact (same_hollow _ _ H0)].
  - destruct H as [g g' n n' l l' e e' Hg Hn Hl He]; cbn [hollow_func].
    assert (En : n = n') by (destruct Hn as [Hn|Hn]; exact Hn). subst n'. f_equal.
    + destruct g as [g|], g' as [g'|]; try destruct Hg as []; [|reflexivity]. f_equal. f_equal. destruct H as [H|H]; exact H.
    + f_equal; [exact (maps _ hollow same_hollow _ _ Hl)|exact (same_hollow _ _ He)].
Qed.
Theorem C72_tuples : forall s s' l, relit any_tuple after_other s s' -> file s = Ok [] l ->
  exists l', file s' = Ok [] l' /\ map hollow_statement l' = map hollow_statement l.
Proof.
  intros s s' l Hs H. destruct (C72_phrases any_tuple s s' l (fun _ => eq_refl) (fun _ _ F => match F with end) (fun _ _ F => or_intror F) (fun _ _ F => F) Hs H) as (l' & H' & Hl). exists l'. split; [exact H'|]. clear - Hl.
  symmetry. refine (maps _ _ _ _ _ Hl). intros a b Hab.
  destruct Hab as [f f' Hf|n x e e' He|c c' Hc|n e e' He|n e e' He|n w e e' He|n x e e' He|x p n n' Hn|n t|n t|n t]; cbn; try reflexivity; f_equal.
  - apply func_hollow, Hf.
  - apply same_hollow, He.
  - exact Hc.
  - apply same_export_tuple, He.
  - apply same_export_tuple, He.
  - apply same_export_tuple, He.
  - destruct e as [e|], e' as [e'|]; [|destruct He|destruct He|reflexivity]. f_equal. apply same_export_tuple, He.
  - destruct Hn as [Hn|Hn]; exact Hn.
Qed.
Print Assumptions C72_tuples.

(** *** Instances *)
Definition value_tree (u : str) : expr := match expression 0 u with Ok _ e => e | _ => Tuple [] end.
Definition tuple_tree_of (u : str) : expr := match term 0 (L "(" ++ u ++ L ")") with Ok _ e => e | _ => Tuple [] end.
Definition values (u u' : str) : (str * expr) * (str * expr) := ((u ++ L ")", value_tree u), (u' ++ L ")", value_tree u')).
Definition tuples (u u' : str) : (str * expr) * (str * expr) := ((u ++ L ")", tuple_tree_of u), (u' ++ L ")", tuple_tree_of u')).
Definition one_line (u : str) : bool :=
  closes_check (S (length (u ++ L ")"))) 1 (u ++ L ")") && negb (WholeCheck.dashes_check (u ++ L ")")) && negb (has_newline u) &&
  match type_ 0 (L "(" ++ u ++ L ")") with Err => true | _ => false end && match exports (L "(" ++ u ++ L ")") with Err => true | _ => false end.
Lemma one_line_phrase u : one_line u = true -> complete u /\ has_newline u = false /\ type_ 0 (L "(" ++ u ++ L ")") = Err /\ exports (L "(" ++ u ++ L ")") = Err.
Proof.
  unfold one_line. intros H. apply andb_true_iff in H as [H H5]. apply andb_true_iff in H as [H H4]. apply andb_true_iff in H as [H H3]. apply andb_true_iff in H as [H1 H2].
  apply negb_true_iff in H2, H3. split; [apply complete_check; assumption|]. split; [exact H3|].
  destruct (type_ 0 (L "(" ++ u ++ L ")")); try discriminate H4. destruct (exports (L "(" ++ u ++ L ")")); try discriminate H5. auto.
Qed.
Lemma value_check u : one_line u = true -> match expression 0 u with Ok [] _ => true | _ => false end = true -> value_phrase (u ++ L ")", value_tree u).
Proof.
  intros H1 H2. apply one_line_phrase in H1 as (H3 & H4 & H5 & H6). unfold value_tree.
  destruct (expression 0 u) as [[|] e| |] eqn:E; try discriminate H2. apply (C72_line u e); assumption.
Qed.
Lemma tuple_check u : one_line u = true -> match expression 0 u with Ok [] _ => false | _ => true end = true ->
  match term 0 (L "(" ++ u ++ L ")") with Ok [] (Tuple _) => true | _ => false end = true -> tuple_phrase (u ++ L ")", tuple_tree_of u).
Proof.
  intros H1 H2 H7. apply one_line_phrase in H1 as (H3 & H4 & H5 & H6). unfold tuple_tree_of.
  destruct (term 0 (L "(" ++ u ++ L ")")) as [[|] e| |] eqn:E; try discriminate H7. destruct e as [| | | | | |l| | | | | | | | | |]; try discriminate H7.
  apply (C72_line u (Tuple l)) with (l := l); auto. intros a Ea. rewrite Ea in H2. discriminate H2.
Qed.
(** a table of phrases, all else equal *)
Definition table (l : list ((str * expr) * (str * expr))) : tests := mkTests str_eqb N.eqb str_eqb str_eqb str_eqb [] l [].
Lemma table_tuple l b s s' : (forall x y, In (x, y) l -> tuple_phrase x /\ tuple_phrase y) ->
  relit (kinds_of (table l)) b s s' -> relit any_tuple b s s'.
Proof.
  intros Hl. apply relit_weak; cbn; try (intros a c H; apply str_eqb_eq, H); [intros a c H; apply N.eqb_eq, H|intros a c []|exact Hl|intros a c []].
Qed.
Definition rounds (a b c d : str) : str :=
  L "module Rounds exposing (f, (+))" ++ nl ++
  L "f : (a, b) -> (Int)" ++ nl ++
  L "f (" ++ a ++ L ") x =" ++ nl ++
  L "  let" ++ nl ++
  L "    (" ++ b ++ L ") = g (x) (" ++ c ++ L ") " ++ quoted (L "(") ++ nl ++
  L "    h (" ++ c ++ L ") = \(" ++ b ++ L ") -> (+) (" ++ c ++ L ")" ++ nl ++
  L "  in" ++ nl ++
  L "    case (" ++ c ++ L ") |> y of" ++ nl ++
  L "      (" ++ a ++ L ") -> if (" ++ d ++ L ") then { r | s = (" ++ c ++ L ") } else (z)" ++ nl ++
  L "      _ -> [ (" ++ d ++ L "), (a, (" ++ d ++ L ")) ]".
Definition rounds1 : str := rounds (L "p, 1") (L "1, q") (L "x + 1") (L "'a'").
Definition rounds2 : str := rounds (L " [], (q, " ++ quoted (L ")") ++ L ") ") (L "[a, b]," ++ L " c, d ") (L "case f x of [] -> (a, b)") (L "\y -> let z = (1) in z").
Definition round_table : list ((str * expr) * (str * expr)) :=
  [tuples (L "p, 1") (L " [], (q, " ++ quoted (L ")") ++ L ") "); tuples (L "1, q") (L "[a, b], c, d "); values (L "x + 1") (L "case f x of [] -> (a, b)");
   values (L "'a'") (L "\y -> let z = (1) in z")].
Lemma values_both u u' x y : values u u' = (x, y) -> one_line u && one_line u' && match expression 0 u, expression 0 u' with Ok [] _, Ok [] _ => true | _, _ => false end = true ->
  value_phrase x /\ value_phrase y.
Proof.
  intros E H. assert (Ex : x = (u ++ L ")", value_tree u)) by (unfold values in E; congruence). assert (Ey : y = (u' ++ L ")", value_tree u')) by (unfold values in E; congruence).
  subst x y. clear E. apply andb_true_iff in H as [H H3]. apply andb_true_iff in H as [H1 H2].
  split; apply value_check; auto; destruct (expression 0 u) as [[|]| |], (expression 0 u') as [[|]| |]; auto.
Qed.
Definition is_tuple (u : str) : bool := match expression 0 u, term 0 (L "(" ++ u ++ L ")") with Ok [] _, _ => false | _, Ok [] (Tuple _) => true | _, _ => false end.
Lemma tuples_both u u' x y : tuples u u' = (x, y) -> one_line u && one_line u' && is_tuple u && is_tuple u' = true -> tuple_phrase x /\ tuple_phrase y.
Proof.
  assert (J : forall u, one_line u = true -> is_tuple u = true -> tuple_phrase (u ++ L ")", tuple_tree_of u)).
  { intros v H1 H2. unfold is_tuple in H2. apply tuple_check; [exact H1|..]; destruct (expression 0 v) as [[|]| |]; auto; discriminate H2. }
  intros E H. assert (Ex : x = (u ++ L ")", tuple_tree_of u)) by (unfold tuples in E; congruence). assert (Ey : y = (u' ++ L ")", tuple_tree_of u')) by (unfold tuples in E; congruence).
  subst x y. clear E. apply andb_true_iff in H as [H H4]. apply andb_true_iff in H as [H H3]. apply andb_true_iff in H as [H1 H2]. auto.
Qed.
Example C72_instance : (forall x y, In (x, y) round_table -> both_phrases x y) /\ relit (kinds_of (table round_table)) after_other rounds1 rounds2 /\
  exists l l', file rounds1 = Ok [] l /\ file rounds2 = Ok [] l' /\ length l = 2 /\ l <> l'.
Proof.
  split; [|split].
  - intros x y H. destruct H as [H|[H|[H|[H|[]]]]].
    1, 2: right; apply (tuples_both _ _ _ _ H); vm_compute; reflexivity.
    1, 2: left; apply (values_both _ _ _ _ H); vm_compute; reflexivity.
  - apply (rl_check_relit _ 900). vm_compute. reflexivity.
  - eexists. eexists. split; [vm_compute; reflexivity|]. split; [vm_compute; reflexivity|]. split; [reflexivity|discriminate].
Qed.
Example C72_tuple_instance :
  let f t := L "x (" ++ t ++ L ") = let (" ++ t ++ L ") = f (" ++ t ++ L ") in (a, b)" in
  relit any_tuple after_other (f (L "a, 1")) (f (L " b , c, [] ")) /\ file (f (L "a, 1")) <> Err.
Proof.
  cbn zeta. split; [|vm_compute; discriminate]. apply (table_tuple [tuples (L "a, 1") (L " b , c, [] ")]).
  - intros x y [H|[]]. apply (tuples_both _ _ _ _ H). vm_compute. reflexivity.
  - apply (rl_check_relit _ 600). vm_compute. reflexivity.
Qed.
(** a text that is rejected stays so *)
Example C72_rejected_instance :
  let f t := L "x = let (" ++ t ++ L ") y in z" in let l := [values (L "f 1") (L "\a -> (a, 1)")] in
  (forall x y, In (x, y) l -> both_phrases x y) /\ relit (kinds_of (table l)) after_other (f (L "f 1")) (f (L "\a -> (a, 1)")) /\ file (f (L "f 1")) = Err.
Proof.
  cbn zeta. split; [|split; [apply (rl_check_relit _ 600)|]; vm_compute; reflexivity].
  intros x y [H|[]]. left. apply (values_both _ _ _ _ H). vm_compute. reflexivity.
Qed.

(** *** The conditions are needed *)
(** A phrase that is a type too cannot stand for one that is not. *)
Example C72_type_needed : expression 0 (L "a") <> Err /\ expression 0 (L "1") <> Err /\ type_ 0 (L "(a)") <> Err /\
  file (L "type alias T = (a)") <> Err /\ file (L "type alias T = (1)") = Err.
Proof. repeat split; vm_compute; first [reflexivity|discriminate]. Qed.
(** Nor can one that is a list of exported names. *)
Example C72_exports_needed : expression 0 (L "(+)") <> Err /\ expression 0 (L "1") <> Err /\ type_ 0 (L "((+))") = Err /\ exports (L "((+))") <> Err /\
  file (L "module M exposing ((+))") <> Err /\ file (L "module M exposing (1)") = Err.
Proof. repeat split; vm_compute; first [reflexivity|discriminate]. Qed.
(** On the left of a definition in a [let] an expression in parentheses is a tuple, so a
    tuple cannot stand for an expression. *)
Example C72_class_needed : let f t := L "x = let (" ++ t ++ L ") = y in (" ++ t ++ L ")" in
  let tree l e := Ok [] [Function_ (mkFunc None (mkDef (L "x") [] (Let_ [LetBinding l (Variable_ [L "y"])] e)))] in
  file (f (L "1")) = tree (Tuple [Integer (L "1")]) (Integer (L "1")) /\
  file (f (L "1, 2")) = tree (Tuple [Integer (L "1"); Integer (L "2")]) (Tuple [Integer (L "1"); Integer (L "2")]).
Proof. cbn zeta. split; vm_compute; reflexivity. Qed.
(** Whether a phrase on several lines is one depends on the column. *)
Example C72_column_needed :
  let f t := L "x =" ++ nl ++ L "  let" ++ nl ++ L "    y = " ++ t ++ nl ++ L "  in y" in
  file (f (L "(f" ++ nl ++ L "        1)")) <> Err /\ file (f (L "(f" ++ nl ++ L "  1)")) = Err /\ expression 0 (L "f" ++ nl ++ L "  1") <> Err.
Proof. cbn zeta. repeat split; vm_compute; first [reflexivity|discriminate]. Qed.
