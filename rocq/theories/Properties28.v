(** * C70: a list literal can be replaced by another one *)
From Verif Require Import Base Nom Regex Ast Good Spec Helpers Types Expr Stmt Total TwoRuns Whole CommentSpec LiteralSpec Literals LiteralsAll LiteralCheck
  Brackets Steps Indep Inside InsideAll InsideCheck Flat Properties24 Properties27.

(** ** C70: a list is a list

    [list_phrase (t, e)]: the text [t] after [\[] is that of a whole list literal
    ([bracketed], as in C68) with the tree [e], in all columns; by C69 one column is
    enough if the literal stands on one line.

    [relit K after_other s s'] (LiteralSpec.v): [s'] is [s] with other literals,
    operators and comments (C65, C67) and with other lists, where [K] says what may
    stand for what.  If [K] exchanges only lists that are lists on their own
    (and no phrases in parentheses, this is C72), then one
    text is a file if and only if the other one is, and the trees differ only in what
    [K] allows: what is in a list never decides how the code around it is read.  This
    covers lists in expressions, in patterns and on the left of a definition. *)
Definition list_phrase (x : str * expr) : Prop :=
  bracketed (L "[" ++ fst x) /\ forall i, term i (L "[" ++ fst x) = Ok [] (snd x).

Lemma reads_alone F x : (forall v v' i d, step (in_ on (S d) v v') (in_ on (S d) v v') (F i) (expression i)) -> list_phrase x -> reads_list F x.
Proof.
  intros HF [(c & w & E & Hc & Hd & Hw) Hx] i s. destruct x as [t e]. cbn [fst snd app] in *. injection E as <- <-.
  pose proof (at_list_f s [] F expression (HF s []) i 0 _ _ (top_here s [] (C "[") t Hc Hd Hw)) as H.
  rewrite app_nil_r in H. specialize (Hx i). apply bracket_list in Hx. rewrite Hx in H. unfold agree in H.
  destruct (list_f F i (C "[" :: t ++ s)) as [r a| |m]; [|destruct H|left; eauto].
  destruct H as (-> & (w0 & H0 & _ & -> & H1) & _). right. inversion H0; subst. reflexivity.
Qed.
Lemma phrase_alone x : list_phrase x -> alone x.
Proof.
  intros H. split; [|intros n]; (apply reads_alone; [|exact H]); intros v v' i d; [apply in_expression|].
  intros u u' Hu. apply in_expression_n. exact Hu.
Qed.
Lemma line_list_phrase t e : bracketed (L "[" ++ t) -> has_newline t = false -> term 0 (L "[" ++ t) = Ok [] e -> list_phrase (t, e).
Proof.
  intros H1 H2 H3. split; [exact H1|]. intros i. cbn [fst snd]. rewrite <- H3. apply C69_column. exact H2.
Qed.

Theorem C70_lists : forall K s s' l, (forall d, on_digits K d d) -> (forall x y, on_list K x y -> list_phrase x /\ list_phrase y) ->
  (forall x y, ~ on_round K x y) -> (forall x y, ~ on_curly K x y) -> relit K after_other s s' -> file s = Ok [] l ->
  exists l', file s' = Ok [] l' /\ Forall2 (same_stmt K) l l'.
Proof.
  intros K s s' l HK HL HR HC Hs H. assert (HA : lists_alone K) by (intros x y Hx; destruct (HL _ _ Hx); split; apply phrase_alone; assumption).
  pose proof (k_file K HK HA (no_rounds K HR) (no_curlies K HC) s s' (ex_intro _ _ Hs)) as J. unfold rel in J. rewrite H in J.
  destruct (file s') as [r' l'| |w] eqn:E.
  - destruct J as (Hl & Hr & _). apply X_head in Hr. destruct r'; [|destruct Hr]. eauto.
  - destruct J.
  - exfalso. destruct (ok_file (S (length s')) s' (le_n _)) as [_ Ho]. rewrite E in Ho. exact Ho.
Qed.
Print Assumptions C70_lists.
Theorem C70_rejected : forall K s s', (forall d, on_digits K d d) -> (forall x y, on_list K x y -> list_phrase x /\ list_phrase y) ->
  (forall x y, ~ on_round K x y) -> (forall x y, ~ on_curly K x y) -> relit K after_other s s' -> (file s = Err <-> file s' = Err).
Proof.
  assert (J : forall K s s', (forall d, on_digits K d d) -> (forall x y, on_list K x y -> list_phrase x /\ list_phrase y) ->
    (forall x y, ~ on_round K x y) -> (forall x y, ~ on_curly K x y) -> relit K after_other s s' -> file s = Err -> file s' = Err).
  { intros K s s' HK HL HR HC Hs H. assert (HA : lists_alone K) by (intros x y Hx; destruct (HL _ _ Hx); split; apply phrase_alone; assumption).
    pose proof (k_file K HK HA (no_rounds K HR) (no_curlies K HC) s s' (ex_intro _ _ Hs)) as J. unfold rel in J. rewrite H in J.
    destruct (file s') as [r' l'| |w] eqn:E; [destruct J|reflexivity|].
    exfalso. destruct (ok_file (S (length s')) s' (le_n _)) as [_ Ho]. rewrite E in Ho. exact Ho. }
  intros K s s' HK HL HR HC Hs. split; [apply (J K); assumption|]. apply (J (flip K)); [intros d; apply HK|intros x y Hx; apply HL in Hx; tauto|intros x y; apply HR|intros x y; apply HC|]. apply rl_sym, Hs.
Qed.
Print Assumptions C70_rejected.

(** *** The tree with the empty list for every list *)
Fixpoint empty (e : expr) : expr :=
  match e with
  | List_ _ => List_ []
  | Tuple l => Tuple (map empty l)
  | Access e f => Access (empty e) f
  | Record_ l => Record_ (map (fun '(n, e) => (n, empty e)) l)
  | RecordUpdate n l => RecordUpdate n (map (fun '(n, e) => (n, empty e)) l)
  | If_ a b c => If_ (empty a) (empty b) (empty c)
  | Let_ l e => Let_ (map empty_entry l) (empty e)
  | Case_ e l => Case_ (empty e) (map (fun '(p, e) => (empty p, empty e)) l)
  | Lambda l e => Lambda (map empty l) (empty e)
  | Application f x => Application (empty f) (empty x)
  | BinOp o a b => BinOp (empty o) (empty a) (empty b)
  | e => e
  end
with empty_entry (x : let_entry) : let_entry :=
  match x with LetFunction f => LetFunction (empty_func f) | LetBinding t e => LetBinding (empty t) (empty e) end
with empty_func (f : func) : func :=
  match f with mkFunc g (mkDef n l e) => mkFunc g (mkDef n (map empty l) (empty e)) end.
Definition empty_statement (st : statement_ast) : statement_ast :=
  match st with
  | Function_ f => Function_ (empty_func f)
  | PortDeclaration n a e => PortDeclaration n a (empty e)
  | st => st
  end.
(** [any_list]: every list may stand for every list, all else stays *)
Definition any_list : kinds := mkKinds eq eq eq eq eq (fun x y => list_phrase x /\ list_phrase y) (fun _ _ => False) (fun _ _ => False).
Lemma phrase_list x : list_phrase x -> exists l, snd x = List_ l.
Proof.
  intros [_ H]. specialize (H 0%N). apply bracket_list in H. unfold list_f in H. apply Seqs.map_Ok in H as (o & _ & ->). eauto.
Qed.
Lemma same_export_eq : forall e e', same_export any_list e e' -> e = e'.
Proof.
  fix IH 3. intros e e' H. destruct H; try reflexivity; f_equal; [|destruct H as [->|H]; [reflexivity|exact H]].
  rewrite <- (map_id l), <- (map_id l'). exact (maps _ (fun x => x) IH _ _ H).
Qed.
Fixpoint same_empty e e' (H : same_expr any_list e e') {struct H} : empty e = empty e'
with entry_empty x x' (H : same_entry any_list x x') {struct H} : empty_entry x = empty_entry x'
with func_empty f f' (H : same_func any_list f f') {struct H} : empty_func f = empty_func f'.
Proof.
  - destruct H; try reflexivity; cbn [empty].
    + destruct H. reflexivity.
    + destruct H. reflexivity.
    + destruct H0. reflexivity.
    + destruct H0, H1. reflexivity.
    + destruct H. reflexivity.
    + destruct H as [H1 H2]. apply phrase_list in H1 as (l & H1). apply phrase_list in H2 as (l' & H2). cbn in H1, H2. subst e e'. reflexivity.
    + destruct H.
    + destruct H.
    + f_equal. exact (maps _ empty same_empty _ _ H).
    + f_equal. exact (same_empty _ _ H).
    + f_equal. refine (maps _ _ _ _ _ H). intros [n e] [n' e'] [H1 H2]. cbn in *. subst n'. f_equal. exact (same_empty _ _ H2).
    + f_equal. refine (maps _ _ _ _ _ H). intros [m e] [m' e'] [H1 H2]. cbn in *. subst m'. f_equal. exact (same_empty _ _ H2).
    + f_equal; [exact (same_empty _ _ H)|exact (same_empty _ _ H0)|exact (same_empty _ _ H1)].
    + f_equal; [exact (maps _ empty_entry entry_empty _ _ H)|exact (same_empty _ _ H0)].
    + f_equal; [exact (same_empty _ _ H)|]. refine (maps _ _ _ _ _ H0). intros [p x] [p' x'] [H1 H2]. cbn in *. f_equal; [exact (same_empty _ _ H1)|exact (same_empty _ _ H2)].
    + f_equal; [exact (maps _ empty same_empty _ _ H)|exact (same_empty _ _ H0)].
    + f_equal; [exact (same_empty _ _ H)|exact (same_empty _ _ H0)].
    + f_equal; [exact (same_empty _ _ H)|exact (same_empty _ _ H0)|exact (same_empty _ _ H1)].
  - destruct H; cbn [empty_entry]; f_equal; [exact (func_empty _ _ H)|exact (same_empty _ _ H)|exact (same_empty _ _ H0)].
  - destruct H as [g g' n n' l l' e e' Hg Hn Hl He]; cbn [empty_func].
    assert (En : n = n') by (destruct Hn as [Hn|Hn]; exact Hn). subst n'. f_equal.
    + destruct g as [g|], g' as [g'|]; try destruct Hg as []; [|reflexivity]. f_equal. f_equal. destruct H as [H|H]; exact H.
    + f_equal; [exact (maps _ empty same_empty _ _ Hl)|exact (same_empty _ _ He)].
Qed.
Theorem C70_shape : forall s s' l, relit any_list after_other s s' -> file s = Ok [] l ->
  exists l', file s' = Ok [] l' /\ map empty_statement l' = map empty_statement l.
Proof.
  intros s s' l Hs H. destruct (C70_lists any_list s s' l (fun _ => eq_refl) (fun _ _ F => F) (fun _ _ F => F) (fun _ _ F => F) Hs H) as (l' & H' & Hl). exists l'. split; [exact H'|]. clear - Hl.
  symmetry. refine (maps _ _ _ _ _ Hl). intros a b Hab.
  destruct Hab as [f f' Hf|n x e e' He|c c' Hc|n e e' He|n e e' He|n w e e' He|n x e e' He|x p n n' Hn|n t|n t|n t]; cbn; try reflexivity; f_equal.
  - apply func_empty, Hf.
  - apply same_empty, He.
  - exact Hc.
  - apply same_export_eq, He.
  - apply same_export_eq, He.
  - apply same_export_eq, He.
  - destruct e as [e|], e' as [e'|]; [|destruct He|destruct He|reflexivity]. f_equal. apply same_export_eq, He.
  - destruct Hn as [Hn|Hn]; exact Hn.
Qed.
Print Assumptions C70_shape.

(** *** Instances *)
Lemma relit_weak K K' : (forall a b, on_string K a b -> on_string K' a b) -> (forall a b, on_char K a b -> on_char K' a b) ->
  (forall a b, on_digits K a b -> on_digits K' a b) -> (forall a b, on_comment K a b -> on_comment K' a b) ->
  (forall a b, on_operator K a b -> on_operator K' a b) -> (forall a b, on_list K a b -> on_list K' a b) -> (forall a b, on_round K a b -> on_round K' a b) -> (forall a b, on_curly K a b -> on_curly K' a b) ->
  forall b s s', relit K b s s' -> relit K' b s s'.
Proof.
  intros H1 H2 H3 H4 H5 H6 H7 H8. induction 1 as [b|b c c' s s'|b c c' s s'|b t t' c c' s s'|b t t' c c' s s'|b d d' s s'|b o o' s s'|b t t' e e' s s'|b t t' e e' s s'|b t t' e e' s s'|b c s s'].
  - apply rl_nil.
  - apply rl_line; auto.
  - apply rl_block; auto.
  - eapply rl_string; eauto.
  - eapply rl_literal; eauto.
  - apply rl_digits; auto.
  - apply rl_operator; auto.
  - eapply rl_list; eauto.
  - eapply rl_round; eauto.
  - eapply rl_curly; eauto.
  - apply rl_other; auto.
Qed.
Lemma table_any_list l b s s' : (forall x y, In (x, y) l -> list_phrase x /\ list_phrase y) ->
  relit (kinds_of (mkTests str_eqb N.eqb str_eqb str_eqb str_eqb l [] [])) b s s' -> relit any_list b s s'.
Proof.
  intros Hl. apply relit_weak; cbn; try (intros a c H; apply str_eqb_eq, H); [intros a c H; apply N.eqb_eq, H|exact Hl|intros a c []|intros a c []].
Qed.
Lemma list_check t : (match L "[" ++ t with c :: w => is_open c && (negb (c =? C "(")%N || negb (WholeCheck.dashes_check w)) && closes_check (S (length w)) 1 w | [] => false end)
  && negb (has_newline t) = true -> forall e, term 0 (L "[" ++ t) = Ok [] e -> list_phrase (t, e).
Proof.
  intros H e He. apply andb_true_iff in H as [H1 H2]. apply line_list_phrase; [apply bracketed_check, H1|apply negb_true_iff, H2|exact He].
Qed.
(** the tree of a list literal *)
Definition tree (t : str) : expr := match term 0 (L "[" ++ t) with Ok _ e => e | _ => List_ [] end.
Definition pair_of (t t' : str) : (str * expr) * (str * expr) := ((t, tree t), (t', tree t')).
Definition lists (a b c d e : str) : str :=
  L "module Lists exposing (..)" ++ nl ++
  L "f [" ++ a ++ L " x =" ++ nl ++
  L "  let" ++ nl ++
  L "    [" ++ b ++ L " = x" ++ nl ++
  L "    g : Int" ++ nl ++
  L "    g = " ++ quoted (L "[") ++ L " |> h [" ++ c ++ L " 1" ++ nl ++
  L "  in" ++ nl ++
  L "    case [" ++ c ++ L " ++ y of" ++ nl ++
  L "      [" ++ d ++ L " -> { r | s = [" ++ e ++ L " }" ++ nl ++
  L "      _ -> ( [" ++ e ++ L ", [ 'a' ] )".
Definition lists1 : str := lists (L " p ]") (L "a, b]") (L "]") (L "c ]") (L " 1, 2 ]").
Definition lists2 : str := lists (L "]") (L " " ++ quoted (L "]") ++ L ", m, (n, o) ]") (L " case a of b -> [c], d ]") (L "]") (L " \z -> if z then [[ ]] else let w = 1 in w ]").
Definition list_table : list ((str * expr) * (str * expr)) :=
  [pair_of (L " p ]") (L "]"); pair_of (L "a, b]") (L " " ++ quoted (L "]") ++ L ", m, (n, o) ]"); pair_of (L "]") (L " case a of b -> [c], d ]");
   pair_of (L "c ]") (L "]"); pair_of (L " 1, 2 ]") (L " \z -> if z then [[ ]] else let w = 1 in w ]")].
Example C70_instance : relit any_list after_other lists1 lists2 /\
  exists l l', file lists1 = Ok [] l /\ file lists2 = Ok [] l' /\ length l = 2 /\ l <> l'.
Proof.
  split.
  - apply (table_any_list list_table).
    + intros x y H. assert (J : forall t t', pair_of t t' = (x, y) -> list_phrase (t, tree t) /\ list_phrase (t', tree t') -> list_phrase x /\ list_phrase y).
      { intros t t' E G. injection E as <- <-. exact G. }
      destruct H as [H|[H|[H|[H|[H|[]]]]]]; (eapply J; [exact H|]); split; apply list_check; vm_compute; reflexivity.
    + apply (rl_check_relit _ 600). vm_compute. reflexivity.
  - eexists. eexists. split; [vm_compute; reflexivity|]. split; [vm_compute; reflexivity|]. split; [reflexivity|discriminate].
Qed.
(** a text that is rejected stays so *)
Example C70_rejected_instance :
  let f t := L "x = let [" ++ t ++ L " y in z" in relit any_list after_other (f (L "]")) (f (L " a, 2 ]")) /\ file (f (L "]")) = Err.
Proof.
  cbn zeta. split; [|vm_compute; reflexivity]. apply (table_any_list [pair_of (L "]") (L " a, 2 ]")]).
  - intros x y [H|[]]. unfold pair_of in H. injection H as <- <-. split; (apply list_check; vm_compute; reflexivity).
  - apply (rl_check_relit _ 600). vm_compute. reflexivity.
Qed.

(** *** The conditions are needed *)
(** Whether a list on several lines is one depends on the column. *)
Example C70_column_needed :
  let f t := L "x =" ++ nl ++ L "  let" ++ nl ++ L "    y = " ++ t ++ nl ++ L "  in y" in
  file (f (L "[ f" ++ nl ++ L "        z ]")) <> Err /\ file (f (L "[ f" ++ nl ++ L "  z ]")) = Err /\ term 0 (L "[ f" ++ nl ++ L "  z ]") <> Err.
Proof. cbn zeta. repeat split; vm_compute; first [reflexivity|discriminate]. Qed.
(** Tuples stand for types and for exports too, so one cannot stand for another. *)
Example C70_tuple_not : term 0 (L "(1, 2)") <> Err /\ term 0 (L "(a, b)") <> Err /\
  file (L "type alias T = (a, b)") <> Err /\ file (L "type alias T = (1, 2)") = Err.
Proof. repeat split; vm_compute; first [reflexivity|discriminate]. Qed.
(** Records without values stand on the left of a definition. *)
Example C70_record_not : term 0 (L "{ a }") <> Err /\ term 0 (L "{ a = 1 }") <> Err /\
  file (L "x = let { a } = b in c") <> Err /\ file (L "x = let { a = 1 } = b in c") = Err.
Proof. repeat split; vm_compute; first [reflexivity|discriminate]. Qed.
