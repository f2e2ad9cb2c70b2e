(** * C75: a phrase in braces can be replaced by another one *)
From Verif Require Import Base Nom Regex Ast Good Spec Helpers Types Expr Stmt Total Layout Front Seqs Language Solution TwoRuns Whole CommentSpec LiteralSpec Literals LiteralsAll LiteralCheck
  Brackets CompleteE CompleteX Steps Indep Inside InsideAll InsideCheck Flat Phrases Properties24 Properties27 Properties28 Properties29 Properties30.

(** ** C75: records

    [record_phrase (t, e)]: the text [{t] is a whole phrase in braces ([bracketed], as in
    C68), in all columns it is a record or a changed record with the tree [e], and it is
    neither a type nor the list of fields that an effect module has
    ([only_a_record]).
    [names_only (t, e)]: the record is written in the short form [{ a, b }]; [bare_record]
    is defined in Language.v.
    By C69 one column is enough if [t] stands on one line ([C75_line]). *)
Definition only_a_record (t : str) : Prop :=
  (forall i, type_ i (L "{" ++ t) = Err) /\
  delimited (char_ (C "{")) (separated_list (tag (L ", ")) effect_field) (char_ (C "}")) (L "{" ++ t) = Err.
Definition record_phrase (x : str * expr) : Prop :=
  bracketed (L "{" ++ fst x) /\ only_a_record (fst x) /\ forall i, term i (L "{" ++ fst x) = Ok [] (snd x).
Definition names_only (x : str * expr) : Prop := bare_record (fst x) (snd x) [].
Definition both_records (x y : str * expr) : Prop := record_phrase x /\ record_phrase y /\ (names_only x <-> names_only y).

Lemma record_closes x : record_phrase x -> closes 1 (fst x).
Proof. intros [(c & w & E & _ & _ & H) _]. cbn in E. injection E as <- <-. exact H. Qed.
Lemma not_empty x r : record_phrase x -> fst x <> L "}" ++ r.
Proof.
  intros Hx E. pose proof (record_closes x Hx) as H. destruct Hx as (_ & [Ht _] & _). rewrite E in *. apply shut_close in H as (d & E1 & H); [|reflexivity].
  injection E1 as <-. inversion H; subst. specialize (Ht 0%N). vm_compute in Ht. discriminate Ht.
Qed.
Lemma bare_start t e r : bare_record t e r -> exists b1 n b2 c z, t = b1 ++ n ++ b2 ++ c :: z /\ blanks b1 /\ lower_name n /\ blanks b2 /\ (c = C "," \/ c = C "}").
Proof.
  intros (f & s1 & fs & (b1 & b2 & -> & H1 & Hn & H2 & _) & Hi & _). exists b1, (fst f), b2.
  inversion Hi as [|? ? ? ? ? ? E]; subst; [|hnf in E; subst]; do 2 eexists; (split; [reflexivity|]); auto.
Qed.
Lemma names_alone x : record_phrase x -> names_only x -> forall F, F = expression \/ (exists n, F = expression_n n) -> reads_names F x.
Proof.
  intros Hx Hn F HF. pose proof (record_closes x Hx) as Hw. destruct x as [t e]. cbn [fst snd] in *. unfold names_only in Hn. cbn [fst snd] in Hn.
  apply reads_names_alone; [exact Hw|apply step_F, HF| |apply names_iff; right; exact Hn].
  intros i. destruct (bare_start _ _ _ Hn) as (b1 & n & b2 & c & z & -> & H1 & H2 & H3 & H4). apply names_braces; assumption.
Qed.
Lemma values_alone x : record_phrase x -> ~ names_only x -> forall F, F = expression \/ (exists n, F = expression_n n) -> reads_values F x.
Proof.
  intros Hx Hn F HF. pose proof (record_closes x Hx) as Hw. pose proof (not_empty x) as He. destruct x as [t e]. cbn [fst snd] in *. unfold names_only in Hn. cbn [fst snd] in Hn.
  pose proof Hx as (_ & _ & Ht). cbn [fst snd] in Ht.
  apply reads_values_alone; [exact Hw|apply step_F, HF|exact Ht|].
  destruct (simplified_record (C "{" :: t)) as [r a| |m] eqn:E; [exfalso|reflexivity|].
  - pose proof (curly_whole t Hw r a E) as ->. change (C "{" :: t) with (L "{" ++ t) in E. pose proof E as E2. apply names_iff in E as [[-> _]|E]; [exact (He [] Hx eq_refl)|].
    destruct (bare_start _ _ _ E) as (b1 & n & b2 & c & z & -> & H1 & H2 & H3 & H4). destruct (names_braces 0 b1 n b2 c z H1 H2 H3 H4) as [N1 N2].
    specialize (Ht 0%N). change (L "{" ++ b1 ++ n ++ b2 ++ c :: z) with (C "{" :: b1 ++ n ++ b2 ++ c :: z) in *. rewrite curly_term in Ht. unfold alt in Ht. rewrite N1, N2, E2 in Ht. injection Ht as ->. exact (Hn E).
  - exfalso. destruct (ok_simplified_record (S (length (C "{" :: t))) (C "{" :: t) (le_n _)) as [_ Ho]. rewrite E in Ho. exact Ho.
Qed.
Lemma names_dec x : record_phrase x -> names_only x \/ ~ names_only x.
Proof.
  intros Hx. destruct (simplified_record (L "{" ++ fst x)) as [r a| |m] eqn:E.
  - pose proof (curly_whole (fst x) (record_closes x Hx) r a E) as ->. pose proof E as E2. apply names_iff in E as [[E _]|E]; [destruct (not_empty x [] Hx E)|].
    left. destruct Hx as (_ & _ & Ht). specialize (Ht 0%N). destruct (bare_start _ _ _ E) as (b1 & n & b2 & c & z & Ex & H1 & H2 & H3 & H4).
    destruct (names_braces 0 b1 n b2 c z H1 H2 H3 H4) as [N1 N2]. rewrite <- Ex in N1, N2. change (L "{" ++ fst x) with (C "{" :: fst x) in *.
    rewrite curly_term in Ht. unfold alt in Ht. rewrite N1, N2, E2 in Ht. injection Ht as E3. unfold names_only. rewrite <- E3. exact E.
  - right. intros Hn. assert (K : simplified_record (L "{" ++ fst x) = Ok [] (snd x)) by (apply names_iff; right; exact Hn). congruence.
  - right. intros Hn. assert (K : simplified_record (L "{" ++ fst x) = Ok [] (snd x)) by (apply names_iff; right; exact Hn). congruence.
Qed.
Lemma record_only x : record_phrase x -> only_value x.
Proof.
  intros Hx. pose proof (record_closes x Hx) as Hw. destruct Hx as (_ & [H1 H2] & _). destruct x as [t e]. apply only_value_alone; assumption.
Qed.
Lemma records_alone K : (forall x y, on_curly K x y -> both_records x y) -> curlies_alone K.
Proof.
  intros HC x y Hxy. destruct (HC x y Hxy) as (Hx & Hy & Hn). split; [apply record_only, Hx|]. split; [apply record_only, Hy|].
  destruct (names_dec x Hx) as [D|D].
  - pose proof (names_alone x Hx D) as Fx. pose proof (names_alone y Hy (proj1 Hn D)) as Fy. split; [|intros n n']; right; split; first [apply Fx|apply Fy]; eauto.
  - assert (D' : ~ names_only y) by (intros H; apply D, Hn, H). pose proof (values_alone x Hx D) as Fx. pose proof (values_alone y Hy D') as Fy.
    split; [|intros n n']; left; split; first [apply Fx|apply Fy]; eauto.
Qed.

(** [relit K after_other s s'] (LiteralSpec.v): [s'] is [s] with other literals, operators
    and comments (C65, C67), other lists (C70), other phrases in parentheses (C72) and
    other phrases in braces, where [K] says what may stand for what.  If [K] exchanges
    lists with lists, values with values, tuples with tuples, records in the short form
    with such records and other records with other records, then one text is a file if
    and only if the other one is, and the trees differ only in what [K] allows. *)
Theorem C75_phrases : forall K s s' l, (forall d, on_digits K d d) -> (forall x y, on_list K x y -> list_phrase x /\ list_phrase y) ->
  (forall x y, on_round K x y -> both_phrases x y) -> (forall x y, on_curly K x y -> both_records x y) -> relit K after_other s s' -> file s = Ok [] l ->
  exists l', file s' = Ok [] l' /\ Forall2 (same_stmt K) l l'.
Proof.
  intros K s s' l HK HL HR HC Hs H. assert (HA : lists_alone K) by (intros x y Hx; destruct (HL _ _ Hx); split; apply phrase_alone; assumption).
  pose proof (k_file K HK HA (phrases_alone K HR) (records_alone K HC) s s' (ex_intro _ _ Hs)) as J. unfold rel in J. rewrite H in J.
  destruct (file s') as [r' l'| |w] eqn:E.
  - destruct J as (Hl & Hr & _). apply X_head in Hr. destruct r'; [|destruct Hr]. eauto.
  - destruct J.
  - exfalso. destruct (ok_file (S (length s')) s' (le_n _)) as [_ Ho]. rewrite E in Ho. exact Ho.
Qed.
Print Assumptions C75_phrases.
Theorem C75_rejected : forall K s s', (forall d, on_digits K d d) -> (forall x y, on_list K x y -> list_phrase x /\ list_phrase y) ->
  (forall x y, on_round K x y -> both_phrases x y) -> (forall x y, on_curly K x y -> both_records x y) -> relit K after_other s s' -> (file s = Err <-> file s' = Err).
Proof.
  assert (J : forall K s s', (forall d, on_digits K d d) -> (forall x y, on_list K x y -> list_phrase x /\ list_phrase y) ->
    (forall x y, on_round K x y -> both_phrases x y) -> (forall x y, on_curly K x y -> both_records x y) -> relit K after_other s s' -> file s = Err -> file s' = Err).
  { intros K s s' HK HL HR HC Hs H. assert (HA : lists_alone K) by (intros x y Hx; destruct (HL _ _ Hx); split; apply phrase_alone; assumption).
    pose proof (k_file K HK HA (phrases_alone K HR) (records_alone K HC) s s' (ex_intro _ _ Hs)) as J. unfold rel in J. rewrite H in J.
    destruct (file s') as [r' l'| |w] eqn:E; [destruct J|reflexivity|].
    exfalso. destruct (ok_file (S (length s')) s' (le_n _)) as [_ Ho]. rewrite E in Ho. exact Ho. }
  intros K s s' HK HL HR HC Hs. split; [apply (J K); assumption|]. apply (J (flip K)); [intros d; apply HK|intros x y Hx; apply HL in Hx; tauto| | |apply rl_sym, Hs].
  - intros x y Hx. apply HR in Hx as [[H1 H2]|[H1 H2]]; [left|right]; auto.
  - intros x y Hx. apply HC in Hx as (H1 & H2 & H3). split; [exact H2|]. split; [exact H1|]. tauto.
Qed.
Print Assumptions C75_rejected.

(** *** On one line, one column is enough *)
Theorem C75_line : forall t e, bracketed (L "{" ++ t) -> has_newline t = false -> type_ 0 (L "{" ++ t) = Err ->
  delimited (char_ (C "{")) (separated_list (tag (L ", ")) effect_field) (char_ (C "}")) (L "{" ++ t) = Err ->
  term 0 (L "{" ++ t) = Ok [] e -> record_phrase (t, e).
Proof.
  intros t e H1 Hn Ht He H. assert (Hp : has_newline (L "{" ++ t) = false) by exact Hn.
  split; [exact H1|]. split; [split; [intros i; rewrite <- Ht; apply C69_column, Hp|exact He]|]. intros i. cbn [fst snd]. rewrite <- H. apply C69_column, Hp.
Qed.
Print Assumptions C75_line.

(** *** The tree with the empty record for every record *)
Fixpoint blank (e : expr) : expr :=
  match e with
  | List_ l => List_ (map blank l)
  | Tuple l => Tuple (map blank l)
  | Access e f => Access (blank e) f
  | Record_ _ => Record_ []
  | RecordUpdate _ _ => Record_ []
  | If_ a b c => If_ (blank a) (blank b) (blank c)
  | Let_ l e => Let_ (map blank_entry l) (blank e)
  | Case_ e l => Case_ (blank e) (map (fun '(p, e) => (blank p, blank e)) l)
  | Lambda l e => Lambda (map blank l) (blank e)
  | Application f x => Application (blank f) (blank x)
  | BinOp o a b => BinOp (blank o) (blank a) (blank b)
  | e => e
  end
with blank_entry (x : let_entry) : let_entry :=
  match x with LetFunction f => LetFunction (blank_func f) | LetBinding t e => LetBinding (blank t) (blank e) end
with blank_func (f : func) : func :=
  match f with mkFunc g (mkDef n l e) => mkFunc g (mkDef n (map blank l) (blank e)) end.
Definition blank_statement (st : statement_ast) : statement_ast :=
  match st with
  | Function_ f => Function_ (blank_func f)
  | PortDeclaration n a e => PortDeclaration n a (blank e)
  | st => st
  end.
(** [any_record]: every record may stand for every record of its form, all else stays *)
Definition any_record : kinds := mkKinds eq eq eq eq eq (fun _ _ => False) (fun _ _ => False) both_records.
Lemma record_tree x : record_phrase x -> blank (snd x) = Record_ [].
Proof.
  intros (_ & _ & H). specialize (H 0%N). apply brace_iff in H as [(t1 & n & t2 & b & s1 & fs & s2 & t3 & j3 & _ & _ & _ & _ & _ & _ & _ & _ & _ & ->)|[(t & _ & _ & ->)|[(t1 & s1 & f & s2 & fs & t2 & _ & _ & _ & _ & _ & ->)|(f & s1 & fs & _ & _ & ->)]]];
    reflexivity.
Qed.
Lemma same_export_record : forall e e', same_export any_record e e' -> e = e'.
Proof.
  fix IH 3. intros e e' H. destruct H; try reflexivity; f_equal; [|destruct H as [->|H]; [reflexivity|exact H]].
  rewrite <- (map_id l), <- (map_id l'). exact (maps _ (fun x => x) IH _ _ H).
Qed.
Fixpoint same_blank e e' (H : same_expr any_record e e') {struct H} : blank e = blank e'
with entry_blank x x' (H : same_entry any_record x x') {struct H} : blank_entry x = blank_entry x'
with func_blank f f' (H : same_func any_record f f') {struct H} : blank_func f = blank_func f'.
Proof.
  - destruct H; try reflexivity; cbn [blank].
    + destruct H. reflexivity.
    + destruct H. reflexivity.
    + destruct H0. reflexivity.
    + destruct H0, H1. reflexivity.
    + destruct H. reflexivity.
    + destruct H.
    + destruct H.
    + destruct H as (H1 & H2 & _). apply record_tree in H1. apply record_tree in H2. cbn [snd] in *. congruence.
    + f_equal. exact (maps _ blank same_blank _ _ H).
    + f_equal. exact (maps _ blank same_blank _ _ H).
    + f_equal. exact (same_blank _ _ H).
    + f_equal; [exact (same_blank _ _ H)|exact (same_blank _ _ H0)|exact (same_blank _ _ H1)].
    + f_equal; [exact (maps _ blank_entry entry_blank _ _ H)|exact (same_blank _ _ H0)].
    + f_equal; [exact (same_blank _ _ H)|]. refine (maps _ _ _ _ _ H0). intros [p x] [p' x'] [H1 H2]. cbn in *. f_equal; [exact (same_blank _ _ H1)|exact (same_blank _ _ H2)].
    + f_equal; [exact (maps _ blank same_blank _ _ H)|exact (same_blank _ _ H0)].
    + f_equal; [exact (same_blank _ _ H)|exact (same_blank _ _ H0)].
    + f_equal; [exact (same_blank _ _ H)|exact (same_blank _ _ H0)|exact (same_blank _ _ H1)].
  - destruct H; cbn [blank_entry]; f_equal; [exact (func_blank _ _ H)|exact (same_blank _ _ H)|exact (same_blank _ _ H0)].
  - destruct H as [g g' n n' l l' e e' Hg Hn Hl He]; cbn [blank_func].
    assert (En : n = n') by (destruct Hn as [Hn|Hn]; exact Hn). subst n'. f_equal.
    + destruct g as [g|], g' as [g'|]; try destruct Hg as []; [|reflexivity]. f_equal. f_equal. destruct H as [H|H]; exact H.
    + f_equal; [exact (maps _ blank same_blank _ _ Hl)|exact (same_blank _ _ He)].
Qed.
Theorem C75_records : forall s s' l, relit any_record after_other s s' -> file s = Ok [] l ->
  exists l', file s' = Ok [] l' /\ map blank_statement l' = map blank_statement l.
Proof.
  intros s s' l Hs H. destruct (C75_phrases any_record s s' l (fun _ => eq_refl) (fun _ _ F => match F with end) (fun _ _ F => match F with end) (fun _ _ F => F) Hs H) as (l' & H' & Hl). exists l'. split; [exact H'|]. clear - Hl.
  symmetry. refine (maps _ _ _ _ _ Hl). intros a b Hab.
  destruct Hab as [f f' Hf|n x e e' He|c c' Hc|n e e' He|n e e' He|n w e e' He|n x e e' He|x p n n' Hn|n t|n t|n t]; cbn; try reflexivity; f_equal.
  - apply func_blank, Hf.
  - apply same_blank, He.
  - exact Hc.
  - apply same_export_record, He.
  - apply same_export_record, He.
  - apply same_export_record, He.
  - destruct e as [e|], e' as [e'|]; [|destruct He|destruct He|reflexivity]. f_equal. apply same_export_record, He.
  - destruct Hn as [Hn|Hn]; exact Hn.
Qed.
Print Assumptions C75_records.

(** *** Phrases in brackets with the same tree

    [same_phrases]: a list, a phrase in parentheses or a phrase in braces may stand for
    another one of its form with the same tree; all else stays.  Then the result is the
    same, in all files (C73 is this without braces). *)
Definition same_phrases : kinds := mkKinds eq eq eq eq eq
  (fun x y => list_phrase x /\ list_phrase y /\ snd x = snd y) (fun x y => both_phrases x y /\ snd x = snd y) (fun x y => both_records x y /\ snd x = snd y).
Lemma list_eq {A} (R : A -> A -> Prop) (HR : forall x y, R x y -> x = y) : forall l l', Forall2 R l l' -> l = l'.
Proof. intros l l' H. induction H as [|x y l l' H _ IH]; [reflexivity|]. f_equal; [exact (HR _ _ H)|exact IH]. Defined.
Lemma export_eq : forall e e', same_export same_phrases e e' -> e = e'.
Proof.
  fix IH 3. intros e e' H. destruct H; try reflexivity; f_equal; [|destruct H as [->|H]; [reflexivity|exact H]].
  exact (list_eq _ IH _ _ H).
Qed.
Fixpoint expr_eq e e' (H : same_expr same_phrases e e') {struct H} : e = e'
with entry_eq x x' (H : same_entry same_phrases x x') {struct H} : x = x'
with func_eq f f' (H : same_func same_phrases f f') {struct H} : f = f'.
Proof.
  - destruct H; try reflexivity.
    + destruct H. reflexivity.
    + destruct H. reflexivity.
    + destruct H0. reflexivity.
    + destruct H0, H1. reflexivity.
    + destruct H. reflexivity.
    + exact (proj2 (proj2 H)).
    + exact (proj2 H).
    + exact (proj2 H).
    + f_equal. exact (list_eq _ expr_eq _ _ H).
    + f_equal. exact (list_eq _ expr_eq _ _ H).
    + f_equal. exact (expr_eq _ _ H).
    + f_equal. refine (list_eq _ _ _ _ H). intros [n e] [n' e'] [H1 H2]. cbn in *. subst n'. f_equal. exact (expr_eq _ _ H2).
    + f_equal. refine (list_eq _ _ _ _ H). intros [m e] [m' e'] [H1 H2]. cbn in *. subst m'. f_equal. exact (expr_eq _ _ H2).
    + f_equal; [exact (expr_eq _ _ H)|exact (expr_eq _ _ H0)|exact (expr_eq _ _ H1)].
    + f_equal; [exact (list_eq _ entry_eq _ _ H)|exact (expr_eq _ _ H0)].
    + f_equal; [exact (expr_eq _ _ H)|]. refine (list_eq _ _ _ _ H0). intros [p x] [p' x'] [H1 H2]. cbn in *. f_equal; [exact (expr_eq _ _ H1)|exact (expr_eq _ _ H2)].
    + f_equal; [exact (list_eq _ expr_eq _ _ H)|exact (expr_eq _ _ H0)].
    + f_equal; [exact (expr_eq _ _ H)|exact (expr_eq _ _ H0)].
    + f_equal; [exact (expr_eq _ _ H)|exact (expr_eq _ _ H0)|exact (expr_eq _ _ H1)].
  - destruct H; f_equal; [exact (func_eq _ _ H)|exact (expr_eq _ _ H)|exact (expr_eq _ _ H0)].
  - destruct H as [g g' n n' l l' e e' Hg Hn Hl He].
    assert (En : n = n') by (destruct Hn as [Hn|Hn]; exact Hn). subst n'. f_equal.
    + destruct g as [g|], g' as [g'|]; try destruct Hg as []; [|reflexivity]. f_equal. f_equal. destruct H as [H|H]; exact H.
    + f_equal; [exact (list_eq _ expr_eq _ _ Hl)|exact (expr_eq _ _ He)].
Qed.
Theorem C75_same : forall s s', relit same_phrases after_other s s' -> file s' = file s.
Proof.
  intros s s' Hs. assert (HL : forall x y, on_list same_phrases x y -> list_phrase x /\ list_phrase y) by (intros x y (H1 & H2 & _); auto).
  assert (HR : forall x y, on_round same_phrases x y -> both_phrases x y) by (intros x y (H1 & _); exact H1).
  assert (HC : forall x y, on_curly same_phrases x y -> both_records x y) by (intros x y (H1 & _); exact H1).
  pose proof (C75_rejected same_phrases s s' (fun _ => eq_refl) HL HR HC Hs) as He.
  destruct (file s) as [r l| |m] eqn:E.
  - assert (r = []) as -> by apply (file_nonempty _ _ _ E).
    destruct (C75_phrases same_phrases s s' l (fun _ => eq_refl) HL HR HC Hs E) as (l' & -> & Hl). f_equal. symmetry. refine (list_eq _ _ _ _ Hl). clear. intros a b Hab.
    destruct Hab as [f f' Hf|n x e e' He|c c' Hc|n e e' He|n e e' He|n w e e' He|n x e e' He|x p n n' Hn|n t|n t|n t]; cbn; try reflexivity; f_equal.
    + apply func_eq, Hf.
    + apply expr_eq, He.
    + exact Hc.
    + apply export_eq, He.
    + apply export_eq, He.
    + apply export_eq, He.
    + destruct e as [e|], e' as [e'|]; [|destruct He|destruct He|reflexivity]. f_equal. apply export_eq, He.
    + destruct Hn as [Hn|Hn]; exact Hn.
  - apply He. reflexivity.
  - exfalso. destruct (ok_file (S (length s)) s (le_n _)) as [_ Ho]. rewrite E in Ho. exact Ho.
Qed.
Print Assumptions C75_same.

(** *** Instances *)
Definition record_tree_of (t : str) : expr := match term 0 (L "{" ++ t) with Ok _ e => e | _ => Tuple [] end.
Definition records (t t' : str) : (str * expr) * (str * expr) := ((t, record_tree_of t), (t', record_tree_of t')).
Definition is_record (t : str) : bool :=
  closes_check (S (length t)) 1 t && negb (has_newline t) && match type_ 0 (L "{" ++ t) with Err => true | _ => false end &&
  match delimited (char_ (C "{")) (separated_list (tag (L ", ")) effect_field) (char_ (C "}")) (L "{" ++ t) with Err => true | _ => false end &&
  match term 0 (L "{" ++ t) with Ok [] _ => true | _ => false end.
Definition is_short (t : str) : bool := match simplified_record (L "{" ++ t) with Ok [] _ => true | _ => false end.
Lemma record_check t : is_record t = true -> record_phrase (t, record_tree_of t).
Proof.
  unfold is_record. intros H. apply andb_true_iff in H as [H H5]. apply andb_true_iff in H as [H H4]. apply andb_true_iff in H as [H H3]. apply andb_true_iff in H as [H1 H2].
  apply negb_true_iff in H2. unfold record_tree_of. destruct (term 0 (L "{" ++ t)) as [[|] e| |] eqn:E; try discriminate H5.
  apply C75_line; [|exact H2| | |exact E].
  - exists (C "{"), t. split; [reflexivity|]. split; [reflexivity|]. split; [discriminate|]. apply (closes_check_closes _ _ _ H1).
  - destruct (type_ 0 (L "{" ++ t)); try discriminate H3. reflexivity.
  - destruct (delimited _ _ _ (L "{" ++ t)); try discriminate H4. reflexivity.
Qed.
Lemma short_check t : is_record t = true -> (names_only (t, record_tree_of t) <-> is_short t = true).
Proof.
  intros H. pose proof (record_check t H) as Hx. unfold is_short. destruct (names_dec _ Hx) as [D|D].
  - split; [intros _|auto]. assert (K : simplified_record (L "{" ++ t) = Ok [] (record_tree_of t)) by (apply names_iff; right; exact D). rewrite K. reflexivity.
  - split; [contradiction|]. intros K. exfalso. assert (Hr := values_alone _ Hx D expression (or_introl eq_refl) 0%N []). destruct Hr as [_ Hr]. unfold curly in Hr. cbn [fst] in Hr.
    rewrite app_nil_r in Hr. change (C "{" :: t) with (L "{" ++ t) in Hr. destruct (simplified_record (L "{" ++ t)); [exact Hr|discriminate K..].
Qed.
Lemma records_both t t' x y : records t t' = (x, y) -> is_record t && is_record t' && Bool.eqb (is_short t) (is_short t') = true -> both_records x y.
Proof.
  intros E H. assert (Ex : x = (t, record_tree_of t)) by (unfold records in E; congruence). assert (Ey : y = (t', record_tree_of t')) by (unfold records in E; congruence).
  subst x y. clear E. apply andb_true_iff in H as [H H3]. apply andb_true_iff in H as [H1 H2]. apply Bool.eqb_prop in H3.
  split; [apply record_check, H1|]. split; [apply record_check, H2|]. rewrite !short_check by assumption. rewrite H3. tauto.
Qed.
Definition curly_table (l : list ((str * expr) * (str * expr))) : tests := mkTests str_eqb N.eqb str_eqb str_eqb str_eqb [] [] l.
Lemma table_record l b s s' : (forall x y, In (x, y) l -> both_records x y) -> relit (kinds_of (curly_table l)) b s s' -> relit any_record b s s'.
Proof.
  intros Hl. apply relit_weak; cbn; try (intros a c H; apply str_eqb_eq, H); [intros a c H; apply N.eqb_eq, H|intros a c []|intros a c []|exact Hl].
Qed.
Definition curlies (a b c : str) : str :=
  L "f : { a : Int } -> {}" ++ nl ++
  L "f {" ++ a ++ L " x =" ++ nl ++
  L "  let" ++ nl ++
  L "    {" ++ a ++ L " = g (x) {" ++ b ++ L " " ++ quoted (L "{") ++ nl ++
  L "    h {" ++ b ++ L " = \{" ++ a ++ L " -> (+) {" ++ c ++ nl ++
  L "  in" ++ nl ++
  L "    case {" ++ c ++ L " |> y of" ++ nl ++
  L "      {" ++ a ++ L " -> if {" ++ b ++ L " then { r | s = {" ++ c ++ L " } else {}" ++ nl ++
  L "      _ -> [ {" ++ c ++ L ", (a, {" ++ b ++ L ") ] {- { -}".
Definition curlies1 : str := curlies (L " p, q }") (L "a = 1}") (L " r | x = (1, 2), y = [] }").
Definition curlies2 : str := curlies (L "x}") (L " m | f = { n | g = 1 } }") (L "u={v}, w = " ++ quoted (L "}") ++ L "}").
Definition record_table : list ((str * expr) * (str * expr)) :=
  [records (L " p, q }") (L "x}"); records (L "a = 1}") (L " m | f = { n | g = 1 } }"); records (L " r | x = (1, 2), y = [] }") (L "u={v}, w = " ++ quoted (L "}") ++ L "}")].
Example C75_instance : (forall x y, In (x, y) record_table -> both_records x y) /\ relit any_record after_other curlies1 curlies2 /\
  exists l l', file curlies1 = Ok [] l /\ file curlies2 = Ok [] l' /\ length l = 2 /\ l <> l'.
Proof.
  assert (J : forall x y, In (x, y) record_table -> both_records x y).
  { intros x y H. destruct H as [H|[H|[H|[]]]]; apply (records_both _ _ _ _ H); vm_compute; reflexivity. }
  split; [exact J|split].
  - apply (table_record _ _ _ _ J). apply (rl_check_relit _ 900). vm_compute. reflexivity.
  - eexists. eexists. split; [vm_compute; reflexivity|]. split; [vm_compute; reflexivity|]. split; [reflexivity|discriminate].
Qed.
Lemma table_phrases ll lr lc b s s' : (forall x y, In (x, y) ll -> list_phrase x /\ list_phrase y /\ snd x = snd y) -> (forall x y, In (x, y) lr -> both_phrases x y /\ snd x = snd y) ->
  (forall x y, In (x, y) lc -> both_records x y /\ snd x = snd y) ->
  relit (kinds_of (mkTests str_eqb N.eqb str_eqb str_eqb str_eqb ll lr lc)) b s s' -> relit same_phrases b s s'.
Proof.
  intros Hl Hr Hc. apply relit_weak; cbn; try (intros a c H; apply str_eqb_eq, H); [intros a c H; apply N.eqb_eq, H|exact Hl|exact Hr|exact Hc].
Qed.
Definition forms (a b c d : str) : str :=
  L "f {" ++ a ++ L " =" ++ nl ++ L "  let {" ++ a ++ L " = (" ++ c ++ L ") in [" ++ d ++ L " {" ++ b ++ L " { r | s = {" ++ b ++ L " } -- {" ++ a.
Example C75_same_instance :
  let s := forms (L "p,q}") (L "a=1}") (L "x + 1") (L "1]") in
  exists s', relit same_phrases after_other s s' /\ s <> s' /\ exists l, file s = Ok [] l.
Proof.
  cbn zeta. exists (L "f { p , q } =" ++ nl ++ L "  let { p , q } = (((x)  +  1)) in [ (1)] { a = (1) } { r | s = { a = (1) } } -- {p,q}").
  split; [|split; [intros E; vm_compute in E; discriminate E|eexists; vm_compute; reflexivity]].
  apply (table_phrases [pair_of (L "1]") (L " (1)]")] [values (L "x + 1") (L "((x)  +  1)")] [records (L "p,q}") (L " p , q }"); records (L "a=1}") (L " a = (1) }")]).
  - intros x y [H|[]]. unfold pair_of in H. injection H as <- <-. split; [apply list_check; vm_compute; reflexivity|]. split; [apply list_check; vm_compute; reflexivity|].
    vm_compute. reflexivity.
  - intros x y [H|[]]. split; [left; apply (values_both _ _ _ _ H); vm_compute; reflexivity|]. injection H as <- <-. vm_compute. reflexivity.
  - intros x y [H|[H|[]]]; (split; [apply (records_both _ _ _ _ H); vm_compute; reflexivity|]); injection H as <- <-; vm_compute; reflexivity.
  - apply (rl_check_relit _ 900). vm_compute. reflexivity.
Qed.
(** a text that is rejected stays so *)
Example C75_rejected_instance :
  let f t := L "x = let {" ++ t ++ L " = y in z" in let l := [records (L "a = 1}") (L " r | b = 2 }")] in
  (forall x y, In (x, y) l -> both_records x y) /\ relit any_record after_other (f (L "a = 1}")) (f (L " r | b = 2 }")) /\ file (f (L "a = 1}")) = Err.
Proof.
  cbn zeta. assert (J : forall x y, In (x, y) [records (L "a = 1}") (L " r | b = 2 }")] -> both_records x y).
  { intros x y [H|[]]. apply (records_both _ _ _ _ H). vm_compute. reflexivity. }
  split; [exact J|]. split; [|vm_compute; reflexivity]. apply (table_record _ _ _ _ J). apply (rl_check_relit _ 600). vm_compute. reflexivity.
Qed.

(** *** The conditions are needed *)
(** The empty record is a type too. *)
Example C75_type_needed : term 0 (L "{}") <> Err /\ term 0 (L "{a = 1}") <> Err /\ type_ 0 (L "{}") <> Err /\
  file (L "type alias T = {}") <> Err /\ file (L "type alias T = {a = 1}") = Err.
Proof. repeat split; vm_compute; first [reflexivity|discriminate]. Qed.
(** A record of constructors can be the list of fields of an effect module. *)
Example C75_effect_needed : let f t := L "effect module M where {" ++ t ++ L " exposing (..)" in
  term 0 (L "{a = B}") <> Err /\ term 0 (L "{a = 1}") <> Err /\ type_ 0 (L "{a = B}") = Err /\ file (f (L "a = B}")) <> Err /\ file (f (L "a = 1}")) = Err.
Proof. cbn zeta. repeat split; vm_compute; first [reflexivity|discriminate]. Qed.
(** Only the short form is allowed on the left of a definition in a [let], also where the
    long form has the same tree. *)
Example C75_short_needed : let f t := L "x = let {" ++ t ++ L " = y in z" in
  term 0 (L "{a}") = term 0 (L "{a = a}") /\ file (f (L "a}")) <> Err /\ file (f (L "a = a}")) = Err.
Proof. cbn zeta. repeat split; vm_compute; first [reflexivity|discriminate]. Qed.
(** Whether a record on several lines is one depends on the column. *)
Example C75_column_needed :
  let f t := L "x =" ++ nl ++ L "  let" ++ nl ++ L "    y = {" ++ t ++ nl ++ L "  in y" in
  file (f (L "a =" ++ nl ++ L "        1}")) <> Err /\ file (f (L "a =" ++ nl ++ L "  1}")) = Err /\ term 0 (L "{a =" ++ nl ++ L "  1}") <> Err.
Proof. cbn zeta. repeat split; vm_compute; first [reflexivity|discriminate]. Qed.
