(** * Keywords of a text and phrases of its tree *)
From Verif Require Import Base Ast Spec Grammar Leaves Words ShowProps.

(** ** The number of conditionals, [let]s and [case]s in a tree, each kind with a weight *)
Definition total {A} (f : A -> nat) (l : list A) : nat := list_sum (map f l).
Section Nodes.
  Variables i l c : nat.
  Fixpoint nodes (e : expr) : nat :=
    match e with
    | Character _ | String_ _ | Integer _ | Float _ | Variable_ _ | AccessFunction _ => 0
    | List_ es | Tuple es => total nodes es
    | Access e _ => nodes e
    | Record_ fs | RecordUpdate _ fs => total (fun f => nodes (snd f)) fs
    | If_ a b d => i + nodes a + nodes b + nodes d
    | Let_ es e => l + total nodes_entry es + nodes e
    | Case_ e bs => c + nodes e + total (fun b => nodes (fst b) + nodes (snd b)) bs
    | Lambda es e => total nodes es + nodes e
    | Application f x => nodes f + nodes x
    | BinOp o a b => nodes o + nodes a + nodes b
    end
  with nodes_entry (x : let_entry) : nat :=
    match x with
    | LetFunction f => nodes_func f
    | LetBinding t e => nodes t + nodes e
    end
  with nodes_func (f : func) : nat := match f with mkFunc _ d => nodes_def d end
  with nodes_def (d : func_def) : nat := match d with mkDef _ es e => total nodes es + nodes e end.
  Definition nodes_stmt (st : statement_ast) : nat :=
    match st with Function_ f => nodes_func f | PortDeclaration _ _ e => nodes e | _ => 0 end.
End Nodes.

(** ** Counting keys *)
Definition is_key (k : str) (x : symbol) : bool := match x with Key k' => str_eqb k k' | _ => false end.
Definition kc (k : str) (l : list symbol) : nat := length (filter (is_key k) l).
Definition one (k k' : str) : nat := if str_eqb k k' then 1 else 0.

Lemma kc_app k a b : kc k (a ++ b) = kc k a + kc k b.
Proof. unfold kc. rewrite filter_app, app_length. reflexivity. Qed.
Lemma kc_key k k' l : kc k (Key k' :: l) = one k k' + kc k l.
Proof. unfold kc, one. cbn. destruct (str_eqb k k'); reflexivity. Qed.
Lemma kc_name k n l : kc k (Name n :: l) = kc k l.
Proof. reflexivity. Qed.
Lemma kc_label k n l : kc k (Label n :: l) = kc k l.
Proof. reflexivity. Qed.
Lemma kc_nil k : kc k [] = 0.
Proof. reflexivity. Qed.
Lemma kc_sep k x l : one k x = 0 -> kc k (sep_by x l) = kc k (concat l).
Proof.
  intros H. induction l as [|a l IH]; [reflexivity|]. destruct l as [|b l]; [cbn; rewrite app_nil_r; reflexivity|].
  change (sep_by x (a :: b :: l)) with (a ++ Key x :: sep_by x (b :: l)). change (concat (a :: b :: l)) with (a ++ concat (b :: l)).
  rewrite !kc_app, kc_key, H, IH. reflexivity.
Qed.
Lemma kc_concat {A} k (f : A -> list symbol) g l : Forall (fun a => kc k (f a) = g a) l -> kc k (concat (map f l)) = total g l.
Proof. induction 1 as [|a l H _ IH]; [reflexivity|]. cbn [map concat]. rewrite kc_app, H, IH. reflexivity. Qed.
Lemma total_0 {A} (l : list A) : total (fun _ => 0) l = 0.
Proof. induction l as [|a l IH]; [reflexivity|exact IH]. Qed.

(** the signs *)
Definition signs : list str := [L "{"; L "}"; L "["; L "]"; L ","; L "."; L ".."; L "="; L "|"; L ":"; L "->"; L "\"].
Section Count.
  Variable k : str.
  Hypothesis Hk : mem_str k signs = false.
  Lemma one_sign x : mem_str x signs = true -> one k x = 0.
  Proof.
    intros H. unfold one. destruct (str_eqb k x) eqn:E; [|reflexivity]. apply str_eqb_eq in E. subst x. congruence.
  Qed.
  Ltac count := repeat first [rewrite kc_app | rewrite kc_key | rewrite kc_name | rewrite kc_label | rewrite kc_nil
    | rewrite one_sign by reflexivity | rewrite kc_sep by (apply one_sign; reflexivity)].
  Lemma kc_path q : kc k (path q) = 0.
  Proof.
    unfold path. rewrite kc_sep by (apply one_sign; reflexivity). rewrite (kc_concat _ _ (fun _ => 0)), total_0; [reflexivity|].
    apply Forall_forall. intros. reflexivity.
  Qed.
  Lemma kc_type t : kc k (type_symbols t) = 0.
  Proof.
    apply type_ind' with (P := fun t => kc k (type_symbols t) = 0); intros; cbn [type_symbols]; count; rewrite ?kc_path; auto.
    - rewrite (kc_concat _ _ (fun _ => 0)), total_0; [reflexivity|exact H].
    - rewrite H, (kc_concat _ _ (fun _ => 0)), total_0; [reflexivity|]. eapply Forall_impl; [|exact H0]. intros f E. count. exact E.
    - rewrite (kc_concat _ _ (fun _ => 0)), total_0; [reflexivity|]. eapply Forall_impl; [|exact H]. intros f E. count. exact E.
    - rewrite (kc_concat _ _ (fun _ => 0)), total_0; [reflexivity|exact H].
    - rewrite H, H0. reflexivity.
  Qed.
  Lemma kc_export e : kc k (export_symbols e) = 0.
  Proof.
    apply export_ind' with (P := fun e => kc k (export_symbols e) = 0); intros; cbn [export_symbols]; count; auto.
    rewrite (kc_concat _ _ (fun _ => 0)), total_0; [reflexivity|exact H].
  Qed.

  Let i := one k (L "if") + one k (L "then") + one k (L "else").
  Let l := one k (L "let") + one k (L "in").
  Let c := one k (L "case") + one k (L "of").
  Lemma kc_exprs :
    (forall e, kc k (expr_symbols e) = nodes i l c e) /\
    (forall x, kc k (entry_symbols x) = nodes_entry i l c x) /\
    (forall f, kc k (func_symbols f) = nodes_func i l c f) /\
    (forall d, kc k (def_symbols d) = nodes_def i l c d).
  Proof.
    apply expr_all; intros; cbn [expr_symbols entry_symbols func_symbols def_symbols nodes];
      count; rewrite ?kc_path; try reflexivity.
    - rewrite (kc_concat _ _ _ _ H). lia.
    - rewrite (kc_concat _ _ _ _ H). lia.
    - rewrite H, (kc_concat _ _ (fun _ => 0)), total_0; [lia|]. apply Forall_forall. intros f _. count. reflexivity.
    - rewrite (kc_concat _ _ (fun f => nodes i l c (snd f))); [lia|]. eapply Forall_impl; [|exact H]. intros f E. cbn beta in *. count. exact E.
    - rewrite (kc_concat _ _ (fun f => nodes i l c (snd f))); [lia|]. eapply Forall_impl; [|exact H]. intros f E. cbn beta in *. count. exact E.
    - rewrite H, H0, H1. unfold i. lia.
    - rewrite (kc_concat _ _ _ _ H), H0. transitivity (l + total (nodes_entry i l c) l0 + nodes i l c e); [unfold l; lia|reflexivity].
    - rewrite H, (kc_concat _ _ (fun b => nodes i l c (fst b) + nodes i l c (snd b))); [unfold c; lia|].
      eapply Forall_impl; [|exact H0]. intros b [E1 E2]. cbn beta in *. count. rewrite E1, E2. lia.
    - rewrite (kc_concat _ _ _ _ H), H0. lia.
    - rewrite H, H0. lia.
    - rewrite H, H0, H1. lia.
    - exact H.
    - rewrite H, H0. exact (f_equal (fun x => nodes i l c t + x) (eq_refl (nodes i l c e))).
    - rewrite H. destruct sg as [g|]; cbn [sig_symbols]; count; rewrite ?kc_type; reflexivity.
    - rewrite (kc_concat _ _ _ _ H), H0. reflexivity.
  Qed.
  Lemma kc_stmt st : one k (L "module") = 0 -> one k (L "port") = 0 -> one k (L "effect") = 0 -> one k (L "where") = 0 ->
    one k (L "exposing") = 0 -> one k (L "import") = 0 -> one k (L "as") = 0 -> one k (L "type") = 0 -> one k (L "alias") = 0 ->
    one k (L "infixl") = 0 -> one k (L "infixr") = 0 -> one k (L "infix") = 0 ->
    kc k (statement_symbols st) = nodes_stmt i l c st.
  Proof.
    intros. destruct st; cbn [statement_symbols nodes_stmt];
      repeat (count; match goal with H : one k ?x = 0 |- context [one k ?x] => rewrite H end); count;
      rewrite ?kc_path, ?kc_type, ?kc_export; try reflexivity.
    - rewrite (kc_concat _ _ (fun _ => 0)), total_0; [reflexivity|]. apply Forall_forall. intros f _. count. reflexivity.
    - destruct alias, e; count; rewrite ?kc_export; repeat match goal with H : one k ?x = 0 |- context [one k ?x] => rewrite H end; reflexivity.
    - rewrite (kc_concat _ _ (fun _ => 0)), total_0; [reflexivity|]. apply Forall_forall. intros. apply kc_type.
    - rewrite (proj1 kc_exprs). replace (kc k (map Name args)) with 0; [lia|]. induction args as [|a args IH]; [reflexivity|exact IH].
    - apply kc_exprs.
    - destruct a; repeat match goal with H : one k ?x = 0 |- context [one k ?x] => rewrite H end; reflexivity.
  Qed.
End Count.

(** ** Occurrences of a word in the text *)
Definition occurrences (k : str) (s : str) : nat := length (filter (str_eqb k) (words s)).
Definition paired : list str := [L "if"; L "then"; L "else"; L "let"; L "in"; L "case"; L "of"].
(** the symbol is not a name that looks like one of these keywords *)
Definition no_keyword (x : symbol) : Prop := match x with Name n => ~ In n paired | _ => True end.

Definition occ (k : str) (ws : list str) : nat := length (filter (str_eqb k) ws).
Lemma occ_app k a b : occ k (a ++ b) = occ k a + occ k b.
Proof. unfold occ. rewrite filter_app, app_length. reflexivity. Qed.
Lemma occ_not k ws : ~ In k ws -> occ k ws = 0.
Proof.
  unfold occ. induction ws as [|w ws IH]; [reflexivity|]. cbn. intros H. destruct (str_eqb k w) eqn:E; [apply str_eqb_eq in E; subst; tauto|apply IH; tauto].
Qed.
Lemma paired_name k : In k paired -> k <> [] /\ forallb is_lower k = true.
Proof. intros H. repeat (destruct H as [<-|H]; [split; [discriminate|reflexivity]|]). destruct H. Qed.
Lemma paired_reserved k : In k paired -> In k reserved_words.
Proof. intros H. repeat (destruct H as [<-|H]; [apply mem_str_In; reflexivity|]). destruct H. Qed.

Lemma all_name_chars k n : forallb is_name_char n = true -> n <> k -> ~ In k (words n).
Proof.
  intros H N K. destruct n as [|x n]; [destruct K|]. rewrite words_one in K by (auto; discriminate). destruct K as [K|[]]. congruence.
Qed.
Lemma spelled_occ k x w : In k paired -> spelled x w -> no_keyword x ->
  ~ In quote w -> ~ In squote w -> ~ contains (L "--") w -> ~ contains (L "{-") w -> occ k (words w) = kc k [x].
Proof.
  intros Hk H Hn H1 H2 H3 H4. destruct (paired_name k Hk) as [Hk0 Hk1].
  assert (Low : forall n, lower_name n -> occ k (words n) = 0).
  { intros n [->|[(c & t & -> & Q1 & Q2) Q3]]; apply occ_not.
    - intros [E|[]]. subst k. discriminate.
    - apply all_name_chars; [cbn; rewrite Q2, (lower_name_char c Q1); reflexivity|]. intros E. apply Q3. rewrite E. apply paired_reserved, Hk. }
  assert (Dig : forall d, digits1 d -> occ k (words d) = 0).
  { intros d [Q1 Q2]. apply occ_not, all_name_chars; [revert Q2; apply forallb_impl, dec_name|]. intros ->.
    destruct k as [|c k]; [congruence|]. cbn in Q2, Hk1. apply andb_true_iff in Q2 as [Q2 _]. apply andb_true_iff in Hk1 as [Q3 _].
    apply dec_not_letter in Q2. rewrite Q3 in Q2. discriminate. }
  assert (Non : forall (P : char -> bool) v, (forall c, P c = true -> is_name_char c = false) -> forallb P v = true -> occ k (words v) = 0).
  { intros P v HP Hv. rewrite words_none; [reflexivity|]. revert Hv. apply forallb_impl. intros c Hc. rewrite HP by exact Hc. reflexivity. }
  destruct H.
  - assert (Q : words k0 = [] /\ k0 <> k \/ words k0 = [k0]).
    { clear - H Hk. repeat (destruct H as [<-|H]; [first [right; reflexivity | left; split; [reflexivity|intros <-; revert Hk; vm_compute; intuition discriminate]]|]). destruct H. }
    rewrite kc_key. cbn [kc filter length]. unfold one. destruct Q as [[-> Q]| ->].
    + destruct (str_eqb k k0) eqn:E; [apply str_eqb_eq in E; congruence|reflexivity].
    + cbn. destruct (str_eqb k k0); reflexivity.
  - change (kc k [Name n]) with 0. cbn in Hn.
    destruct H as [H|[(c & t & -> & Q1 & Q2)|[(c & t & -> & Q1 & Q2)|[(_ & H & _)|[[->|[(_ & H & _) _]]|[_ H]]]]]].
    + apply Low, H.
    + apply occ_not, all_name_chars; [cbn; rewrite Q2, (upper_name_char c Q1); reflexivity|]. intros <-. tauto.
    + apply occ_not, all_name_chars; [cbn; rewrite (lower_name_char c Q1); revert Q2; apply forallb_impl, tyvar_name_char|]. intros <-. tauto.
    + exact (Non _ _ op_not_name H).
    + apply occ_not. intros [<-|[]]. revert Hk. vm_compute. intuition discriminate.
    + exact (Non _ _ op_not_name H).
    + refine (Non _ _ _ H). intros c E%N.eqb_eq. subst. reflexivity.
  - apply Low. assumption.
  - change (kc k [Number s]) with 0. destruct H as [(sg & d & -> & Q1 & Q2)|(sg & d & e & -> & Q1 & Q2 & Q3)]; rewrite signed_words by exact Q1; [apply Dig, Q2|].
    change (d ++ L "." ++ e) with (d ++ C "." :: e). rewrite words_close by reflexivity. rewrite occ_app, !Dig by assumption. reflexivity.
  - exfalso. apply H1. left. reflexivity.
  - exfalso. apply H1. left. reflexivity.
  - exfalso. apply H2. left. reflexivity.
  - apply Dig. assumption.
  - exfalso. apply H3. exists [], c. reflexivity.
  - exfalso. apply H4. exists [], (c ++ L "-}"). reflexivity.
Qed.
Theorem written_occ k l s : In k paired -> written l s -> Forall no_keyword l ->
  ~ In quote s -> ~ In squote s -> ~ contains (L "--") s -> ~ contains (L "{-") s -> occ k (words s) = kc k l.
Proof.
  intros Hk. induction 1 as [|x w l s Hx Ha _ IH|g l s Hg _ IH|c l s _ _ _ _|n l s Hn Ha _ IH]; intros Hl H1 H2 H3 H4.
  - reflexivity.
  - apply Forall_cons_iff in Hl as [Hx' Hl]. rewrite in_app_iff in H1, H2. rewrite words_app by exact Ha. rewrite occ_app.
    change (x :: l) with ([x] ++ l). rewrite kc_app. f_equal.
    + apply spelled_occ; eauto using contains_l.
    + apply IH; eauto using contains_r.
  - rewrite in_app_iff in H1, H2. assert (K : words (g ++ s) = words s).
    { destruct Hg as [c Hc| |]; [|reflexivity|reflexivity]. apply words_skip, blank_not_name, Hc. }
    rewrite K. apply IH; eauto using contains_r.
  - exfalso. apply H3. exists [], (c ++ s). reflexivity.
  - rewrite in_app_iff in H1, H2. rewrite words_app by exact Ha. rewrite occ_app.
    rewrite kc_label, kc_key, kc_name.
    assert (E : one k (L "=") = 0).
    { apply one_sign; [|reflexivity]. clear - Hk. repeat (destruct Hk as [<-|Hk]; [reflexivity|]). destruct Hk. }
    rewrite E. rewrite IH; [| |tauto|tauto|eauto using contains_r|eauto using contains_r].
    + assert (K : occ k (words n) = kc k [Label n]); [|rewrite K; reflexivity].
      apply spelled_occ; [exact Hk|constructor; exact Hn|exact I|tauto|tauto|eauto using contains_l|eauto using contains_l].
    + apply Forall_cons_iff in Hl as [_ Hl]. apply Forall_cons_iff in Hl as [_ Hl]. apply Forall_cons_iff in Hl as [_ Hl]. exact Hl.
Qed.

(** ** The order of the keywords *)
Definition keywords_of (s : str) : list str := filter (fun w => mem_str w paired) (words s).
Inductive nested : list str -> Prop :=
| nest_nil : nested []
| nest_app a b : nested a -> nested b -> nested (a ++ b)
| nest_if a b c : nested a -> nested b -> nested c -> nested (L "if" :: a ++ L "then" :: b ++ L "else" :: c)
| nest_let a b : nested a -> nested b -> nested (L "let" :: a ++ L "in" :: b)
| nest_case a b : nested a -> nested b -> nested (L "case" :: a ++ L "of" :: b).

Definition skel1 (x : symbol) : list str := match x with Key k => if mem_str k paired then [k] else [] | _ => [] end.
Definition skel (l : list symbol) : list str := concat (map skel1 l).
Lemma str_eqb_same w : str_eqb w w = true.
Proof. apply str_eqb_eq. reflexivity. Qed.
Lemma skel_app a b : skel (a ++ b) = skel a ++ skel b.
Proof. unfold skel. rewrite map_app, concat_app. reflexivity. Qed.
Lemma skel_cons x l : skel (x :: l) = skel1 x ++ skel l.
Proof. reflexivity. Qed.
Lemma skel_key k : In k paired -> skel1 (Key k) = [k].
Proof. intros H. unfold skel1. rewrite (proj2 (mem_str_In k paired) H). reflexivity. Qed.
Lemma skel_none l : (forall k, In k paired -> kc k l = 0) -> skel l = [].
Proof.
  induction l as [|x l IH]; intros H; [reflexivity|]. rewrite skel_cons, IH.
  - destruct x; try reflexivity. unfold skel1. destruct (mem_str k paired) eqn:E; [|reflexivity]. apply mem_str_In in E.
    specialize (H k E). rewrite kc_key in H. unfold one in H. rewrite str_eqb_same in H. discriminate.
  - intros k Hk. specialize (H k Hk). change (x :: l) with ([x] ++ l) in H. rewrite kc_app in H. lia.
Qed.
Lemma kws_none ws : (forall k, In k paired -> occ k ws = 0) -> filter (fun w => mem_str w paired) ws = [].
Proof.
  induction ws as [|w ws IH]; intros H; [reflexivity|]. cbn [filter]. destruct (mem_str w paired) eqn:E.
  - apply mem_str_In in E. specialize (H w E). unfold occ in H. cbn in H. rewrite str_eqb_same in H. discriminate.
  - apply IH. intros k Hk. specialize (H k Hk). unfold occ in *. cbn in H. destruct (str_eqb k w); [discriminate|exact H].
Qed.
Lemma paired_words k : In k paired -> words k = [k].
Proof. intros H. repeat (destruct H as [<-|H]; [reflexivity|]). destruct H. Qed.
Lemma spelled_kws x w : spelled x w -> no_keyword x ->
  ~ In quote w -> ~ In squote w -> ~ contains (L "--") w -> ~ contains (L "{-") w -> keywords_of w = skel1 x.
Proof.
  intros H Hn H1 H2 H3 H4. pose proof (fun k Hk => spelled_occ k x w Hk H Hn H1 H2 H3 H4) as K.
  assert (D : (exists k, x = Key k /\ In k paired) \/ (forall k, In k paired -> kc k [x] = 0)).
  { destruct x; try (right; reflexivity). destruct (mem_str k paired) eqn:E; [left; exists k; split; [reflexivity|apply mem_str_In, E]|right].
    intros k' Hk'. rewrite kc_key. unfold one. destruct (str_eqb k' k) eqn:E'; [|reflexivity]. apply str_eqb_eq in E'. subst k'.
    apply (proj2 (mem_str_In _ _)) in Hk'. congruence. }
  destruct D as [(k & -> & Hk)|D].
  - inversion H; subst. rewrite skel_key by exact Hk. unfold keywords_of. rewrite paired_words by exact Hk. cbn [filter].
    rewrite (proj2 (mem_str_In w paired) Hk). reflexivity.
  - unfold keywords_of. rewrite kws_none by (intros k Hk; rewrite (K k Hk); apply D, Hk).
    pose proof (skel_none [x] D) as E. rewrite skel_cons in E. cbn [skel map concat] in E. rewrite app_nil_r in E. symmetry. exact E.
Qed.
Theorem written_kws l s : written l s -> Forall no_keyword l ->
  ~ In quote s -> ~ In squote s -> ~ contains (L "--") s -> ~ contains (L "{-") s -> keywords_of s = skel l.
Proof.
  induction 1 as [|x w l s Hx Ha _ IH|g l s Hg _ IH|c l s _ _ _ _|n l s Hn Ha _ IH]; intros Hl H1 H2 H3 H4.
  - reflexivity.
  - apply Forall_cons_iff in Hl as [Hx' Hl]. rewrite in_app_iff in H1, H2. unfold keywords_of. rewrite words_app by exact Ha. rewrite filter_app.
    rewrite skel_cons. f_equal.
    + apply spelled_kws; eauto using contains_l.
    + apply IH; eauto using contains_r.
  - rewrite in_app_iff in H1, H2. assert (K : words (g ++ s) = words s).
    { destruct Hg as [c Hc| |]; [|reflexivity|reflexivity]. apply words_skip, blank_not_name, Hc. }
    unfold keywords_of. rewrite K. apply IH; eauto using contains_r.
  - exfalso. apply H3. exists [], (c ++ s). reflexivity.
  - rewrite in_app_iff in H1, H2. unfold keywords_of. rewrite words_app by exact Ha. rewrite filter_app.
    change (skel (Label n :: Key (L "=") :: Name n :: l)) with (skel1 (Label n) ++ skel l). f_equal.
    + apply spelled_kws; [constructor; exact Hn|exact I|tauto|tauto|eauto using contains_l|eauto using contains_l].
    + apply IH; [|tauto|tauto|eauto using contains_r|eauto using contains_r].
      apply Forall_cons_iff in Hl as [_ Hl]. apply Forall_cons_iff in Hl as [_ Hl]. apply Forall_cons_iff in Hl as [_ Hl]. exact Hl.
Qed.

Lemma skel_sep x l : mem_str x signs = true -> skel (sep_by x l) = concat (map skel l).
Proof.
  intros H. assert (E : skel1 (Key x) = []).
  { unfold skel1. destruct (mem_str x paired) eqn:E; [|reflexivity]. apply mem_str_In in E. revert H. repeat (destruct E as [<-|E]; [discriminate|]). destruct E. }
  induction l as [|a l IH]; [reflexivity|]. destruct l as [|b l]; [cbn [sep_by map concat]; rewrite app_nil_r; reflexivity|].
  change (sep_by x (a :: b :: l)) with (a ++ Key x :: sep_by x (b :: l)). rewrite skel_app, skel_cons, E, IH. reflexivity.
Qed.
Lemma skel_concat l : skel (concat l) = concat (map skel l).
Proof. induction l as [|a l IH]; [reflexivity|]. cbn [concat map]. rewrite skel_app, IH. reflexivity. Qed.
Lemma skel_type t : skel (type_symbols t) = [].
Proof. apply skel_none. intros k Hk. apply kc_type. clear - Hk. repeat (destruct Hk as [<-|Hk]; [reflexivity|]). destruct Hk. Qed.
Lemma skel_path q : skel (path q) = [].
Proof. apply skel_none. intros k Hk. apply kc_path. clear - Hk. repeat (destruct Hk as [<-|Hk]; [reflexivity|]). destruct Hk. Qed.
Lemma skel_export e : skel (export_symbols e) = [].
Proof. apply skel_none. intros k Hk. apply kc_export. clear - Hk. repeat (destruct Hk as [<-|Hk]; [reflexivity|]). destruct Hk. Qed.
Lemma nested_concat l : Forall nested l -> nested (concat l).
Proof. induction 1; [apply nest_nil|apply nest_app; assumption]. Qed.
Lemma nested_map {A} (f : A -> list symbol) l : Forall (fun a => nested (skel (f a))) l -> nested (concat (map skel (map f l))).
Proof. intros H. apply nested_concat. rewrite map_map. apply Forall_map. exact H. Qed.
Ltac sk := repeat first [rewrite skel_app | rewrite skel_sep by reflexivity | rewrite skel_concat | rewrite skel_path | rewrite skel_type | rewrite skel_export
  | rewrite (app_nil_l (A:=str)) | rewrite (app_nil_r (A:=str))
  | match goal with |- context [skel (?x :: ?l)] => let y := eval cbv in (skel1 x) in change (skel (x :: l)) with (y ++ skel l) end
  | match goal with |- context [skel []] => change (skel []) with (@nil str) end].
Ltac nest := repeat first [assumption | apply nest_nil | apply nested_map
  | refine (nest_if _ _ _ _ _ _) | refine (nest_let _ _ _ _) | refine (nest_case _ _ _ _) | apply nest_app].
Lemma nested_exprs :
  (forall e, nested (skel (expr_symbols e))) /\ (forall x, nested (skel (entry_symbols x))) /\
  (forall f, nested (skel (func_symbols f))) /\ (forall d, nested (skel (def_symbols d))).
Proof.
  apply expr_all; intros; cbn [expr_symbols entry_symbols func_symbols def_symbols]; sk; nest.
  - apply Forall_forall. intros f _. exact nest_nil.
  - eapply Forall_impl; [|exact H0]. intros b [E1 E2]. cbn beta in *. sk. nest.
  - destruct sg as [g|]; cbn [sig_symbols]; sk; nest.
Qed.
Lemma nested_stmt st : nested (skel (statement_symbols st)).
Proof.
  destruct st; cbn [statement_symbols]; sk; nest.
  - apply Forall_forall. intros f _. exact nest_nil.
  - destruct alias; sk; nest.
  - destruct e; sk; nest.
  - apply Forall_forall. intros t _. rewrite skel_type. exact nest_nil.
  - replace (skel (map Name args)) with (@nil str); [exact nest_nil|]. induction args as [|a args IH]; [reflexivity|exact IH].
  - apply nested_exprs.
  - apply nested_exprs.
  - destruct a; exact nest_nil.
Qed.
