(** * C68, C69: phrases in brackets are read on their own *)
From Verif Require Import Base Nom Regex Ast Good Spec Helpers Types Expr Stmt Total Follow TwoRuns Whole Steps Inside InsideAll InsideCheck Flat.

(** ** C68: what follows the closing bracket does not matter

    [bracketed t]: [t] begins with an opening bracket and ends with the bracket that
    closes it; strings, character literals and comments in [t] are complete, brackets
    in them do not count, and no comment follows a symbol or a [(] directly.  [closes]
    is defined in Inside.v. *)
Definition bracketed (t : str) : Prop :=
  exists c w, t = c :: w /\ is_open c = true /\ (c = C "(" -> ~ dashes w) /\ closes 1 w.
(** an operator (or commas) in parentheses *)
Definition operator_phrase (t : str) : Prop :=
  exists o, t = L "(" ++ o ++ L ")" /\ forallb (fun x => is_op_char x || (x =? C ",")%N) o = true.
(** Two results that are equal up to what is left of the text *)
Definition same_before {A} (v v' : str) (x y : res A) : Prop :=
  (exists a, x = Ok v a /\ y = Ok v' a) \/ (x = Err /\ y = Err).

Lemma no_abort {A} k (p : parser A) s m : (forall n, ok k n p p) -> p s <> Abort m.
Proof. intros H. destruct (H (S (length s)) s (le_n _)) as [_ H1]. intros E. rewrite E in H1. exact H1. Qed.
Lemma term_no_abort i s m : term i s <> Abort m.
Proof. apply (no_abort 1). intros n. apply ok_term. Qed.
Lemma type_no_abort i s m : type_ i s <> Abort m.
Proof. apply (no_abort 1). intros n. apply ok_type. Qed.
Lemma expression_no_abort i s m : expression i s <> Abort m.
Proof. apply (no_abort 1). intros n. apply ok_expression. Qed.

(** A phrase in brackets is a term with all of its text, whatever follows, or it is
    not a term, whatever follows. *)
Theorem C68_term : forall i t v v', bracketed t ->
  (operator_phrase t -> (forall u, v <> L "." ++ u) /\ (forall u, v' <> L "." ++ u)) ->
  same_before v v' (term i (t ++ v)) (term i (t ++ v')).
Proof.
  intros i t v v' (c & w & -> & Hc & Hd & Hw) Ho. apply (agree_top v v' c w); try (intros; apply term_no_abort).
  apply top_term; auto. intros o E Hx. destruct Ho as [H1 H2]; [exists o; auto|].
  assert (K : forall x, (forall u, x <> L "." ++ u) -> no_dot x).
  { intros [|d x] Hn; [exact I|]. cbn. apply N.eqb_neq. intros ->. exact (Hn x eq_refl). }
  auto.
Qed.
Print Assumptions C68_term.

Theorem C68_type : forall i t v v', bracketed t -> same_before v v' (type_ i (t ++ v)) (type_ i (t ++ v')).
Proof.
  intros i t v v' (c & w & -> & Hc & Hd & Hw). apply (agree_top v v' c w); try (intros; apply type_no_abort).
  apply top_type; auto.
Qed.
Print Assumptions C68_type.

(** So it is enough to read the phrase alone. *)
Theorem C68_alone : forall i t v e, bracketed t -> (operator_phrase t -> forall u, v <> L "." ++ u) ->
  (term i (t ++ v) = Ok v e <-> term i t = Ok [] e) /\ (term i (t ++ v) = Err <-> term i t = Err).
Proof.
  intros i t v e Ht Hv. destruct (C68_term i t v [] Ht) as [(a & H1 & H2)|[H1 H2]].
  - intros H. split; [exact (Hv H)|]. intros u. discriminate.
  - rewrite app_nil_r in H2. rewrite H1, H2. split; split; congruence.
  - rewrite app_nil_r in H2. rewrite H1, H2. split; split; congruence.
Qed.
Print Assumptions C68_alone.
Theorem C68_type_alone : forall i t v e, bracketed t ->
  (type_ i (t ++ v) = Ok v e <-> type_ i t = Ok [] e) /\ (type_ i (t ++ v) = Err <-> type_ i t = Err).
Proof.
  intros i t v e Ht. destruct (C68_type i t v [] Ht) as [(a & H1 & H2)|[H1 H2]];
    rewrite app_nil_r in H2; rewrite H1, H2; split; split; congruence.
Qed.
Print Assumptions C68_type_alone.

(** *** Concrete instances *)
Lemma bracketed_check t : match t with c :: w => is_open c && (negb (c =? C "(")%N || negb (WholeCheck.dashes_check w)) && closes_check (S (length w)) 1 w | [] => false end = true ->
  bracketed t.
Proof.
  destruct t as [|c w]; [discriminate|]. intros H. apply andb_true_iff in H as [H H2]. apply andb_true_iff in H as [H0 H1].
  exists c, w. split; [reflexivity|]. split; [exact H0|]. split; [|eapply closes_check_closes, H2].
  intros -> K. apply WholeCheck.dashes_dashes_check in K. rewrite K in H1. discriminate H1.
Qed.
(** a list with a function, a [case], a string with brackets, a comment and a nested list *)
Definition phrase : str :=
  L "[ f " ++ [quote] ++ L ")]}" ++ [quote] ++ L ", case x of -- )" ++ [newline] ++ L "    [] -> (a.b + -1)" ++ [newline] ++ L "    _ -> \y -> [ y ] ]".
Theorem C68_term_instance : bracketed phrase /\ ~ operator_phrase phrase /\ exists e, term 0 phrase = Ok [] e /\
  (forall v, term 0 (phrase ++ v) = Ok v e).
Proof.
  assert (H : bracketed phrase) by (apply bracketed_check; vm_compute; reflexivity).
  assert (H0 : ~ operator_phrase phrase) by (intros (o & E & _); discriminate E).
  split; [exact H|]. split; [exact H0|]. eexists. split; [vm_compute; reflexivity|].
  intros v. apply (C68_alone 0 phrase v _ H); [intros K; contradiction|]. vm_compute. reflexivity.
Qed.
Theorem C68_type_instance : bracketed (L "{ a : List (Maybe b) -> (), c : { d | e : Int } }") /\
  exists e, forall v, type_ 0 (L "{ a : List (Maybe b) -> (), c : { d | e : Int } }" ++ v) = Ok v e.
Proof.
  assert (H : bracketed (L "{ a : List (Maybe b) -> (), c : { d | e : Int } }")) by (apply bracketed_check; vm_compute; reflexivity).
  split; [exact H|]. eexists. intros v. apply (C68_type_alone 0 _ v _ H). vm_compute. reflexivity.
Qed.
(** a phrase that is not a term, whatever follows *)
Theorem C68_rejected_instance : bracketed (L "[ let x = 1 ]") /\ forall v, term 0 (L "[ let x = 1 ]" ++ v) = Err.
Proof.
  assert (H : bracketed (L "[ let x = 1 ]")) by (apply bracketed_check; vm_compute; reflexivity).
  split; [exact H|]. intros v. apply (C68_alone 0 _ v (Variable_ []) H); [intros (o & E & _); discriminate E|]. vm_compute. reflexivity.
Qed.

(** *** The conditions are needed *)
(** A field can be taken from an operator in parentheses. *)
Theorem C68_operator_needed : term 0 (L "(+)") = Ok [] (Variable_ [L "+"]) /\
  term 0 (L "(+)" ++ L ".x") = Ok [] (Access (Variable_ [L "+"]) [L "x"]).
Proof. vm_compute. auto. Qed.
(** Two dashes right after a symbol are part of an operator: this is no closed phrase,
    and what follows decides. *)
Theorem C68_comment_needed :
  term 0 (L "[case x of a ->-- [" ++ [newline] ++ L " b]") = Err /\
  exists e, term 0 ((L "[case x of a ->-- [" ++ [newline] ++ L " b]") ++ L " -> b]") = Ok [] e.
Proof. split; [vm_compute; reflexivity|]. eexists. vm_compute. reflexivity. Qed.
(** Without its closing bracket a phrase is decided by what follows. *)
Theorem C68_closed_needed : term 0 (L "[ a") = Err /\ term 0 (L "[ a" ++ L " ]") = Ok [] (List_ [Variable_ [L "a"]]).
Proof. vm_compute. auto. Qed.

(** ** C69: on one line the column does not matter

    The parsers of expressions and types take the column of the surrounding code.  For
    a text without line feeds all columns give the same result, *)
Theorem C69_column : forall i j s, has_newline s = false ->
  expression i s = expression j s /\ term i s = term j s /\ type_ i s = type_ j s.
Proof.
  intros i j s Hs. split; [|split]; apply same_eq; auto using f_expression, f_type;
    try (intros; apply expression_no_abort); try (intros; apply term_no_abort); try (intros; apply type_no_abort).
  unfold term. apply f_term, f_expression.
Qed.
Print Assumptions C69_column.
(** so a phrase in brackets on one line is read in the same way in all places. *)
Theorem C69_anywhere : forall i j t v v', bracketed t -> has_newline t = false ->
  (operator_phrase t -> (forall u, v <> L "." ++ u) /\ (forall u, v' <> L "." ++ u)) ->
  same_before v v' (term i (t ++ v)) (term j (t ++ v')).
Proof.
  intros i j t v v' Ht Hn Hv.
  assert (H : forall k x, (operator_phrase t -> forall u, x <> L "." ++ u) -> same_before x [] (term k (t ++ x)) (term k t)).
  { intros k x Hx. pose proof (C68_term k t x [] Ht) as H. rewrite app_nil_r in H. apply H. intros K. split; [exact (Hx K)|]. intros u. discriminate. }
  destruct (H i v (fun K => proj1 (Hv K))) as [(a & H1 & H2)|[H1 H2]];
  destruct (H j v' (fun K => proj2 (Hv K))) as [(a' & H1' & H2')|[H1' H2']];
  rewrite (proj1 (proj2 (C69_column i j t Hn))), H2' in H2; try discriminate H2.
  - injection H2 as ->. left. exists a. auto.
  - right. auto.
Qed.
Print Assumptions C69_anywhere.
Theorem C69_type_anywhere : forall i j t v v', bracketed t -> has_newline t = false ->
  same_before v v' (type_ i (t ++ v)) (type_ j (t ++ v')).
Proof.
  intros i j t v v' Ht Hn.
  assert (H : forall k x, same_before x [] (type_ k (t ++ x)) (type_ k t)).
  { intros k x. pose proof (C68_type k t x [] Ht) as H. rewrite app_nil_r in H. exact H. }
  destruct (H i v) as [(a & H1 & H2)|[H1 H2]]; destruct (H j v') as [(a' & H1' & H2')|[H1' H2']];
  rewrite (proj2 (proj2 (C69_column i j t Hn))), H2' in H2; try discriminate H2.
  - injection H2 as ->. left. exists a. auto.
  - right. auto.
Qed.
Print Assumptions C69_type_anywhere.

(** *** Concrete instances *)
Definition line_phrase : str := L "{ a = \x -> if x then (+) else .b, c = let (d, e) = [ f ] in d }".
Theorem C69_instance : bracketed line_phrase /\ has_newline line_phrase = false /\
  exists e, forall i v, term i (line_phrase ++ v) = Ok v e.
Proof.
  assert (H : bracketed line_phrase) by (apply bracketed_check; vm_compute; reflexivity). split; [exact H|]. split; [reflexivity|].
  eexists. intros i v. destruct (C69_anywhere 0 i line_phrase [] v H eq_refl) as [(a & H1 & H2)|[H1 _]].
  - intros (o & E & _). discriminate E.
  - rewrite H2. f_equal. rewrite app_nil_r in H1.
    assert (H3 : term 0 line_phrase = Ok [] a) by exact H1. clear -H3. vm_compute in H3. injection H3 as <-. reflexivity.
  - rewrite app_nil_r in H1. vm_compute in H1. discriminate H1.
Qed.
(** With a line feed the column matters. *)
Theorem C69_line_feed_needed : term 0 (L "[ f" ++ [newline] ++ L "  x ]") = Ok [] (List_ [Application (Variable_ [L "f"]) (Variable_ [L "x"])]) /\
  term 3 (L "[ f" ++ [newline] ++ L "  x ]") = Err.
Proof. vm_compute. auto. Qed.
