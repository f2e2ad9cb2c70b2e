(** * The rules of Language.v have at most one solution

    Every rule refers to types and expressions only for texts shorter than the
    one it describes, so two solutions that agree on all shorter texts agree. *)
From Coq Require Import Lia.
From Verif Require Import Base Ast Spec Grammar Follow Render Language.

(** [X] leaves no more than it is given and implies [X'], for texts shorter than [n] *)
Notation fine n X X' :=
  (forall s x r, X s x r -> length s < n -> length r <= length s /\ X' s x r) (only parsing).
Definition same {A} (n : nat) (R R' : N -> str -> A -> str -> Prop) : Prop :=
  forall i, fine n (R i) (R' i) /\ fine n (R' i) (R i).

Lemma same_sym {A} n (R R' : N -> str -> A -> str -> Prop) : same n R R' -> same n R' R.
Proof. intros H i. destruct (H i). auto. Qed.
Lemma same_fine {A} n (R R' : N -> str -> A -> str -> Prop) i : same n R R' -> fine n (R i) (R' i).
Proof. intros H. apply H. Qed.
Lemma same_back {A} n (R R' : N -> str -> A -> str -> Prop) i : same n R R' -> fine n (R' i) (R i).
Proof. intros H. apply H. Qed.
Lemma fine_weaken {A} n m (X X' : str -> A -> str -> Prop) : fine m X X' -> n <= m -> fine n X X'.
Proof. intros H Hn s x r Hx Hs. apply H; [exact Hx|lia]. Qed.

Ltac len := subst; cbn [length newline] in *; rewrite ?app_length in *; cbn [length] in *; lia.
Ltac fw lem H := let Hl := fresh "Hl" in apply lem in H; [destruct H as [Hl H]|len].

Lemma items_fine {A} n sep (X X' : str -> A -> str -> Prop) : fine n X X' ->
  forall s l r, items sep X s l r -> length s < n -> length r <= length s /\ items sep X' s l r.
Proof.
  intros HX s l r. induction 1 as [r|t s x s' l r Ht Hx _ IH]; intros Hs; [split; [lia|constructor]|].
  fw HX Hx. destruct IH as [Hl' IH]; [len|]. split; [len|]. econstructor; eassumption.
Qed.
Lemma no_item_fine {A} n sep (X X' : str -> A -> str -> Prop) r : fine n X' X -> length r < n ->
  no_item sep X r -> no_item sep X' r.
Proof. intros HX Hr Hn t s x r' E Ht Hx. fw HX Hx. eapply Hn; eassumption. Qed.

(** ** Lexical parts *)

Lemma RVar_len v s r : RVar v s r -> length r <= length s.
Proof. destruct 1; len. Qed.
Lemma RName_len v s r : RName v s r -> length r <= length s.
Proof. destruct 1; len. Qed.
Lemma lower_fine n : fine n lower_at lower_at.
Proof. intros s x r H _. split; [|exact H]. destruct H as (-> & _). len. Qed.
Lemma bare_name_fine n : fine n bare_name bare_name.
Proof. intros s x r H _. split; [|exact H]. destruct H as (b1 & b2 & -> & _). len. Qed.
Lemma bare_record_len s e r : bare_record s e r -> length r <= length s.
Proof.
  intros (f & s1 & fs & Hf & Hl & _). apply (bare_name_fine (S (length s))) in Hf; [|lia]. destruct Hf as [Hf _].
  apply (items_fine _ _ _ _ (bare_name_fine (S (length s)))) in Hl; [|lia]. destruct Hl as [Hl _]. len.
Qed.
Lemma literal_len s e r : literal s e r -> length r <= length s.
Proof.
  intros [(n & _ & -> & _)|[(n & _ & -> & _)|[(c & _ & -> & _)|[(c & _ & _ & -> & _)|(w & c & _ & -> & _)]]]]; len.
Qed.

(** ** Types *)

Section Types.
  Variables (n : nat) (T T' : N -> str -> type_ast -> str -> Prop).
  Hypothesis HT : same n T T'.

  Lemma annotation_fine i : fine n (annotation_rule T i) (annotation_rule T' i).
  Proof.
    intros s t r (a & s1 & l & Ha & Hl & Hn & ->) Hs.
    fw (same_fine _ _ _ i HT) Ha. fw (items_fine _ arrow _ _ (same_fine _ _ _ i HT)) Hl.
    split; [len|]. exists a, s1, l. repeat (split; [assumption|]). split; [|reflexivity].
    eapply no_item_fine; [apply (same_back _ _ _ i HT)|len|exact Hn].
  Qed.
  Lemma function_type_fine i : fine n (function_type_rule T i) (function_type_rule T' i).
  Proof.
    intros s t r (a & s1 & b & l & Ha & Hl & Hn & ->) Hs.
    fw (same_fine _ _ _ i HT) Ha. fw (items_fine _ arrow _ _ (same_fine _ _ _ i HT)) Hl.
    split; [len|]. exists a, s1, b, l. repeat (split; [assumption|]). split; [|reflexivity].
    eapply no_item_fine; [apply (same_back _ _ _ i HT)|len|exact Hn].
  Qed.
  Lemma type_field_fine i : fine n (type_field_rule T i) (type_field_rule T' i).
  Proof.
    intros s f r (t1 & t2 & s1 & -> & Hf & H1 & H2 & H) Hs. fw annotation_fine H.
    split; [len|]. exists t1, t2, s1. auto.
  Qed.
  Lemma type_record_fine i : fine n (type_record_rule T i) (type_record_rule T' i).
  Proof.
    intros s t r [(t1 & -> & H1 & ->)|[(t1 & s1 & f & s2 & fs & t2 & -> & H1 & Hf & Hl & H2 & ->)|
      (t1 & j1 & m & t2 & j2 & t3 & j3 & s1 & f & s2 & fs & t4 & j4 & -> & H1 & Hm & H2 & H3 & Hf & Hl & H4 & ->)]] Hs.
    - split; [len|]. left. eauto.
    - fw type_field_fine Hf. fw (items_fine _ (comma i) _ _ (type_field_fine i)) Hl. split; [len|].
      right. left. exists t1, s1, f, s2, fs, t2. auto 10.
    - fw type_field_fine Hf. fw (items_fine _ (comma i) _ _ (type_field_fine i)) Hl. split; [len|].
      right. right. exists t1, j1, m, t2, j2, t3, j3, s1, f, s2, fs, t4, j4. auto 12.
  Qed.
  Lemma type_paren_fine i : fine n (type_paren_rule T i) (type_paren_rule T' i).
  Proof.
    intros s t r [(t1 & -> & H1 & ->)|[(t1 & s1 & x & s2 & xs & t2 & -> & H1 & Hx & Hl & H2 & ->)|
      (t1 & s1 & t2 & -> & H1 & H & H2)]] Hs.
    - split; [len|]. left. eauto.
    - fw (same_fine _ _ _ i HT) Hx. fw (items_fine _ (comma i) _ _ (same_fine _ _ _ i HT)) Hl. split; [len|].
      right. left. exists t1, s1, x, s2, xs, t2. auto 10.
    - fw function_type_fine H. split; [len|]. right. right. exists t1, s1, t2. auto.
  Qed.
  Lemma simple_type_fine i : fine (S n) (simple_type_rule T i) (simple_type_rule T' i).
  Proof.
    intros s t r [(m & (-> & H) & ->)|[(s' & -> & H)|(s' & -> & H)]] Hs.
    - split; [len|]. left. exists m. split; [split; [reflexivity|exact H]|reflexivity].
    - fw type_record_fine H. split; [len|]. right. left. eauto.
    - fw type_paren_fine H. split; [len|]. right. right. eauto.
  Qed.
  Lemma argument_fine i : fine (S n) (argument_rule T i) (argument_rule T' i).
  Proof.
    intros s t r (t1 & j & s' & -> & H1 & [(q & (-> & H) & ->)|H]) Hs.
    - split; [len|]. exists t1, j, (dotted q ++ r). split; [reflexivity|]. split; [exact H1|]. left.
      exists q. split; [split; [reflexivity|exact H]|reflexivity].
    - fw simple_type_fine H. split; [len|]. exists t1, j, s'. auto.
  Qed.
End Types.
Section Types2.
  Variables (n : nat) (T T' : N -> str -> type_ast -> str -> Prop).
  Hypothesis HT : same n T T'.
  Lemma constructed_fine i : fine (S n) (constructed_rule T i) (constructed_rule T' i).
  Proof.
    intros s t r (q & s1 & ts & (-> & Hq) & Hl & Hn & ->) Hs.
    fw (items_fine _ nothing _ _ (argument_fine n T T' HT i)) Hl. split; [len|].
    exists q, s1, ts. split; [split; [reflexivity|exact Hq]|]. split; [exact Hl|]. split; [|reflexivity].
    eapply no_item_fine; [apply (argument_fine n T' T (same_sym _ _ _ HT))|len|exact Hn].
  Qed.
  Lemma type_fine i : fine (S n) (type_rule T i) (type_rule T' i).
  Proof.
    intros s t r [H|H] Hs.
    - fw constructed_fine H. split; [exact Hl|left; exact H].
    - fw (simple_type_fine n T T' HT) H. split; [exact Hl|right; exact H].
  Qed.
End Types2.

(** ** Expressions *)

Section Expr.
  Variables (n : nat) (T T' : N -> str -> type_ast -> str -> Prop) (E E' : N -> str -> expr -> str -> Prop).
  Hypothesis HT : same n T T'.
  Hypothesis HE : same n E E'.

  Lemma list_fine i : fine n (list_rule E i) (list_rule E' i).
  Proof.
    intros s t r [(t1 & -> & H1 & ->)|(t1 & s1 & x & s2 & xs & t2 & -> & H1 & Hx & Hl & H2 & ->)] Hs.
    - split; [len|]. left. eauto.
    - fw (same_fine _ _ _ i HE) Hx. fw (items_fine _ (comma i) _ _ (same_fine _ _ _ i HE)) Hl. split; [len|].
      right. exists t1, s1, x, s2, xs, t2. auto 10.
  Qed.
  Lemma padded_fine i : fine n (padded_rule E i) (padded_rule E' i).
  Proof.
    intros s e r (b1 & s1 & b2 & -> & H1 & He & H2 & Hr) Hs. fw (same_fine _ _ _ i HE) He.
    split; [len|]. exists b1, s1, b2. auto.
  Qed.
  Lemma tuple_fine i : fine n (tuple_rule E i) (tuple_rule E' i).
  Proof.
    intros s es r [[-> ->]|(x & s1 & xs & Hx & Hl & ->)] Hs.
    - split; [len|]. left. auto.
    - fw padded_fine Hx. fw (items_fine _ just_comma _ _ (padded_fine i)) Hl. split; [len|]. right. eauto 8.
  Qed.
  Lemma paren_fine i : fine n (paren_rule E i) (paren_rule E' i).
  Proof.
    intros s e r [H|(es & H & Hne & ->)] Hs.
    - fw (same_fine _ _ _ i HE) H. split; [len|]. left. exact H.
    - fw tuple_fine H. split; [len|]. right. exists es. split; [exact H|]. split; [|reflexivity].
      intros x Hx He. fw (same_back _ _ _ i HE) He. eapply Hne; eassumption.
  Qed.
  Lemma field_fine i : fine n (field_rule E i) (field_rule E' i).
  Proof.
    intros s f r (t1 & t2 & s1 & -> & Hf & H1 & H2 & H) Hs. fw (same_fine _ _ _ i HE) H.
    split; [len|]. exists t1, t2, s1. auto.
  Qed.
  Lemma update_fine i : fine n (update_rule E i) (update_rule E' i).
  Proof.
    intros s f r (t1 & t2 & s1 & -> & Hf & H1 & H2 & H) Hs. fw (same_fine _ _ _ i HE) H.
    split; [len|]. exists t1, t2, s1. auto.
  Qed.
  Lemma record_fine i : fine n (record_rule E i) (record_rule E' i).
  Proof.
    intros s t r [(t1 & -> & H1 & ->)|[(t1 & s1 & f & s2 & fs & t2 & -> & H1 & Hf & Hl & H2 & ->)|[H|
      (t1 & m & t2 & b & s1 & fs & t3 & j3 & -> & H1 & Hm & H2 & Hb & Hs1 & H3 & H & ->)]]] Hs.
    - split; [len|]. left. eauto.
    - fw field_fine Hf. fw (items_fine _ (comma i) _ _ (field_fine i)) Hl. split; [len|].
      right. left. exists t1, s1, f, s2, fs, t2. auto 10.
    - split; [apply bare_record_len in H; len|]. right. right. left. exact H.
    - assert (HH : length r <= length s1 /\ ((fs = [] /\ s1 = t3 ++ L "}" ++ r) \/
        exists f fs' s2, fs = f :: fs' /\ update_rule E' i s1 f s2 /\
          items (comma i) (update_rule E' i) s2 fs' (t3 ++ L "}" ++ r))).
      { destruct H as [[-> ->]|(f & fs' & s2 & -> & Hf & Hl)].
        - split; [len|]. left. auto.
        - fw update_fine Hf. fw (items_fine _ (comma i) _ _ (update_fine i)) Hl. split; [len|]. right. eauto 8. }
      destruct HH as [Hl HH]. split; [len|]. right. right. right.
      exists t1, m, t2, b, s1, fs, t3, j3. auto 12.
  Qed.
  Lemma term_fine i : fine (S n) (term_rule E i) (term_rule E' i).
  Proof.
    intros s e r [(v & s1 & fs & Hv & Hl & Hn & ->)|[(s' & m & -> & Hm & ->)|[H|[(s' & -> & H)|[(s' & -> & H)|(s' & -> & H)]]]]] Hs.
    - pose proof (RVar_len _ _ _ Hv) as Hvl. fw (items_fine (S n) dot _ _ (lower_fine (S n))) Hl.
      split; [len|]. left. exists v, s1, fs. auto.
    - fw (lower_fine (S n)) Hm. split; [len|]. right. left. eauto.
    - split; [apply literal_len in H; len|]. right. right. left. exact H.
    - fw paren_fine H. split; [len|]. do 3 right. left. eauto.
    - fw list_fine H. split; [len|]. do 4 right. left. eauto.
    - fw record_fine H. split; [len|]. do 5 right. eauto.
  Qed.

  Lemma operation_fine i o : fine n (fun s e r => operation_rule E i s o e r) (fun s e r => operation_rule E' i s o e r).
  Proof.
    intros s e r (t & j & b & s' & -> & Ht & Ho & Hb & H) Hs. fw (same_fine _ _ _ i HE) H.
    split; [len|]. exists t, j, b, s'. auto.
  Qed.
  Lemma operation_fine' i o : fine (S n) (fun s e r => operation_rule E i s o e r) (fun s e r => operation_rule E' i s o e r).
  Proof.
    intros s e r (t & j & b & s' & -> & Ht & Ho & Hb & H) Hs.
    assert (Hb1 : 1 <= length b) by (destruct Hb as [Hb _]; destruct b; [congruence|cbn; lia]).
    fw (same_fine _ _ _ i HE) H.
    split; [len|]. exists t, j, b, s'. auto.
  Qed.
  Lemma signature_fine i : fine (S n) (signature_rule T i) (signature_rule T' i).
  Proof.
    intros s sg r (m & b & t & j & s' & ty & Hm & Hb & Ht & H & ->) Hs. apply RName_len in Hm as Hl0.
    fw (annotation_fine n T T' HT) H. split; [len|]. exists m, b, t, j, s', ty. auto.
  Qed.
  Lemma definition_fine i : fine (S n) (definition_rule E i) (definition_rule E' i).
  Proof.
    intros s d r (m & s1 & args & b & t & j & s' & e & Hm & Hl & Hb & Ht & H & ->) Hs. apply RName_len in Hm as Hl0.
    fw (items_fine _ spaces1 _ _ (term_fine i)) Hl. fw (same_fine _ _ _ j HE) H. split; [len|].
    exists m, s1, args, b, t, j, s', e. auto 10.
  Qed.
  Lemma function_fine i : fine (S n) (function_rule T E i) (function_rule T' E' i).
  Proof.
    intros s f r [(d & H & ->)|(sg & b & s' & d & H1 & H2 & H3 & H & ->)] Hs.
    - fw definition_fine H. split; [len|]. left. eauto.
    - fw signature_fine H1. fw definition_fine H. split; [len|]. right. exists sg, b, s', d. auto.
  Qed.
  Lemma target_fine i : fine (S n) (target_rule E i) (target_rule E' i).
  Proof.
    intros s e r [H|[(s' & -> & H)|[(s' & es & -> & H & ->)|(s' & -> & H)]]] Hs.
    - split; [apply RVar_len in H; len|]. left. exact H.
    - fw list_fine H. split; [len|]. right. left. eauto.
    - fw tuple_fine H. split; [len|]. right. right. left. eauto.
    - split; [|right; right; right; eauto]. destruct H as [[-> _]|H]; [len|]. apply bare_record_len in H. len.
  Qed.
  Lemma binding_fine i : fine (S n) (binding_rule E i) (binding_rule E' i).
  Proof.
    intros s x r (p & t1 & j1 & t2 & j2 & s' & e & Hp & H1 & H2 & H & ->) Hs.
    fw target_fine Hp. fw (same_fine _ _ _ j2 HE) H. split; [len|]. exists p, t1, j1, t2, j2, s', e. auto 10.
  Qed.
  Lemma branch_fine i : fine n (branch_rule E i) (branch_rule E' i).
  Proof.
    intros s x r (t1 & j1 & t2 & j2 & s' & Hp & H1 & H2 & H) Hs.
    fw (same_fine _ _ _ i HE) Hp. fw (same_fine _ _ _ j2 HE) H. split; [len|]. exists t1, j1, t2, j2, s'. auto.
  Qed.
  Lemma if_fine i : fine n (if_rule E i) (if_rule E' i).
  Proof.
    intros s e r (t1 & j1 & s1 & c & t2 & j2 & t3 & j3 & s2 & a & t4 & j4 & t5 & j5 & s3 & b & -> & H1 & Hc & H2 & H3 & Ha & H4 & H5 & Hb & ->) Hs.
    fw (same_fine _ _ _ i HE) Hc. fw (same_fine _ _ _ j3 HE) Ha. fw (same_fine _ _ _ j5 HE) Hb. split; [len|].
    exists t1, j1, s1, c, t2, j2, t3, j3, s2, a, t4, j4, t5, j5, s3, b. auto 15.
  Qed.
  Lemma lambda_fine i : fine n (lambda_rule E i) (lambda_rule E' i).
  Proof.
    intros s e r (x & s1 & xs & t1 & j1 & t2 & j2 & s2 & b & Hx & Hl & H1 & H2 & Hb & ->) Hs.
    fw term_fine Hx. fw (items_fine _ tabs1 _ _ (term_fine i)) Hl. fw (same_fine _ _ _ j2 HE) Hb. split; [len|].
    exists x, s1, xs, t1, j1, t2, j2, s2, b. auto 10.
  Qed.
End Expr.

Section Expr2.
  Variables (n : nat) (T T' : N -> str -> type_ast -> str -> Prop) (E E' : N -> str -> expr -> str -> Prop).
  Hypothesis HT : same n T T'.
  Hypothesis HE : same n E E'.

  Lemma application_fine i : fine (S n) (application_rule E i) (application_rule E' i).
  Proof.
    intros s e r (f & s1 & xs & Hf & Hl & Hn & ->) Hs. fw (term_fine n E E' HE) Hf.
    fw (items_fine _ (beyond i) _ _ (term_fine n E E' HE i)) Hl. split; [len|]. exists f, s1, xs.
    repeat (split; [assumption|]). split; [|reflexivity].
    eapply no_item_fine; [apply (term_fine n E' E (same_sym _ _ _ HE))|len|exact Hn].
  Qed.
  Lemma entry_fine i : fine (S n) (entry_rule T E i) (entry_rule T' E' i).
  Proof.
    intros s x r [H|(Hn & f & H & ->)] Hs.
    - fw (binding_fine n E E' HE) H. split; [len|]. left. exact H.
    - fw (function_fine n T T' E E' HT HE) H. split; [len|]. right. split; [|eauto].
      intros x' r' H'. fw (binding_fine n E' E (same_sym _ _ _ HE)) H'. eapply Hn, H'.
  Qed.
  Lemma case_fine i : fine n (case_rule E i) (case_rule E' i).
  Proof.
    intros s e r (t1 & j1 & s1 & x & t2 & j2 & t3 & m & s2 & b & s3 & bs & -> & H1 & Hx & H2 & H3 & Hb & Hl & Hn & ->) Hs.
    fw (same_fine _ _ _ i HE) Hx. fw (branch_fine n E E' HE) Hb.
    fw (items_fine _ (same_column m) _ _ (branch_fine n E E' HE m)) Hl. split; [len|].
    exists t1, j1, s1, x, t2, j2, t3, m, s2, b, s3, bs. repeat (split; [first [reflexivity|assumption]|]).
    split; [|reflexivity]. eapply no_item_fine; [apply (branch_fine n E' E (same_sym _ _ _ HE))|len|exact Hn].
  Qed.
  Lemma let_fine i : fine n (let_rule T E i) (let_rule T' E' i).
  Proof.
    intros s e r (t1 & m & s1 & x & s2 & es & t2 & j2 & t3 & j3 & s3 & b & -> & H1 & Hx & Hl & H2 & H3 & Hb & ->) Hs.
    fw entry_fine Hx. fw (items_fine _ (same_column m) _ _ (entry_fine m)) Hl. fw (same_fine _ _ _ i HE) Hb.
    split; [len|]. exists t1, m, s1, x, s2, es, t2, j2, t3, j3, s3, b. auto 12.
  Qed.
  Lemma expr_fine i : fine (S n) (expr_rule T E i) (expr_rule T' E' i).
  Proof.
    intros s e r [[Ha Ho]|[(a & r1 & o & e2 & Ha & Ho & ->)|[(s' & -> & H)|[(s' & -> & H)|[(s' & -> & H)|(s' & -> & H)]]]]] Hs.
    - fw application_fine Ha. split; [exact Hl|]. left. split; [exact Ha|]. intros o e2 r' H.
      fw (operation_fine' n E' E (same_sym _ _ _ HE) i o) H. eapply Ho, H.
    - fw application_fine Ha. fw (operation_fine' n E E' HE i o) Ho. split; [len|]. right. left. eauto 8.
    - fw (lambda_fine n E E' HE) H. split; [len|]. do 2 right. left. eauto.
    - fw (if_fine n E E' HE) H. split; [len|]. do 3 right. left. eauto.
    - fw case_fine H. split; [len|]. do 4 right. left. eauto.
    - fw let_fine H. split; [len|]. do 5 right. eauto.
  Qed.
End Expr2.

(** ** Uniqueness *)

Section Unique.
  Variables (T T' : N -> str -> type_ast -> str -> Prop) (E E' : N -> str -> expr -> str -> Prop).
  Hypothesis HT : forall i s t r, T i s t r <-> type_rule T i s t r.
  Hypothesis HT' : forall i s t r, T' i s t r <-> type_rule T' i s t r.
  Hypothesis HE : forall i s e r, E i s e r <-> expr_rule T E i s e r.
  Hypothesis HE' : forall i s e r, E' i s e r <-> expr_rule T' E' i s e r.

  Lemma types_same n : same n T T'.
  Proof.
    induction n as [|n IH]; [intros i; split; intros s x r _ H; lia|].
    intros i. split; intros s t r H Hs.
    - apply HT in H. fw (type_fine n T T' IH) H. split; [exact Hl|apply HT', H].
    - apply HT' in H. fw (type_fine n T' T (same_sym _ _ _ IH)) H. split; [exact Hl|apply HT, H].
  Qed.
  Lemma exprs_same n : same n E E'.
  Proof.
    induction n as [|n IH]; [intros i; split; intros s x r _ H; lia|].
    intros i. split; intros s t r H Hs.
    - apply HE in H. fw (expr_fine n T T' E E' (types_same n) IH) H. split; [exact Hl|apply HE', H].
    - apply HE' in H. fw (expr_fine n T' T E' E (same_sym _ _ _ (types_same n)) (same_sym _ _ _ IH)) H.
      split; [exact Hl|apply HE, H].
  Qed.
  Lemma types_equal i s t r : T i s t r <-> T' i s t r.
  Proof.
    split; intros H.
    - apply (same_fine _ _ _ i (types_same (S (length s)))) in H; [apply H|lia].
    - apply (same_back _ _ _ i (types_same (S (length s)))) in H; [apply H|lia].
  Qed.
  Lemma exprs_equal i s e r : E i s e r <-> E' i s e r.
  Proof.
    split; intros H.
    - apply (same_fine _ _ _ i (exprs_same (S (length s)))) in H; [apply H|lia].
    - apply (same_back _ _ _ i (exprs_same (S (length s)))) in H; [apply H|lia].
  Qed.
End Unique.

Section Statements.
  Variables (T T' : N -> str -> type_ast -> str -> Prop) (E E' : N -> str -> expr -> str -> Prop).
  Hypothesis HT : forall n, same n T T'.
  Hypothesis HE : forall n, same n E E'.

  Lemma statement_imp s st r : statement_rule T E s st r -> statement_rule T' E' s st r.
  Proof.
    set (n := S (length s)).
    assert (HTn : forall i s t r, T i s t r -> T' i s t r).
    { intros i s0 t r0 H. apply (same_fine _ _ _ i (HT (S (length s0)))) in H; [apply H|lia]. }
    assert (HEn : forall i s t r, E i s t r -> E' i s t r).
    { intros i s0 t r0 H. apply (same_fine _ _ _ i (HE (S (length s0)))) in H; [apply H|lia]. }
    assert (HA : forall i s t r, annotation_rule T i s t r -> annotation_rule T' i s t r).
    { intros i s0 t r0 H. apply (annotation_fine _ _ _ (HT (S (length s0)))) in H; [apply H|lia]. }
    assert (HF : forall i s t r, function_rule T E i s t r -> function_rule T' E' i s t r).
    { intros i s0 t r0 H. apply (function_fine _ _ _ _ _ (HT (length s0)) (HE (length s0))) in H; [apply H|lia]. }
    assert (HF' : forall i s t r, function_rule T' E' i s t r -> function_rule T E i s t r).
    { intros i s0 t r0 H. apply (function_fine _ _ _ _ _ (same_sym _ _ _ (HT (length s0))) (same_sym _ _ _ (HE (length s0)))) in H; [apply H|lia]. }
    destruct st as [q e|q e|q fs e|q al ex|m ty|m cs|m ty|m args e|f|a v m|c]; cbn [statement_rule]; auto.
    - intros (b1 & b2 & s1 & b3 & t & j & s2 & -> & H1 & H2 & H3 & H4 & H5 & H6).
      exists b1, b2, s1, b3, t, j, s2. auto 10.
    - intros (b & s1 & t1 & m' & t2 & j & s2 & c & cs' & s3 & -> & H1 & H2 & H3 & H4 & H5 & H6 & H7 & ->).
      assert (HC : forall s c r, constructed_rule T m' s c r -> constructed_rule T' m' s c r).
      { intros s0 t r0 H. apply (constructed_fine _ _ _ (HT (length s0))) in H; [apply H|lia]. }
      assert (HC' : forall s c r, constructed_rule T' m' s c r -> constructed_rule T m' s c r).
      { intros s0 t r0 H. apply (constructed_fine _ _ _ (same_sym _ _ _ (HT (length s0)))) in H; [apply H|lia]. }
      exists b, s1, t1, m', t2, j, s2, c, cs', s3. repeat (split; [first [reflexivity|assumption|apply HTn; assumption|apply HC; assumption]|]).
      split. { clear - H6 HC. induction H6; econstructor; eauto. }
      split; [|reflexivity]. intros t s0 x r' Er Ht Hx. eapply H7; [exact Er|exact Ht|apply HC', Hx].
    - intros (b1 & b2 & t & j & s' & -> & H1 & H2 & H3 & H4 & H5). exists b1, b2, t, j, s'. auto 10.
    - intros (b1 & s1 & b2 & t & j & s' & -> & H1 & H2 & H3 & H4 & H5 & H6 & H7). exists b1, s1, b2, t, j, s'. auto 10.
    - intros [H Hf]. split; [exact H|]. intros f r' H'. eapply Hf, HF', H'.
  Qed.
End Statements.

Theorem language_unique T E S F T' E' S' F' : language T E S F -> language T' E' S' F' ->
  (forall i s t r, T i s t r <-> T' i s t r) /\ (forall i s e r, E i s e r <-> E' i s e r) /\
  (forall s st r, S s st r <-> S' s st r) /\ (forall s l, F s l <-> F' s l).
Proof.
  intros [HT HE HS HF] [HT' HE' HS' HF'].
  pose proof (types_same T T' HT HT') as Hts. pose proof (exprs_same T T' E E' HT HT' HE HE') as Hes.
  split; [apply types_equal; assumption|]. split; [apply (exprs_equal T T'); assumption|].
  assert (Hst : forall s st r, S s st r <-> S' s st r).
  { intros s st r. rewrite HS, HS'. split; apply statement_imp; auto; intros n; apply same_sym; auto. }
  split; [exact Hst|]. intros s l. rewrite HF, HF'. unfold file_rule.
  assert (Hi : forall (S S' : str -> statement_ast -> str -> Prop) s l r, (forall s st r, S s st r <-> S' s st r) ->
    items (fun t => blanks1 t) (fun s x r => ends is_blank s /\ S s x r) s l r ->
    items (fun t => blanks1 t) (fun s x r => ends is_blank s /\ S' s x r) s l r).
  { intros S1 S2 s0 l0 r0 H. induction 1 as [|t s1 x s2 l1 r1 Ht [Hx1 Hx] _ IH]; econstructor; eauto.
    split; [exact Hx1|apply H, Hx]. }
  split; intros (b & s1 & st & s2 & sts' & b' & -> & Hb & Hs & H & Hl & Hb' & ->);
    exists b, s1, st, s2, sts', b'; repeat (split; [first [reflexivity|assumption|apply Hst; assumption]|]).
  - split; [eapply Hi; eassumption|]. auto.
  - split; [eapply Hi; [|eassumption]; intros; symmetry; apply Hst|]. auto.
Qed.
