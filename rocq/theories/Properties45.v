(** * C88: which characters begin and end an expression, a type, a declaration *)
From Verif Require Import Base Nom Regex Ast Spec Helpers Types Expr Stmt Grammar Sound SoundE SoundS Heads CompleteT CompleteS Fail Errors Finish Properties43 Properties44.

Definition starts_expr (c : char) : Prop := is_name_char c = true \/ In c (quote :: squote :: L "([{.+-\").
Definition hd_ok (w : str) : Prop := exists c t, w = c :: t /\ starts_expr c.
Lemma hd_app w y : hd_ok w -> hd_ok (w ++ y).
Proof. intros (c & t & -> & H). exists c, (t ++ y). auto. Qed.
Lemma hd_word n : n <> [] -> forallb is_name_char n = true -> hd_ok n.
Proof. intros Hn H. destruct n as [|c n]; [congruence|]. exists c, n. split; [reflexivity|left]. cbn [forallb] in H. apply andb_true_iff in H. apply H. Qed.
Lemma name_of_dec c : is_dec c = true -> is_name_char c = true.
Proof. unfold is_name_char. intros ->. rewrite ?orb_true_r. reflexivity. Qed.
Lemma name_of_upper c : is_upper c = true -> is_name_char c = true.
Proof. unfold is_name_char. intros ->. rewrite ?orb_true_r. reflexivity. Qed.
Lemma name_of_lower c : is_lower c = true -> is_name_char c = true.
Proof. unfold is_name_char. intros ->. reflexivity. Qed.
Lemma hd_lower n : lower_name n -> hd_ok n.
Proof.
  intros [->|[(c & t & -> & Hc & _) _]]; [exists (C "_"), []; split; [reflexivity|left; reflexivity]|]. exists c, t. split; [reflexivity|left]. apply name_of_lower, Hc.
Qed.
Lemma hd_number sg d y : sign_text sg -> digits1 d -> hd_ok (sg ++ d ++ y).
Proof.
  intros Hs Hd. destruct (number_head sg d y Hs Hd) as (c & s & -> & H). exists c, s. split; [reflexivity|]. unfold number0 in H.
  apply orb_true_iff in H as [H|H]; [apply orb_true_iff in H as [H|H]|]; [left; apply name_of_dec, H|right; apply N.eqb_eq in H as ->; cbn; tauto..].
Qed.
Lemma hd_sign c t : In c (quote :: squote :: L "([{.+-\") -> hd_ok (c :: t).
Proof. intros H. exists c, t. split; [reflexivity|right; exact H]. Qed.
Lemma hd_var e w : GVar e w -> hd_ok w.
Proof.
  intros H. destruct H as [n H|q [Hne H]|o H|o Hne H]; [apply hd_lower, H| |apply hd_sign; cbn; tauto..].
  destruct H as [|x q (c & t & -> & Hc & _) H]; [congruence|]. unfold dotted. destruct q; (eexists _, _; split; [reflexivity|left; apply name_of_upper, Hc]).
Qed.
Lemma hd_term i e w : GTerm i e w -> hd_ok w.
Proof.
  intros H. destruct H; try (apply hd_sign; cbn; tauto).
  - eapply hd_var, H.
  - apply hd_app. eapply hd_var, H.
  - destruct H as (sg & d & f & -> & H1 & H2 & _). apply hd_number; assumption.
  - destruct H as (sg & d & -> & H1 & H2). rewrite <- (app_nil_r d). apply hd_number; assumption.
  - destruct H; apply hd_sign; cbn; tauto.
  - destruct H; apply hd_sign; cbn; tauto.
  - destruct H; apply hd_sign; cbn; tauto.
Qed.
Lemma hd_application i e w : GApp i e w -> hd_ok w.
Proof. intros H. induction H; [eapply hd_term; eassumption|apply hd_app; assumption]. Qed.
Lemma hd_expr i e w : GE i e w -> hd_ok w.
Proof.
  intros H. destruct H; try (eapply hd_application; eassumption); try (apply hd_app; eapply hd_application; eassumption);
    try (eexists _, _; split; [reflexivity|left; reflexivity]). apply hd_sign. cbn. tauto.
Qed.

(** ** Every such character does begin or end one *)
Definition done {A} (x : res A) : bool := match x with Ok [] _ => true | _ => false end.
Lemma done_iff {A} (x : res A) : done x = true -> exists a, x = Ok [] a.
Proof. destruct x as [[|c r] a| |]; try discriminate. exists a. reflexivity. Qed.
Definition table (P : char -> bool) : str := filter P (map N.of_nat (seq 0 123)).
Lemma in_table P c : (c <= 122)%N -> P c = true -> In c (table P).
Proof.
  intros Hc H. apply filter_In. split; [|exact H]. apply in_map_iff. exists (N.to_nat c). split; [apply N2Nat.id|]. apply in_seq. lia.
Qed.
Lemma name_small c : is_name_char c = true -> (c <= 122)%N.
Proof.
  unfold is_name_char, is_lower, is_upper, is_dec, between. intros H. repeat (apply orb_true_iff in H as [H|H]); try (apply andb_true_iff in H as [_ H]; apply N.leb_le in H; lia).
  apply N.eqb_eq in H. subst c. lia.
Qed.
Lemma each_name {A} (p : parser A) (f : char -> str) c (P : char -> bool) : forallb (fun c => done (p (f c))) (table P) = true -> (forall c, P c = true -> is_name_char c = true) ->
  P c = true -> exists a, p (f c) = Ok [] a.
Proof. intros H HP Hc. rewrite forallb_forall in H. apply done_iff. apply H. apply in_table; [apply name_small, HP, Hc|exact Hc]. Qed.

(** An expression begins with a letter, a digit, an underscore, a quote, an opening bracket, a dot, a sign or a
    backslash, and with each of these some expression begins. *)
Theorem C88_expression_begins : forall c,
  (exists i s r e, expression i (c :: s) = Ok r e) <-> is_name_char c = true \/ In c (quote :: squote :: L "([{.+-\").
Proof.
  intros c. split.
  - intros (i & s & r & e & H). apply sound_expression in H as (w & E & H). destruct (hd_expr i e w H) as (d & t & -> & Hd). injection E as -> _. exact Hd.
  - intros [H|H].
    + destruct (each_name (expression 0) (fun c => [c]) c is_name_char eq_refl (fun _ K => K) H) as [a Ha]. exists 0%N, [], [], a. exact Ha.
    + repeat (destruct H as [<-|H]; [exists 0%N|]); [..|destruct H].
      * exists [quote]. do 2 eexists. vm_compute. reflexivity.
      * exists (L "a" ++ [squote]). do 2 eexists. vm_compute. reflexivity.
      * exists (L "a)"). do 2 eexists. vm_compute. reflexivity.
      * exists (L "a]"). do 2 eexists. vm_compute. reflexivity.
      * exists (L "}"). do 2 eexists. vm_compute. reflexivity.
      * exists (L "a"). do 2 eexists. vm_compute. reflexivity.
      * exists (L "1"). do 2 eexists. vm_compute. reflexivity.
      * exists (L "1"). do 2 eexists. vm_compute. reflexivity.
      * exists (L "a -> b"). do 2 eexists. vm_compute. reflexivity.
Qed.
Print Assumptions C88_expression_begins.

(** An expression ends in a letter, a digit, an underscore, a quote or a closing bracket, and in each of these some
    expression ends. *)
Theorem C88_expression_ends : forall c,
  (exists i w r e, expression i ((w ++ [c]) ++ r) = Ok r e) <-> is_name_char c = true \/ In c (quote :: squote :: L ")]}").
Proof.
  intros c. split.
  - intros (i & w & r & e & H). apply sound_expression in H as (w' & E & H). apply app_inv_tail in E. subst w'.
    apply (proj1 finished_exprs) in H. apply finished_not_blank in H as (u & x & E & _ & Hx). apply app_inj_tail in E as [_ ->]. destruct Hx as [Hx|Hx]; [left; exact Hx|right].
    repeat (destruct Hx as [Hx|Hx]; [injection Hx as <-; cbn; tauto|]). destruct Hx.
  - intros [H|H].
    + destruct (each_name (expression 0) (fun c => L "x" ++ [c]) c is_name_char eq_refl (fun _ K => K) H) as [a Ha]. exists 0%N, (L "x"), [], a. rewrite app_nil_r. exact Ha.
    + repeat (destruct H as [<-|H]; [exists 0%N|]); [..|destruct H].
      * exists [quote], []. eexists. vm_compute. reflexivity.
      * exists ([squote] ++ L "a"), []. eexists. vm_compute. reflexivity.
      * exists (L "(a"), []. eexists. vm_compute. reflexivity.
      * exists (L "[a"), []. eexists. vm_compute. reflexivity.
      * exists (L "{"), []. eexists. vm_compute. reflexivity.
Qed.
Print Assumptions C88_expression_ends.

(** The same for types: *)
Theorem C88_type_begins : forall c,
  (exists i s r t, type_annotation i (c :: s) = Ok r t) <-> is_lower c = true \/ is_upper c = true \/ In c (L "({").
Proof.
  intros c. split.
  - intros (i & s & r & t & H). apply sound_type_annotation in H as (w & E & H).
    assert (K : exists j t' w' y, GTy j t' w' /\ w = w' ++ y).
    { destruct H; [do 4 eexists; split; [eassumption|rewrite app_nil_r; reflexivity]|do 4 eexists; split; [eassumption|reflexivity]]. }
    destruct K as (j & t' & w' & y & K & ->). destruct K as [i' q args w' [Hne Hq] _|i' t' w' K].
    + destruct Hq as [|x q (d & u & -> & Hd & _) Hq]; [congruence|]. unfold dotted in E. destruct q; injection E as -> _; auto.
    + destruct K as [i' n (d & u & -> & Hd & _)| | | | | | ]; cbn in E; injection E as -> _; auto; right; right; cbn; tauto.
  - intros [H|[H|H]].
    + destruct (each_name (type_annotation 0) (fun c => [c]) c is_lower eq_refl name_of_lower H) as [a Ha]. exists 0%N, [], [], a. exact Ha.
    + destruct (each_name (type_annotation 0) (fun c => [c]) c is_upper eq_refl name_of_upper H) as [a Ha]. exists 0%N, [], [], a. exact Ha.
    + destruct H as [<-|[<-|[]]]; exists 0%N; [exists (L ")")|exists (L "}")]; do 2 eexists; vm_compute; reflexivity.
Qed.
Print Assumptions C88_type_begins.

Theorem C88_type_ends : forall c,
  (exists i w r t, type_annotation i ((w ++ [c]) ++ r) = Ok r t) <-> is_name_char c = true \/ In c (L ")}").
Proof.
  intros c. split.
  - intros (i & w & r & t & H). apply sound_type_annotation in H as (w' & E & H). apply app_inv_tail in E. subst w'.
    apply (proj1 (proj2 shut_types)) in H. apply shut_ending in H as (u & x & E & Hx). apply app_inj_tail in E as [_ ->]. exact Hx.
  - intros [H|H].
    + destruct (each_name (type_annotation 0) (fun c => L "X" ++ [c]) c is_name_char eq_refl (fun _ K => K) H) as [a Ha]. exists 0%N, (L "X"), [], a. rewrite app_nil_r. exact Ha.
    + destruct H as [<-|[<-|[]]]; exists 0%N; [exists (L "("), []|exists (L "{"), []]; eexists; vm_compute; reflexivity.
Qed.
Print Assumptions C88_type_ends.

(** A statement begins with a small letter, an underscore, ( for an operator, { or - for a comment. *)
Theorem C88_statement_begins : forall c,
  (exists s r st, statement (c :: s) = Ok r st) <-> is_lower c = true \/ In c (L "_({-").
Proof.
  intros c. split.
  - intros (s & r & st & H). apply heads_statement in H as (d & s' & E & H). injection E as <- _. unfold statement0, name0 in H.
    apply orb_true_iff in H as [H|H]; [apply orb_true_iff in H as [H|H]; [auto|apply N.eqb_eq in H as ->; right; cbn; tauto]|right].
    apply mem_char_In in H. revert H. cbn. tauto.
  - intros [H|H].
    + destruct (each_name statement (fun c => [c] ++ L " = 1") c is_lower eq_refl name_of_lower H) as [a Ha]. exists (L " = 1"), [], a. exact Ha.
    + destruct H as [<-|[<-|[<-|[<-|[]]]]]; [exists (L " = 1")|exists (L "+) = 1")|exists (L "--}")|exists (L "-")]; do 2 eexists; vm_compute; reflexivity.
Qed.
Print Assumptions C88_statement_begins.

(** A definition ends as an expression does. *)
Theorem C88_definition_ends : forall c,
  (exists w r f, statement ((w ++ [c]) ++ r) = Ok r (Function_ f)) <-> is_name_char c = true \/ In c (quote :: squote :: L ")]}").
Proof.
  intros c. split.
  - intros (w & r & f & H). pose proof (C86_statement _ _ _ (w ++ [c]) H eq_refl) as K. cbn [ending] in K.
    apply finished_not_blank in K as (u & x & E & _ & Hx). apply app_inj_tail in E as [_ ->]. destruct Hx as [Hx|Hx]; [left; exact Hx|right].
    repeat (destruct Hx as [Hx|Hx]; [injection Hx as <-; cbn; tauto|]). destruct Hx.
  - intros [H|H].
    + destruct (each_name statement (fun c => L "f = x" ++ [c]) c is_name_char eq_refl (fun _ K => K) H) as [b Hb].
      destruct (C87_definition (L "f") (L " = x" ++ [c]) [] b) as (f & -> & _); [right; split; [do 2 eexists; split; [reflexivity|split; reflexivity]|vm_compute; intuition discriminate]|vm_compute; intuition discriminate|reflexivity|exact Hb|]. exists (L "f = x"), [], f. rewrite app_nil_r. exact Hb.
    + repeat (destruct H as [<-|H]; [|]); [..|destruct H].
      * exists (L "f = " ++ [quote]), []. eexists. vm_compute. reflexivity.
      * exists (L "f = " ++ [squote] ++ L "a"), []. eexists. vm_compute. reflexivity.
      * exists (L "f = (a"), []. eexists. vm_compute. reflexivity.
      * exists (L "f = [a"), []. eexists. vm_compute. reflexivity.
      * exists (L "f = {"), []. eexists. vm_compute. reflexivity.
Qed.
Print Assumptions C88_definition_ends.

(** *** Instances *)
Example C88_instance : (exists i s r e, expression i (C "." :: s) = Ok r e) /\ ~ (exists i s r e, expression i (C "*" :: s) = Ok r e) /\
  ~ (exists i w r e, expression i ((w ++ [C "."]) ++ r) = Ok r e) /\ ~ (exists i w r t, type_annotation i ((w ++ [C "]"]) ++ r) = Ok r t) /\
  ~ (exists s r st, statement (C "A" :: s) = Ok r st).
Proof.
  split; [apply C88_expression_begins; right; cbn; tauto|].
  split; [intros H; apply C88_expression_begins in H as [H|H]; [discriminate H|cbn in H; intuition discriminate]|].
  split; [intros H; apply C88_expression_ends in H as [H|H]; [discriminate H|cbn in H; intuition discriminate]|].
  split; [intros H; apply C88_type_ends in H as [H|H]; [discriminate H|cbn in H; intuition discriminate]|].
  intros H; apply C88_statement_begins in H as [H|H]; [discriminate H|cbn in H; intuition discriminate].
Qed.
