(** * Literals do not matter: two texts that differ in their literals and comments *)
From Verif Require Import Base Nom Regex Ast Good Spec Grammar Helpers Types Expr Stmt Lexers Layout Follow SoundE Seqs LexProps Total Heads Rules TwoRuns RenameSim Whole CommentSpec LiteralSpec.

Definition flip (K : kinds) : kinds :=
  mkKinds (fun a b => on_string K b a) (fun a b => on_char K b a) (fun a b => on_digits K b a) (fun a b => on_comment K b a) (fun a b => on_operator K b a) (fun a b => on_list K b a) (fun a b => on_round K b a) (fun a b => on_curly K b a).
Lemma rl_sym K b s s' : relit K b s s' -> relit (flip K) b s' s.
Proof.
  induction 1 as [b|b c c' s s'|b c c' s s'|b t t' c c' s s'|b t t' c c' s s'|b d d' s s'|b o o' s s'|b t t' e e' s s' HL|b t t' e e' s s' HL|b t t' e e' s s' HL|b c s s' H1 H2 H3 H4].
  - apply rl_nil.
  - apply rl_line; assumption.
  - apply rl_block; assumption.
  - eapply rl_string; eassumption.
  - eapply rl_literal; eassumption.
  - apply rl_digits; assumption.
  - apply rl_operator; assumption.
  - apply (rl_list _ b t' t e' e); assumption.
  - apply (rl_round _ b t' t e' e); assumption.
  - apply (rl_curly _ b t' t e' e); assumption.
  - apply rl_other; try assumption. intros v Hv. symmetry. apply H4, Hv.
Qed.

(** ** Heads *)
Definition heads_like (s s' : str) : Prop :=
  match s, s' with [], [] => True | c :: _, c' :: _ => c = c' \/ is_dec c = true /\ is_dec c' = true \/ is_op_char c = true /\ is_op_char c' = true | _, _ => False end.
Definition heads_eq (s s' : str) : Prop :=
  match s, s' with [], [] => True | c :: _, c' :: _ => c = c' \/ is_op_char c = true /\ is_op_char c' = true | _, _ => False end.
Definition uniform_op (P : char -> bool) : Prop := forall c c', is_op_char c = true -> is_op_char c' = true -> P c = P c'.
Definition uniform (P : char -> bool) : Prop := (forall c c', is_dec c = true -> is_dec c' = true -> P c = P c') /\ uniform_op P.
Lemma dec_cases c : is_dec c = true -> In c (L "0123456789").
Proof.
  unfold is_dec, between. intros H. apply andb_true_iff in H as [H1 H2]. apply N.leb_le in H1, H2.
  assert (E : exists d, c = (48 + d)%N /\ (d < 10)%N) by (exists (c - 48)%N; lia). destruct E as (d & -> & Hd).
  do 10 (destruct d as [|d] using N.peano_ind; [cbn; tauto|clear IHd]). lia.
Qed.
Lemma uniform_op_check P : forallb (fun d => Bool.eqb (P d) (P (C "+"))) op_chars = true -> uniform_op P.
Proof.
  intros H c c' Hc Hc'. rewrite forallb_forall in H. apply mem_char_In in Hc, Hc'. apply H in Hc, Hc'. apply Bool.eqb_prop in Hc, Hc'. congruence.
Qed.
Lemma uniform_check P : forallb (fun d => Bool.eqb (P d) (P (C "0"))) (L "0123456789") = true -> forallb (fun d => Bool.eqb (P d) (P (C "+"))) op_chars = true -> uniform P.
Proof.
  intros H H2. split; [|apply uniform_op_check, H2].
  intros c c' Hc Hc'. rewrite forallb_forall in H. apply dec_cases in Hc, Hc'. apply H in Hc, Hc'. apply Bool.eqb_prop in Hc, Hc'. congruence.
Qed.
Lemma op_head o s : changeable o s -> exists x t, o = x :: t /\ is_op_char x = true /\ forallb is_op_char t = true.
Proof. intros ((Hn & H & _) & _). destruct o as [|x o]; [congruence|]. apply andb_true_iff in H as [H1 H2]. eauto. Qed.
Lemma string_head w t c : string_literal w t c -> exists t', t = quote :: t'.
Proof. destruct 1; eexists; reflexivity. Qed.
Lemma char_head t c : char_literal t c -> exists t', t = squote :: t'.
Proof. destruct 1; eexists; reflexivity. Qed.
Lemma digits_head d : digits1 d -> exists x d', d = x :: d' /\ is_dec x = true.
Proof. intros [Hn H]. destruct d as [|x d]; [congruence|]. apply andb_true_iff in H as [H _]. eauto. Qed.
Lemma rl_head K b s s' : relit K b s s' -> heads_like s s'.
Proof.
  intros H. destruct H as [b|b c c' s s'|b c c' s s'|b t t' c c' s s' H1 H2|b t t' c c' s s' H1 H2|b d d' s s' H1 H2|b o o' s s' H1 H2|b t t' e e' s s'|b t t' e e' s s'|b t t' e e' s s'|b c s s'].
  - exact I.
  - left. reflexivity.
  - left. reflexivity.
  - destruct (string_head _ _ _ H1) as (? & ->). destruct (string_head _ _ _ H2) as (? & ->). left. reflexivity.
  - destruct (char_head _ _ H1) as (? & ->). destruct (char_head _ _ H2) as (? & ->). left. reflexivity.
  - destruct (digits_head _ H1) as (? & ? & -> & ?). destruct (digits_head _ H2) as (? & ? & -> & ?). right. auto.
  - destruct (op_head _ _ H1) as (? & ? & -> & ? & _). destruct (op_head _ _ H2) as (? & ? & -> & ? & _). right. auto.
  - left. reflexivity.
  - left. reflexivity.
  - left. reflexivity.
  - left. reflexivity.
Qed.
Lemma rl_head_true K s s' : relit K after_name s s' -> heads_eq s s'.
Proof.
  intros H. remember after_name as b0 eqn:Eb in H.
  destruct H as [b|b c c' s s'|b c c' s s'|b t t' c c' s s' H1 H2|b t t' c c' s s' H1 H2|b d d' s s' H1 H2 H3 H4 H5|b o o' s s' H1 H2|b t t' e e' s s'|b t t' e e' s s'|b t t' e e' s s'|b c s s'].
  - exact I.
  - left. reflexivity.
  - left. reflexivity.
  - destruct (string_head _ _ _ H1) as (? & ->). destruct (string_head _ _ _ H2) as (? & ->). left. reflexivity.
  - destruct (char_head _ _ H1) as (? & ->). destruct (char_head _ _ H2) as (? & ->). left. reflexivity.
  - congruence.
  - destruct (op_head _ _ H1) as (? & ? & -> & ? & _). destruct (op_head _ _ H2) as (? & ? & -> & ? & _). right. auto.
  - left. reflexivity.
  - left. reflexivity.
  - left. reflexivity.
  - left. reflexivity.
Qed.
Lemma heads_ends P s s' : uniform P -> heads_like s s' -> ends P s -> ends P s'.
Proof.
  intros [HP HO]. destruct s as [|c s], s' as [|c' s']; cbn; intros H; try destruct H; auto; [congruence|].
  destruct H as [[H H']|[H H']]; [rewrite (HP c' c H' H)|rewrite (HO c' c H' H)]; auto.
Qed.
Lemma eq_ends P s s' : uniform_op P -> heads_eq s s' -> ends P s -> ends P s'.
Proof.
  intros HO. destruct s as [|c s], s' as [|c' s']; cbn; intros H; try destruct H; auto; [congruence|]. destruct H as [H H']. rewrite (HO c' c H' H). auto.
Qed.

(** ** One character that is no mark *)
Definition mark (c : char) : bool := is_op_char c || (c =? C "{")%N || (c =? C "[")%N || (c =? C "(")%N || (c =? quote)%N || (c =? squote)%N || is_dec c.
Lemma rl_one K b c s s' : mark c = false -> relit K b (c :: s) s' ->
  exists s2, s' = c :: s2 /\ relit K (kind c) s s2 /\ ordinary c s /\ ordinary c s2 /\ infix_kept c s s2.
Proof.
  intros Hc H. remember (c :: s) as x eqn:E.
  destruct H as [b|b d d' s1 s1'|b d d' s1 s1'|b t t' d d' s1 s1' H1 H2|b t t' d d' s1 s1' H1 H2|b d d' s1 s1' H1 H2|b o o' s1 s1' H1 H2|b t t' e e' s1 s1'|b t t' e e' s1 s1'|b t t' e e' s1 s1'|b d s1 s1'].
  - discriminate E.
  - injection E as <- _. discriminate Hc.
  - injection E as <- _. discriminate Hc.
  - destruct (string_head _ _ _ H1) as (? & ->). injection E as <- _. discriminate Hc.
  - destruct (char_head _ _ H1) as (? & ->). injection E as <- _. discriminate Hc.
  - destruct (digits_head _ H1) as (? & ? & -> & Hx). injection E as <- _. unfold mark in Hc. rewrite Hx, !orb_true_r in Hc. discriminate Hc.
  - destruct (op_head _ _ H1) as (? & ? & -> & Hx & _). injection E as <- _. unfold mark in Hc. rewrite Hx in Hc. discriminate Hc.
  - injection E as <- _. discriminate Hc.
  - injection E as <- _. discriminate Hc.
  - injection E as <- _. discriminate Hc.
  - injection E as -> ->. eauto 10.
Qed.
Definition X (K : kinds) (s s' : str) : Prop := exists b, relit K b s s'.
Lemma X_head K s s' : X K s s' -> heads_like s s'.
Proof. intros [b H]. eapply rl_head, H. Qed.
Lemma x_one K c s s' : mark c = false -> X K (c :: s) s' -> exists s2, s' = c :: s2 /\ X K s s2 /\ ordinary c s /\ ordinary c s2.
Proof. intros Hc [b H]. apply rl_one in H as (s2 & -> & H & H1 & H2 & _); [|exact Hc]. exists s2. split; [reflexivity|]. split; [eexists; exact H|auto]. Qed.
Lemma x_word K w r s' : forallb (fun c => negb (mark c)) w = true -> X K (w ++ r) s' -> exists r', s' = w ++ r' /\ X K r r'.
Proof.
  revert s'. induction w as [|c w IH]; intros s' Hw H; [exists s'; auto|]. apply andb_true_iff in Hw as [Hc Hw]. apply negb_true_iff in Hc.
  apply (x_one _ c _ _ Hc) in H as (s2 & -> & H & _). destruct (IH _ Hw H) as (r' & -> & Hr). exists r'. auto.
Qed.
(** names: digits inside do not change *)
Lemma name_not_op c : is_name_char c = true -> is_op_char c = false.
Proof.
  intros Hc. destruct (is_op_char c) eqn:Ho; [|reflexivity]. apply class_op in Ho. rewrite (class_name _ Hc) in Ho. discriminate Ho.
Qed.
Lemma dec_not_op c : is_dec c = true -> is_op_char c = false.
Proof. intros Hc. apply name_not_op. unfold is_name_char. rewrite Hc, orb_true_r. reflexivity. Qed.
Lemma name_not_mark c : is_name_char c = true -> is_dec c = false -> mark c = false.
Proof.
  intros Hc Hd. unfold mark. rewrite Hd, orb_false_r, (name_not_op c Hc).
  assert (H : forall d, is_name_char d = false -> (c =? d)%N = false) by (intros d Hn; apply N.eqb_neq; intros ->; congruence).
  rewrite !H by reflexivity. reflexivity.
Qed.
Lemma kind_name c : is_name_char c = true -> kind c = after_name.
Proof. unfold kind. intros ->. reflexivity. Qed.
Lemma rl_name K w r s' : forallb is_name_char w = true -> relit K after_name (w ++ r) s' -> exists r', s' = w ++ r' /\ relit K after_name r r'.
Proof.
  revert s'. induction w as [|c w IH]; intros s' Hw H; [exists s'; auto|]. apply andb_true_iff in Hw as [Hc Hw].
  assert (Hx : exists s2, s' = c :: s2 /\ relit K after_name (w ++ r) s2).
  { destruct (is_dec c) eqn:Hd.
    - cbn [app] in H. remember after_name as b0 eqn:Eb in H. remember (c :: w ++ r) as x eqn:E.
      destruct H as [b|b d d' s1 s1'|b d d' s1 s1'|b t t' d d' s1 s1' H1 H2|b t t' d d' s1 s1' H1 H2|b d d' s1 s1' H1 H2 H3 H4 H5|b o o' s1 s1' H1 H2|b t t' e e' s1 s1'|b t t' e e' s1 s1'|b t t' e e' s1 s1'|b d s1 s1'].
      + discriminate E.
      + injection E as <- _. discriminate Hd.
      + injection E as <- _. discriminate Hd.
      + destruct (string_head _ _ _ H1) as (? & ->). injection E as <- _. discriminate Hd.
      + destruct (char_head _ _ H1) as (? & ->). injection E as <- _. discriminate Hd.
      + congruence.
      + destruct (op_head _ _ H1) as (? & ? & -> & Hx & _). injection E as <- _. rewrite (dec_not_op _ Hd) in Hx. discriminate Hx.
      + injection E as <- _. discriminate Hd.
      + injection E as <- _. discriminate Hd.
      + injection E as <- _. discriminate Hd.
      + injection E as -> ->. rewrite (kind_name c Hc) in *. eauto.
    - cbn [app] in H. apply rl_one in H as (s2 & -> & H & _); [|apply name_not_mark; assumption]. rewrite (kind_name c Hc) in H. eauto. }
  destruct Hx as (s2 & -> & H2). destruct (IH _ Hw H2) as (r' & -> & Hr). exists r'. auto.
Qed.
Lemma x_name K c w r s' : is_name_char c = true -> is_dec c = false -> forallb is_name_char w = true -> X K (c :: w ++ r) s' ->
  exists r', s' = c :: w ++ r' /\ relit K after_name r r'.
Proof.
  intros Hc Hd Hw [b H]. apply rl_one in H as (s2 & -> & H & _); [|apply name_not_mark; assumption]. rewrite (kind_name c Hc) in H.
  apply rl_name in H as (r' & -> & H); [|exact Hw]. eauto.
Qed.

(** *** operators *)
Lemma kind_op c : is_op_char c = true -> kind c = after_operator.
Proof. intros H. unfold kind. rewrite H. destruct (is_name_char c) eqn:Hn; [|reflexivity]. rewrite (name_not_op c Hn) in H. discriminate H. Qed.
Lemma changeable_code o s : changeable o s -> ~ dashes (o ++ s).
Proof.
  intros ((Hne & _) & He & Hd & _) (w & E). destruct o as [|x [|y o]]; [congruence| |].
  - destruct s as [|c s]; [discriminate E|]. injection E as -> -> _. discriminate He.
  - injection E as -> -> _. apply Hd. exists [], o. reflexivity.
Qed.
(** one symbol: it stays, or it begins an operator that is replaced *)
Lemma rl_symbol K b c s s' : is_op_char c = true -> ~ dashes (c :: s) -> relit K b (c :: s) s' ->
  (exists s2, s' = c :: s2 /\ relit K after_operator s s2 /\ ~ dashes s /\ ~ dashes s2) \/
  (exists o o' q q', c :: s = o ++ q /\ s' = o' ++ q' /\ changeable o q /\ changeable o' q' /\ b <> after_operator /\ on_operator K o o' /\ X K q q').
Proof.
  intros Hc Hd H. remember (c :: s) as x eqn:E.
  assert (Hne : forall d u v, is_op_char d = false -> c :: s = d :: u ++ v -> False) by (intros d u v Hn E0; injection E0 as <- _; congruence).
  destruct H as [b|b d d' s1 s1'|b d d' s1 s1'|b t t' d d' s1 s1' H1 H2|b t t' d d' s1 s1' H1 H2|b d d' s1 s1' H1 H2|b o o' s1 s1' H1 H2 H3 H4 H|b t t' e e' s1 s1'|b t t' e e' s1 s1'|b t t' e e' s1 s1'|b d s1 s1' H1 H2 H3 H4 H].
  - discriminate E.
  - exfalso. apply Hd. exists (d ++ s1). reflexivity.
  - injection E as <- _. discriminate Hc.
  - destruct (string_head _ _ _ H1) as (? & ->). injection E as <- _. discriminate Hc.
  - destruct (char_head _ _ H1) as (? & ->). injection E as <- _. discriminate Hc.
  - destruct (digits_head _ H1) as (? & ? & -> & Hx). injection E as -> _. rewrite (dec_not_op _ Hx) in Hc. discriminate Hc.
  - right. exists o, o', s1, s1'. repeat (split; [first [assumption|reflexivity]|]). eexists; exact H.
  - injection E as <- _. discriminate Hc.
  - injection E as <- _. discriminate Hc.
  - injection E as <- _. discriminate Hc.
  - injection E as -> ->. left. exists s1'. rewrite (kind_op c Hc) in H. split; [reflexivity|]. split; [exact H|].
    destruct H1 as (_ & _ & _ & H1 & _). destruct H2 as (_ & _ & _ & H2 & _). split; [apply H1|apply H2]; left; exact Hc.
Qed.
Lemma rl_run K w r s' : forallb is_op_char w = true -> ~ dashes (w ++ r) -> relit K after_operator (w ++ r) s' ->
  exists r', s' = w ++ r' /\ X K r r'.
Proof.
  revert s'. induction w as [|c w IH]; intros s' Hw Hd H; [exists s'; split; [reflexivity|eexists; exact H]|]. apply andb_true_iff in Hw as [Hc Hw]. cbn [app] in *.
  apply rl_symbol in H as [(s2 & -> & H & H1 & H2)|(o & o' & q & q' & _ & _ & _ & _ & H & _)]; [|congruence|exact Hc|exact Hd].
  destruct (IH _ Hw H1 H) as (r' & -> & Hr). exists r'. auto.
Qed.
Lemma x_ops K w r s' : w <> [] -> forallb is_op_char w = true -> ~ dashes (w ++ r) -> X K (w ++ r) s' ->
  (exists r', s' = w ++ r' /\ X K r r') \/
  (exists o o' q q', w ++ r = o ++ q /\ s' = o' ++ q' /\ changeable o q /\ changeable o' q' /\ on_operator K o o' /\ X K q q').
Proof.
  intros Hne Hw Hd [b H]. destruct w as [|c w]; [congruence|]. apply andb_true_iff in Hw as [Hc Hw]. cbn [app] in *.
  apply rl_symbol in H as [(s2 & -> & H & H1 & H2)|(o & o' & q & q' & H1 & H2 & H3 & H4 & H5 & H6)]; [| |exact Hc|exact Hd].
  - left. apply rl_run in H as (r' & -> & H); [exists r'; auto|exact Hw|exact H1].
  - right. exists o, o', q, q'. auto 10.
Qed.
Lemma x_dashes K s s' : X K s s' -> ~ dashes s -> ~ dashes s'.
Proof.
  intros [b H] Hd (w & E). remember (L "--" ++ w) as x eqn:Ex. subst s'.
  destruct H as [b|b d d' s1 s1'|b d d' s1 s1'|b t t' d d' s1 s1' H1 H2|b t t' d d' s1 s1' H1 H2|b d d' s1 s1' H1 H2|b o o' s1 s1' H1 H2|b t t' e e' s1 s1'|b t t' e e' s1 s1'|b t t' e e' s1 s1'|b d s1 s1' H1 H2 H3 H4 H].
  - discriminate Ex.
  - apply Hd. exists (d ++ s1). reflexivity.
  - discriminate Ex.
  - destruct H2; discriminate Ex.
  - destruct H2; discriminate Ex.
  - destruct (digits_head _ H2) as (? & ? & -> & Hx). injection Ex as -> _. discriminate Hx.
  - apply changeable_code in H2. apply H2. exists w. exact Ex.
  - discriminate Ex.
  - discriminate Ex.
  - discriminate Ex.
  - injection Ex as -> ->. destruct H2 as (_ & _ & H2 & _). apply H2. exists w. reflexivity.
Qed.
(** where two whole operators begin, they are the same *)
Lemma run_unique w r o q : w ++ r = o ++ q -> forallb is_op_char w = true -> ends is_op_char r -> changeable o q -> w = o /\ r = q.
Proof.
  intros E H1 H2 ((_ & H3 & _) & H4 & _). eapply (longest_unique is_op_char); [split; [reflexivity|split; [exact H1|exact H2]]|]. split; [exact E|]. split; assumption.
Qed.
(** a run of digits *)
Lemma digits_unique d s d2 s2 : d ++ s = d2 ++ s2 -> forallb is_dec d = true -> forallb is_dec d2 = true -> ends is_dec s -> ends is_dec s2 -> d = d2 /\ s = s2.
Proof.
  intros E H1 H2 H3 H4. eapply (longest_unique is_dec); [split; [reflexivity|split; [exact H1|exact H3]]|]. split; [exact E|]. split; assumption.
Qed.
Definition digits_refl (K : kinds) : Prop := forall d, on_digits K d d.
Lemma dec_name d : forallb is_dec d = true -> forallb is_name_char d = true.
Proof.
  rewrite !forallb_forall. intros H c Hc. apply H in Hc. unfold is_name_char. rewrite Hc. destruct (is_lower c), (is_upper c); reflexivity.
Qed.
Lemma x_digits K d r s' : digits_refl K -> digits1 d -> ends is_dec r -> X K (d ++ r) s' ->
  exists d' r', s' = d' ++ r' /\ digits1 d' /\ ends is_dec r' /\ on_digits K d d' /\ X K r r'.
Proof.
  intros HK Hd Hr [b0 H]. assert (Hb : b0 = after_name \/ b0 <> after_name) by (destruct b0; auto; right; discriminate). destruct Hb as [->|Hb].
  - apply rl_name in H as (r' & -> & H); [|apply dec_name, Hd]. exists d, r'. split; [reflexivity|]. split; [exact Hd|].
    split; [eapply eq_ends; [|apply rl_head_true in H; exact H|exact Hr]; apply uniform_op_check; reflexivity|]. split; [apply HK|]. eexists; exact H.
  - destruct (digits_head _ Hd) as (x & dt & Ed & Hx). remember (d ++ r) as y eqn:E.
    destruct H as [b|b c d' s1 s1'|b c d' s1 s1'|b t t' c d' s1 s1' H1 H2|b t t' c d' s1 s1' H1 H2|b c d' s1 s1' H1 H2 H3 H4 _ H5 H|b o o' s1 s1' H1|b t t' e e' s1 s1'|b t t' e e' s1 s1'|b t t' e e' s1 s1'|b c s1 s1' H1 H2 H3].
    + subst d. discriminate E.
    + subst d. injection E as <- _. discriminate Hx.
    + subst d. injection E as <- _. discriminate Hx.
    + destruct H1; subst d; injection E as <- _; discriminate Hx.
    + destruct H1; subst d; injection E as <- _; discriminate Hx.
    + apply digits_unique in E as [-> ->]; [|apply H1|apply Hd|exact H3|exact Hr]. exists d', s1'. repeat (split; [first [assumption|reflexivity]|]). eexists; exact H.
    + destruct (op_head _ _ H1) as (y & o1 & -> & Hy & _). subst d. injection E as -> _. rewrite (dec_not_op _ Hx) in Hy. discriminate Hy.
    + subst d. injection E as <- _. discriminate Hx.
    + subst d. injection E as <- _. discriminate Hx.
    + subst d. injection E as <- _. discriminate Hx.
    + subst d. injection E as -> _. specialize (H3 Hx). congruence.
Qed.

(** ** Two runs *)
Lemma fw_sim {A} (R : kinds -> A -> A -> Prop) p :
  (forall K, digits_refl K -> fw (X K) (R K) p p) -> forall K, digits_refl K -> sim (X K) (R K) p p.
Proof.
  intros H K HK. apply sim_fw with (RB := R (flip K)); [apply H, HK|]. intros s s' r a [b Hs] E.
  assert (HF : digits_refl (flip K)) by (intros d; apply HK).
  destruct (H (flip K) HF s s' r a (ex_intro _ b (rl_sym _ _ _ _ Hs)) E) as (r' & b' & t & t' & E' & Hb & [b2 Hr] & Hx).
  exists r', b', t, t'. split; [exact E'|]. split; [exact Hb|]. split; [|exact Hx]. exists b2. apply rl_sym in Hr. destruct K; exact Hr.
Qed.
Notation leaf R p := (forall K, digits_refl K -> sim (X K) R p p).
Lemma sim_plain {A} (p : parser A) (W : str -> A -> Prop) (Z : A -> str -> Prop) :
  (forall s r a, p s = Ok r a <-> exists w, s = w ++ r /\ W w a /\ Z a r) ->
  (forall w a, W w a -> forallb (fun c => negb (mark c)) w = true) ->
  (forall a r r', heads_like r r' -> Z a r -> Z a r') -> leaf eq p.
Proof.
  intros Hp Hw HZ. apply (fw_sim (fun _ => eq)). intros K HK s s' r a Hs H. apply Hp in H as (w & -> & H1 & H2).
  destruct (x_word _ _ _ _ (Hw _ _ H1) Hs) as (r' & -> & Hr). exists r', a, w, w. split; [|tauto].
  apply Hp. exists w. split; [reflexivity|]. split; [exact H1|]. eapply HZ; [eapply X_head, Hr|exact H2].
Qed.
Lemma l_char c : mark c = false -> leaf eq (char_ c).
Proof.
  intros Hc. apply (sim_plain _ (fun w a => w = [c] /\ a = c) (fun _ _ => True)); auto.
  - intros s r a. rewrite char_word. reflexivity.
  - intros w a [-> _]. cbn [forallb]. rewrite Hc. reflexivity.
Qed.
Lemma l_tag u : forallb (fun c => negb (mark c)) u = true -> leaf eq (tag u).
Proof.
  intros Hu. apply (sim_plain _ (fun w a => w = u /\ a = u) (fun _ _ => True)); auto.
  - intros s r a. rewrite tag_word. reflexivity.
  - intros w a [-> _]. exact Hu.
Qed.
Definition marks : str := [C "{"; C "["; C "("; quote; squote] ++ L "0123456789" ++ op_chars.
Lemma no_marks f : forallb (fun c => negb (f c)) marks = true -> forall w, forallb f w = true -> forallb (fun c => negb (mark c)) w = true.
Proof.
  intros Hf w Hw. rewrite forallb_forall in *. intros c Hc. apply Hw in Hc. apply negb_true_iff. unfold mark.
  assert (H : forall d, In d marks -> c <> d).
  { intros d Hd ->. apply Hf in Hd. rewrite Hc in Hd. discriminate Hd. }
  assert (H2 : forall d, In d marks -> (c =? d)%N = false) by (intros d Hd; apply N.eqb_neq, H, Hd).
  rewrite !H2 by (cbn; tauto). destruct (is_op_char c) eqn:Ho.
  { apply mem_char_In in Ho. exfalso. apply (H c); [|reflexivity]. unfold marks. apply in_or_app. right. apply in_or_app. right. exact Ho. }
  cbn [orb]. destruct (is_dec c) eqn:Hd; [|reflexivity]. apply dec_cases in Hd. exfalso.
  apply (H c); [|reflexivity]. unfold marks. apply in_or_app. right. apply in_or_app. left. exact Hd.
Qed.
Definition plainly (f : char -> bool) : bool := forallb (fun c => negb (f c)) marks.
Lemma plainly_uniform f : plainly f = true -> uniform f.
Proof.
  unfold plainly. rewrite forallb_forall. intros H.
  assert (K : forall d, is_dec d = true -> f d = false).
  { intros d Hd. apply negb_true_iff, H. unfold marks. apply in_or_app. right. apply in_or_app. left. apply dec_cases, Hd. }
  assert (J : forall d, is_op_char d = true -> f d = false).
  { intros d Hd. apply negb_true_iff, H. unfold marks. apply in_or_app. right. apply in_or_app. right. apply mem_char_In, Hd. }
  split; intros c c' Hc Hc'; [rewrite (K c Hc), (K c' Hc')|rewrite (J c Hc), (J c' Hc')]; reflexivity.
Qed.
Lemma l_take0 f : plainly f = true -> leaf eq (take_while0 f).
Proof.
  intros Hf. apply (sim_plain _ (fun w a => w = a /\ forallb f w = true) (fun _ r => ends f r)).
  - intros s r a. apply take0_word.
  - intros w a [_ H]. eapply no_marks; eassumption.
  - intros _ r r'. apply heads_ends, plainly_uniform, Hf.
Qed.
Lemma l_take1 f : plainly f = true -> leaf eq (take_while1 f).
Proof.
  intros Hf. apply (sim_plain _ (fun w a => w = a /\ w <> [] /\ forallb f w = true) (fun _ r => ends f r)).
  - intros s r a. apply take1_word.
  - intros w a (_ & _ & H). eapply no_marks; eassumption.
  - intros _ r r'. apply heads_ends, plainly_uniform, Hf.
Qed.
Lemma lower_first c : is_lower c = true -> is_name_char c = true /\ is_dec c = false.
Proof.
  intros H. unfold is_name_char. rewrite H. split; [reflexivity|]. destruct (is_dec c) eqn:Hd; [|reflexivity].
  apply dec_cases in Hd. cbn in Hd. exfalso. repeat destruct Hd as [<-|Hd]; try discriminate H. destruct Hd.
Qed.
Lemma upper_first c : is_upper c = true -> is_name_char c = true /\ is_dec c = false.
Proof.
  intros H. unfold is_name_char. rewrite H. split; [destruct (is_lower c); reflexivity|]. destruct (is_dec c) eqn:Hd; [|reflexivity].
  apply dec_cases in Hd. cbn in Hd. exfalso. repeat destruct Hd as [<-|Hd]; try discriminate H. destruct Hd.
Qed.
Lemma l_lo_name : leaf eq lo_name.
Proof.
  apply (fw_sim (fun _ => eq)). intros K HK s s' r n Hs H. apply lo_name_iff in H as (-> & Hn & Hr).
  assert (Hx : exists r', s' = n ++ r' /\ relit K after_name r r').
  { destruct Hn as [->|[(c & t & -> & Hc & Ht) _]].
    - destruct Hs as [b Hs]. apply (rl_one K b (C "_")) in Hs as (s2 & -> & H & _); [|reflexivity]. exists s2. auto.
    - destruct (lower_first c Hc) as [H1 H2]. apply (x_name K c t) in Hs as (r' & -> & H); [exists r'; auto|assumption..]. }
  destruct Hx as (r' & -> & Hr'). exists r', n, n, n. split; [|split; [reflexivity|split; [exists after_name; exact Hr'|tauto]]].
  apply lo_name_iff. split; [reflexivity|]. split; [exact Hn|]. destruct Hr as [->|Hr]; [left; reflexivity|right]. eapply eq_ends; [|eapply rl_head_true, Hr'|exact Hr]; apply uniform_op_check; reflexivity.
Qed.
Lemma l_up_name : leaf eq up_name.
Proof.
  apply (fw_sim (fun _ => eq)). intros K HK s s' r n Hs H. apply up_name_iff in H as (-> & Hn & Hr).
  assert (Hx : exists r', s' = n ++ r' /\ relit K after_name r r').
  { destruct Hn as (c & t & -> & Hc & Ht). destruct (upper_first c Hc) as [H1 H2]. apply (x_name K c t) in Hs as (r' & -> & H); [exists r'; auto|assumption..]. }
  destruct Hx as (r' & -> & Hr'). exists r', n, n, n. split; [|split; [reflexivity|split; [exists after_name; exact Hr'|tauto]]].
  apply up_name_iff. split; [reflexivity|]. split; [exact Hn|]. eapply eq_ends; [|eapply rl_head_true, Hr'|exact Hr]; apply uniform_op_check; reflexivity.
Qed.
Lemma tyvar_name t : forallb is_tyvar_char t = true -> forallb is_name_char t = true.
Proof.
  rewrite !forallb_forall. intros H c Hc. apply H in Hc. unfold is_tyvar_char in Hc. unfold is_name_char.
  destruct (is_lower c); [reflexivity|]. destruct (between (C "1") c (C "9")) eqn:E.
  - replace (is_dec c) with true; [destruct (is_upper c); reflexivity|]. symmetry. unfold is_dec, between in *. apply andb_true_iff in E as [E1 E2].
    rewrite E2, andb_true_r. apply N.leb_le. apply N.leb_le in E1. lia.
  - cbn [orb] in Hc. rewrite Hc. apply orb_true_r.
Qed.
Lemma l_type_variable : leaf eq type_variable.
Proof.
  apply (fw_sim (fun _ => eq)). intros K HK s s' r y Hs H. apply type_variable_iff in H as (n & -> & -> & Hn & Hr).
  assert (Hx : exists r', s' = n ++ r' /\ relit K after_name r r').
  { destruct Hn as (c & t & -> & Hc & Ht). destruct (lower_first c Hc) as [H1 H2]. apply (x_name K c t) in Hs as (r' & -> & H); [exists r'; auto|assumption..|].
    apply tyvar_name, Ht. }
  destruct Hx as (r' & -> & Hr'). exists r', (TypeVariable n), n, n. split; [|split; [reflexivity|split; [exists after_name; exact Hr'|tauto]]].
  apply type_variable_iff. exists n. split; [reflexivity|]. split; [reflexivity|]. split; [exact Hn|]. eapply eq_ends; [|eapply rl_head_true, Hr'|exact Hr]; apply uniform_op_check; reflexivity.
Qed.
Lemma uniform_dec : uniform is_dec. Proof. apply uniform_check; reflexivity. Qed.
Lemma x_sign K sg d r s' : sign_text sg -> digits1 d -> X K (sg ++ d ++ r) s' -> exists s2, s' = sg ++ s2 /\ X K (d ++ r) s2.
Proof.
  intros Hs Hd H. destruct (digits_head _ Hd) as (x & d' & Ed & Hx).
  assert (Hr : ends is_op_char (d ++ r)) by (subst d; apply dec_not_op, Hx).
  assert (J : forall c, is_op_char c = true -> In c (L "+-") -> X K ([c] ++ d ++ r) s' -> exists s2, s' = [c] ++ s2 /\ X K (d ++ r) s2).
  { intros c Hc Hi Hs0. apply x_ops in Hs0 as [H0|(o & o' & q & q' & E & _ & H1 & _)]; [exact H0| |discriminate|cbn [forallb]; rewrite Hc; reflexivity|].
    - destruct (run_unique _ _ _ _ E) as [<- <-]; [cbn [forallb]; rewrite Hc; reflexivity|exact Hr|exact H1|]. exfalso.
      destruct H1 as (_ & _ & _ & H1 & _). assert (H2 : ends is_dec (d ++ r)) by (apply H1; destruct Hi as [<-|[<-|[]]]; auto). subst d. cbn in H2. congruence.
    - intros (w & E). subst d. injection E as _ -> _. discriminate Hx. }
  destruct Hs as [->|[->| ->]]; [exists s'; auto|apply (J (C "+")); cbn; auto|apply (J (C "-")); cbn; auto].
Qed.
(** the point in a number *)
Lemma x_point K d r s' : digits1 d -> X K (L "." ++ d ++ r) s' -> exists s2, s' = L "." ++ s2 /\ X K (d ++ r) s2.
Proof.
  intros Hd H. destruct (digits_head _ Hd) as (x & d' & -> & Hx).
  apply x_ops in H as [H0|(o & o' & q & q' & E & _ & H1 & _)]; [exact H0| |discriminate|reflexivity|].
  - destruct (run_unique _ _ _ _ E) as [<- <-]; [reflexivity|apply dec_not_op, Hx|exact H1|]. exfalso. destruct H1 as ((_ & _ & H1) & _). apply H1. cbn. auto.
  - intros (w & E). discriminate E.
Qed.
Lemma l_integer : forall K, digits_refl K -> sim (X K) (same_expr K) integer integer.
Proof.
  apply (fw_sim (fun K => same_expr K)). intros K HK s s' r e Hs H. apply integer_iff in H as (n & -> & -> & (sg & d & -> & H1 & H2) & Hr).
  rewrite <- app_assoc in Hs. destruct (x_sign _ _ _ _ _ H1 H2 Hs) as (s2 & -> & Hs2). apply x_digits in Hs2 as (d' & r' & -> & Hd & Hr' & Hk & Hx); [|assumption..].
  exists r', (Integer (sg ++ d')), (sg ++ d), (sg ++ d'). split; [|split; [constructor; assumption|split; [exact Hx|]]].
  - apply integer_iff. exists (sg ++ d'). split; [reflexivity|]. split; [apply app_assoc|]. split; [exists sg, d'; auto|]. exact Hr'.
  - split; [reflexivity|]. split; [apply app_assoc|]. destruct (digits_head _ H2) as (? & ? & -> & _). destruct (digits_head _ Hd) as (? & ? & -> & _).
    split; intros E; apply app_eq_nil in E as [_ E]; discriminate E.
Qed.
Lemma l_float : forall K, digits_refl K -> sim (X K) (same_expr K) float float.
Proof.
  apply (fw_sim (fun K => same_expr K)). intros K HK s s' r e Hs H. apply float_iff in H as (n & -> & -> & (sg & d & d2 & -> & H1 & H2 & H3) & Hr).
  rewrite <- !app_assoc in Hs. destruct (x_sign _ _ _ _ _ H1 H2 Hs) as (s2 & -> & Hs2).
  apply x_digits in Hs2 as (d' & r1 & -> & Hd & _ & Hk & Hx); [|assumption..|reflexivity].
  apply x_point in Hx as (r2 & -> & Hx); [|exact H3]. apply x_digits in Hx as (d2' & r' & -> & Hd2 & Hr2 & Hk2 & Hx); [|assumption..].
  exists r', (Float (sg ++ d' ++ L "." ++ d2')), (sg ++ d ++ L "." ++ d2), (sg ++ d' ++ L "." ++ d2').
  split; [|split; [constructor; assumption|split; [exact Hx|]]].
  - apply float_iff. exists (sg ++ d' ++ L "." ++ d2'). split; [reflexivity|]. split; [rewrite <- !app_assoc; reflexivity|]. split; [exists sg, d', d2'; auto|]. exact Hr2.
  - split; [reflexivity|]. split; [rewrite <- !app_assoc; reflexivity|].
    split; intros E; apply app_eq_nil in E as [_ E]; apply app_eq_nil in E as [_ E]; discriminate E.
Qed.

(** *** strings and characters *)
Lemma literal_string w t c : string_literal w t c -> string_ (t ++ w) = Ok w (String_ c).
Proof.
  intros H. apply string_iff. exists c. split; [reflexivity|]. destruct H as [c Hc|c Hc Hu].
  - left. split; [|exact Hc]. rewrite <- !app_assoc. reflexivity.
  - right. cbn [app]. rewrite <- app_assoc. split; [|auto].
    intros (r' & c' & E & Hq). unfold quotes3 in E. destruct Hc as [|d s Hd Hc|d s Hd Hc|d s H1 H2 H3 Hc]; [|discriminate E|discriminate E|injection E as E _; congruence].
    injection E as E. specialize (Hu eq_refl). destruct w as [|x w]; [discriminate E|]. injection E as -> _. discriminate Hu.
Qed.
Lemma l_string : forall K, digits_refl K -> sim (X K) (same_expr K) string_ string_.
Proof.
  apply (fw_sim (fun K => same_expr K)). intros K HK s s' r e [b0 Hs] H.
  assert (Hq : exists s1, s = quote :: s1) by (apply string_iff in H as (c & _ & [[-> _]|(_ & -> & _)]); eexists; reflexivity).
  destruct Hs as [b|b c c' s s'|b c c' s s'|b t t' c c' s s' Ht Ht' Hk Hs|b t t' c c' s s' Ht|b d d' s s' Ht|b o o' s s' Ht|bL tL tL' eL eL' sL sL' HL HL2|bR tR tR' eR eR' sR sR' HR HR2|bR tR tR' eR eR' sR sR' HR HR2|b c s s' Ho]; destruct Hq as (s1 & Hq); try discriminate Hq.
  - rewrite (literal_string _ _ _ Ht) in H. injection H as <- <-. exists s', (String_ c'), t, t'. rewrite (literal_string _ _ _ Ht').
    split; [reflexivity|]. split; [constructor; exact Hk|]. split; [eexists; exact Hs|]. split; [reflexivity|]. split; [reflexivity|].
    destruct Ht, Ht'; split; discriminate.
  - destruct Ht; discriminate Hq.
  - destruct (digits_head _ Ht) as (? & ? & -> & Hx). injection Hq as -> _. discriminate Hx.
  - destruct (op_head _ _ Ht) as (? & ? & -> & Hx & _). injection Hq as -> _. discriminate Hx.
  - injection Hq as -> _. destruct Ho; congruence.
Qed.
Lemma literal_char w t c : char_literal t c -> character (t ++ w) = Ok w (Character c).
Proof.
  intros [u d Hd]. apply character_iff. exists u, d. split; [reflexivity|]. split; [|exact Hd]. cbn [app]. rewrite <- app_assoc. reflexivity.
Qed.
Lemma l_character : forall K, digits_refl K -> sim (X K) (same_expr K) character character.
Proof.
  apply (fw_sim (fun K => same_expr K)). intros K HK s s' r e [b0 Hs] H.
  assert (Hq : exists s1, s = squote :: s1) by (apply character_iff in H as (w & c & _ & -> & _); eexists; reflexivity).
  destruct Hs as [b|b c c' s s'|b c c' s s'|b t t' c c' s s' Ht|b t t' c c' s s' Ht Ht' Hk Hs|b d d' s s' Ht|b o o' s s' Ht|bL tL tL' eL eL' sL sL' HL HL2|bR tR tR' eR eR' sR sR' HR HR2|bR tR tR' eR eR' sR sR' HR HR2|b c s s' Ho]; destruct Hq as (s1 & Hq); try discriminate Hq.
  - destruct Ht; discriminate Hq.
  - rewrite (literal_char _ _ _ Ht) in H. injection H as <- <-. exists s', (Character c'), t, t'. rewrite (literal_char _ _ _ Ht').
    split; [reflexivity|]. split; [constructor; exact Hk|]. split; [eexists; exact Hs|]. split; [reflexivity|]. split; [reflexivity|].
    destruct Ht, Ht'; split; discriminate.
  - destruct (digits_head _ Ht) as (? & ? & -> & Hx). injection Hq as -> _. discriminate Hx.
  - destruct (op_head _ _ Ht) as (? & ? & -> & Hx & _). injection Hq as -> _. discriminate Hx.
  - injection Hq as -> _. destruct Ho as (_ & Ho & _); congruence.
Qed.

(** *** comments and layout *)
Lemma x_line K s s' : X K (L "--" ++ s) s' ->
  exists c c' r r', s = c ++ r /\ s' = L "--" ++ c' ++ r' /\ forallb not_newline c = true /\ forallb not_newline c' = true /\
    line_end r /\ line_end r' /\ on_comment K c c' /\ X K r r'.
Proof.
  intros [b H]. remember (L "--" ++ s) as x eqn:E.
  destruct H as [b|b d d' s1 s1' H1 H2 H3 H4 H5 H|b d d' s1 s1'|b t t' d d' s1 s1' H1 H2|b t t' d d' s1 s1' H1 H2|b d d' s1 s1' H1 H2|b o o' s1 s1' H1|bL tL tL' eL eL' sL sL' HL HL2|bR tR tR' eR eR' sR sR' HR HR2|bR tR tR' eR eR' sR sR' HR HR2|b d s1 s1' H1].
  - discriminate E.
  - apply app_inv_head in E. subst s. exists d, d', s1, s1'. repeat (split; [first [assumption|reflexivity]|]). eexists; exact H.
  - discriminate E.
  - destruct H1; discriminate E.
  - destruct H1; discriminate E.
  - destruct (digits_head _ H1) as (? & ? & -> & Hx). injection E as -> _. discriminate Hx.
  - exfalso. apply changeable_code in H1. apply H1. exists s. exact E.
  - discriminate E.
  - discriminate E.
  - discriminate E.
  - injection E as -> ->. exfalso. destruct H1 as (_ & _ & H1 & _). apply H1. exists s. reflexivity.
Qed.
Lemma line_ends r : ends not_newline r <-> line_end r.
Proof.
  destruct r as [|c r]; [tauto|]. cbn. unfold not_newline. rewrite negb_false_iff. apply N.eqb_eq.
Qed.
Lemma line_unique c r c2 r2 : c ++ r = c2 ++ r2 -> forallb not_newline c = true -> forallb not_newline c2 = true -> line_end r -> line_end r2 ->
  c = c2 /\ r = r2.
Proof.
  intros E H1 H2 H3 H4. apply line_ends in H3, H4. eapply (longest_unique not_newline); [split; [reflexivity|split; [exact H1|exact H3]]|].
  split; [exact E|]. split; assumption.
Qed.
Lemma l_comment : forall K, digits_refl K -> sim (X K) (on_comment K) single_line_comment single_line_comment.
Proof.
  apply (fw_sim (fun K => on_comment K)). intros K HK s s' r c Hs H. apply single_line_comment_iff in H as (-> & Hc & Hr).
  apply x_line in Hs as (d & d' & r1 & r' & E & -> & Hd & Hd' & H1 & H2 & Hk & H3).
  destruct (line_unique _ _ _ _ E Hc Hd Hr H1) as [-> ->]. exists r', d', (L "--" ++ d), (L "--" ++ d').
  split; [apply single_line_comment_iff; auto|]. split; [exact Hk|]. split; [exact H3|]. rewrite <- !app_assoc. split; [reflexivity|]. split; [reflexivity|].
  split; discriminate.
Qed.
Lemma l_block : forall K, digits_refl K -> sim (X K) (same_stmt K) multi_line_comment multi_line_comment.
Proof.
  apply (fw_sim (fun K => same_stmt K)). intros K HK s s' r a [b0 Hs] H. apply map_Ok in H as (c & H & ->). pose proof H as Hc. apply block_comment_iff in H as [E Hn].
  destruct Hs as [b|b d d' s1 s1'|b d d' s1 s1' Hd Hd' Hk Hs|b t t' d d' s1 s1' Ht|b t t' d d' s1 s1' Ht|b d d' s1 s1' Ht|b o o' s1 s1' Ht|bL tL tL' eL eL' sL sL' HL HL2|bR tR tR' eR eR' sR sR' HR HR2|bR tR tR' eR eR' sR sR' HR HR2|b d s1 s1' H1 H2 H].
  - discriminate E.
  - discriminate E.
  - assert (J : forall x w, block_text x -> preceded (tag (L "{-")) (take_until_and_consume (L "-}")) (L "{-" ++ x ++ L "-}" ++ w) = Ok w x).
    { intros x w [Hx _]. apply block_comment_iff. split; [reflexivity|exact Hx]. }
    rewrite (J _ _ Hd) in Hc. injection Hc as <- <-. exists s1', (Comment d'), (L "{-" ++ d ++ L "-}"), (L "{-" ++ d' ++ L "-}").
    split; [unfold multi_line_comment, map_; rewrite (J _ _ Hd'); reflexivity|]. split; [constructor; exact Hk|]. split; [eexists; exact Hs|].
    rewrite <- !app_assoc. split; [reflexivity|]. split; [reflexivity|]. split; discriminate.
  - destruct Ht; discriminate E.
  - destruct Ht; discriminate E.
  - destruct (digits_head _ Ht) as (? & ? & -> & Hx). injection E as -> _. discriminate Hx.
  - destruct (op_head _ _ Ht) as (? & ? & -> & Hx & _). injection E as -> _. discriminate Hx.
  - discriminate E.
  - discriminate E.
  - destruct HR2 as (c0 & u0 & -> & Hc0). injection E as -> _. destruct (Hc0 eq_refl).
  - injection E as -> ->. destruct H1 as (_ & _ & _ & _ & H1 & _). specialize (H1 eq_refl). discriminate H1.
Qed.
