(** * Deciding [whole], for the examples

    [whole_check] reads strings without escapes and character literals without
    escapes only; where it says yes, the text is [whole]. *)
From Verif Require Import Base Nom Regex Spec Lexers Whole.

Fixpoint idle_check (s : str) (comment : bool) : bool :=
  match s with
  | [] => true
  | c :: s' =>
    if comment then idle_check s' (negb (c =? newline)%N)
    else if is_blank c then idle_check s' false
    else if (c =? C "-")%N then match s' with x :: s'' => (x =? C "-")%N && idle_check s'' true | [] => false end
    else false
  end.
Lemma idle_check_comment c w : forallb not_newline c = true -> line_end w -> idle_check w false = true -> idle_check (c ++ w) true = true.
Proof.
  induction c as [|x c IH]; intros Hc Hw H.
  - destruct w as [|y w]; [reflexivity|]. cbn in Hw. subst y. exact H.
  - apply andb_true_iff in Hc as [Hx Hc]. cbn [app idle_check]. unfold not_newline in Hx. rewrite Hx. apply IH; assumption.
Qed.
Lemma idle_idle_check w : idle w -> idle_check w false = true.
Proof.
  induction 1 as [|c w Hc H IH|c w Hc Hw H IH]; [reflexivity| |].
  - cbn [idle_check]. rewrite Hc. exact IH.
  - exact (idle_check_comment c w Hc Hw IH).
Qed.
Definition dashes_check (s : str) : bool :=
  match s with a :: b :: _ => (a =? C "-")%N && (b =? C "-")%N | _ => false end.
Lemma dashes_dashes_check w : dashes w -> dashes_check w = true.
Proof. intros (w' & ->). reflexivity. Qed.
Definition ends_check (P : char -> bool) (s : str) : bool := match s with [] => true | c :: _ => negb (P c) end.
Lemma ends_check_ends P s : ends_check P s = true -> ends P s.
Proof. destruct s; [constructor|]. apply negb_true_iff. Qed.
Fixpoint fine_check (n : str) : bool :=
  match n with [] => true | c :: x => (negb (mem_str x reserved_words) || is_letter c) && fine_check x end.
Lemma fine_check_fine n : fine_check n = true -> fine n.
Proof.
  induction n as [|y n IH]; intros H a c x E Hx; [destruct a; discriminate E|]. apply andb_true_iff in H as [H1 H2]. destruct a as [|z a].
  - injection E as <- <-. apply mem_str_In in Hx. rewrite Hx in H1. exact H1.
  - injection E as _ E. exact (IH H2 a c x E Hx).
Qed.
Definition plain (c : char) : bool := negb ((c =? backslash)%N || (c =? quote)%N || (c =? newline)%N).
Definition no_q (c : char) : bool := negb (c =? quote)%N.
Lemma plain_content c : forallb plain c = true -> string_content c.
Proof.
  induction c as [|x c IH]; intros H; [constructor|]. apply andb_true_iff in H as [H1 H2]. apply negb_true_iff in H1.
  apply orb_false_iff in H1 as [H1 H3]. apply orb_false_iff in H1 as [H1 H4]. apply sc_char; [apply N.eqb_neq; assumption..|apply IH, H2].
Qed.

Fixpoint whole_check (n : nat) (b : bool) (d : nat) (s : str) : bool :=
  match n with
  | 0 => false
  | S n =>
    match s with
    | [] => d =? 0
    | c :: s' =>
      if is_name_char c then
        let '(w, r) := span is_name_char s in
        if mem_str w reserved_words then
          if mem_str w inner_words then negb (idle_check r false) && whole_check n b d r
          else if b then false
          else if str_eqb w (L "let") then whole_check n false (S d) r
          else if str_eqb w (L "in") then
            match d with 0 => false | S d => negb (idle_check r false) && whole_check n false d r end
          else false
        else fine_check w && whole_check n b d r
      else if dashes_check s then
        let '(_, r) := span not_newline (tl s') in whole_check n b d r
      else if is_op_char c then
        negb (idle_check s' false) && negb (dashes_check s') && whole_check n (after_op b c s') d s'
      else if is_open c then
        (negb (c =? C "(")%N || negb (dashes_check s')) && (negb (c =? C "{")%N || ends_check (fun x => (x =? C "-")%N) s') &&
        whole_check n b (S d) s'
      else if is_close c then match d with 0 => false | S d => whole_check n b d s' end
      else if (c =? quote)%N then
        match s' with
        | x :: y :: s2 =>
          if (x =? quote)%N && (y =? quote)%N then
            let '(_, r) := span no_q s2 in
            match r with q1 :: q2 :: q3 :: r => (q1 =? quote)%N && (q2 =? quote)%N && (q3 =? quote)%N && whole_check n b d r | _ => false end
          else
            let '(t, r) := span plain s' in
            match r with q :: r => (q =? quote)%N && ends_check (fun x => (x =? quote)%N) r && whole_check n b d r | _ => false end
        | _ => false
        end
      else if (c =? squote)%N then
        match s' with x :: q :: r => (q =? squote)%N && whole_check n b d r | _ => false end
      else whole_check n b d s'
    end
  end.
Lemma whole_check_whole n b d s : whole_check n b d s = true -> whole b d s.
Proof.
  revert b d s. induction n as [|n IH]; intros b d s H; [discriminate H|]. cbn [whole_check] in H.
  assert (Hi : forall r, negb (idle_check r false) = true -> ~ idle r).
  { intros r Hr K. apply idle_idle_check in K. rewrite K in Hr. discriminate Hr. }
  assert (Hd : forall r, dashes_check r = false -> ~ dashes r).
  { intros r Hr K. apply dashes_dashes_check in K. congruence. }
  destruct s as [|c s]; [apply Nat.eqb_eq in H; subst d; constructor|].
  destruct (is_name_char c) eqn:Hc1.
  { destruct (span is_name_char (c :: s)) as [w r] eqn:E. apply span_longest in E as (E & Hw & Hr). rewrite E.
    assert (Hne : w <> []). { intros ->. cbn in E. subst r. cbn in Hr. congruence. }
    destruct (mem_str w reserved_words) eqn:Hm.
    - destruct (mem_str w inner_words) eqn:Hm2.
      + apply andb_true_iff in H as [H1 H2]. apply mem_str_In in Hm2. apply whole_keyword; auto.
      + destruct b; [discriminate H|]. destruct (str_eqb w (L "let")) eqn:Hl; [apply str_eqb_eq in Hl; subst w; apply whole_let; auto|].
        destruct (str_eqb w (L "in")) eqn:Hn; [|discriminate H]. apply str_eqb_eq in Hn. subst w. destruct d; [discriminate H|].
        apply andb_true_iff in H as [H1 H2]. apply whole_in; auto.
    - apply andb_true_iff in H as [H1 H2]. apply whole_word; auto; [|apply fine_check_fine, H1].
      intros K. apply mem_str_In in K. congruence. }
  destruct (dashes_check (c :: s)) eqn:Hc2.
  { destruct s as [|x s]; [discriminate Hc2|]. apply andb_true_iff in Hc2 as [H1 H2]. apply N.eqb_eq in H1, H2. subst c x. cbn [tl] in H.
    destruct (span not_newline s) as [w r] eqn:E. apply span_longest in E as (-> & Hw & Hr). apply (whole_comment b d w r); auto.
    destruct r as [|y r]; [exact I|]. cbn in Hr. unfold not_newline in Hr. apply negb_false_iff, N.eqb_eq in Hr. exact Hr. }
  destruct (is_op_char c) eqn:Hc3.
  { apply andb_true_iff in H as [H H2]. apply andb_true_iff in H as [H0 H1]. apply negb_true_iff in H1. apply whole_operator; auto. }
  destruct (is_open c) eqn:Hc4.
  { apply andb_true_iff in H as [H H2]. apply andb_true_iff in H as [H0 H1]. apply whole_open; auto.
    - intros ->. apply Hd. cbn in H0. apply negb_true_iff in H0. exact H0.
    - intros ->. apply ends_check_ends. exact H1. }
  destruct (is_close c) eqn:Hc5; [destruct d; [discriminate H|]; apply whole_close; auto|].
  destruct (N.eqb_spec c quote) as [->|Hc6].
  { destruct s as [|x [|y s]]; [discriminate H..|]. destruct ((x =? quote)%N && (y =? quote)%N) eqn:Hq.
    - apply andb_true_iff in Hq as [H1 H2]. apply N.eqb_eq in H1, H2. subst x y.
      destruct (span no_q s) as [w r] eqn:E. apply span_longest in E as (-> & Hw & _).
      destruct r as [|q1 [|q2 [|q3 r]]]; [discriminate H..|].
      apply andb_true_iff in H as [H H4]. apply andb_true_iff in H as [H H3]. apply andb_true_iff in H as [H1 H2].
      apply N.eqb_eq in H1, H2, H3. subst q1 q2 q3.
      change (whole b d (([quote; quote; quote] ++ w ++ [quote; quote; quote] ++ r))). rewrite !app_assoc. apply whole_string; auto.
      rewrite <- app_assoc. apply token_multi. intros K. rewrite forallb_forall in Hw. apply Hw in K. discriminate K.
    - destruct (span plain (x :: y :: s)) as [w r] eqn:E. apply span_longest in E as (E & Hw & _). rewrite E.
      destruct r as [|q r]; [discriminate H|]. apply andb_true_iff in H as [H H2]. apply andb_true_iff in H as [H0 H1]. apply N.eqb_eq in H0. subst q.
      change (quote :: w ++ quote :: r) with ((quote :: w) ++ [quote] ++ r). rewrite app_assoc. apply whole_string; auto.
      apply token_single; [apply plain_content, Hw|]. intros _. apply ends_check_ends, H1. }
  destruct (N.eqb_spec c squote) as [->|Hc7].
  { destruct s as [|x [|q r]]; [discriminate H..|]. apply andb_true_iff in H as [H H1]. apply N.eqb_eq in H. subst q.
    apply (whole_char b d [squote; x; squote]); auto. apply (token_char [x] x). constructor. }
  apply whole_other; auto. unfold is_other. rewrite Hc1, Hc3, Hc4, Hc5. apply N.eqb_neq in Hc6, Hc7. rewrite Hc6, Hc7. reflexivity.
Qed.
