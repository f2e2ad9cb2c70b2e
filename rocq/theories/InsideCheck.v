(** * A checker for [closes]; it is used for the concrete instances only *)
From Verif Require Import Base Nom Regex Ast Spec Helpers Types Expr Lexers Follow LexProps TwoRuns Rename Whole WholeCheck Inside.

Fixpoint closes_check (n : nat) (d : nat) (s : str) : bool :=
  match n with
  | 0 => false
  | S n =>
    match s with
    | [] => d =? 0
    | c :: s' =>
      match d with
      | 0 => false
      | S d' =>
      if is_name_char c then closes_check n d s'
      else if dashes_check s then let '(_, r) := span not_newline (tl s') in closes_check n d r
      else if is_op_char c then negb (dashes_check s') && closes_check n d s'
      else if is_open c then (negb (c =? C "(")%N || negb (dashes_check s')) && closes_check n (S d) s'
      else if is_close c then closes_check n d' s'
      else if (c =? quote)%N then
        match s' with
        | x :: y :: s2 =>
          if (x =? quote)%N && (y =? quote)%N then
            let '(_, r) := span no_q s2 in
            match r with q1 :: q2 :: q3 :: r => (q1 =? quote)%N && (q2 =? quote)%N && (q3 =? quote)%N && closes_check n d r | _ => false end
          else
            let '(t, r) := span plain s' in
            match r with q :: r => (q =? quote)%N && ends_check (fun x => (x =? quote)%N) r && closes_check n d r | _ => false end
        | _ => false
        end
      else if (c =? squote)%N then
        match s' with x :: q :: r => (q =? squote)%N && closes_check n d r | _ => false end
      else closes_check n d s'
      end
    end
  end.
Lemma closes_check_closes n d s : closes_check n d s = true -> closes d s.
Proof.
  revert d s. induction n as [|n IH]; intros d s H; [discriminate H|]. cbn [closes_check] in H.
  assert (Hd : forall r, dashes_check r = false -> ~ dashes r).
  { intros r Hr K. apply dashes_dashes_check in K. congruence. }
  destruct s as [|c s]; [apply Nat.eqb_eq in H; subst d; constructor|]. destruct d as [|d]; [discriminate H|].
  destruct (is_name_char c) eqn:Hc1; [apply closes_plain; [unfold is_plain; rewrite Hc1; reflexivity|auto]|].
  destruct (dashes_check (c :: s)) eqn:Hc2.
  { destruct s as [|x s]; [discriminate Hc2|]. apply andb_true_iff in Hc2 as [H1 H2]. apply N.eqb_eq in H1, H2. subst c x. cbn [tl] in H.
    destruct (span not_newline s) as [w r] eqn:E. apply span_longest in E as (-> & Hw & Hr). apply (closes_comment d w r); auto.
    destruct r as [|y r]; [exact I|]. cbn in Hr. unfold not_newline in Hr. apply negb_false_iff, N.eqb_eq in Hr. exact Hr. }
  destruct (is_op_char c) eqn:Hc3.
  { apply andb_true_iff in H as [H1 H2]. apply negb_true_iff in H1. apply closes_operator; auto. }
  destruct (is_open c) eqn:Hc4.
  { apply andb_true_iff in H as [H0 H2]. apply closes_open; auto. intros ->. apply Hd. cbn in H0. apply negb_true_iff in H0. exact H0. }
  destruct (is_close c) eqn:Hc5; [apply closes_close; auto|].
  destruct (N.eqb_spec c quote) as [->|Hc6].
  { destruct s as [|x [|y s]]; [discriminate H..|]. destruct ((x =? quote)%N && (y =? quote)%N) eqn:Hq.
    - apply andb_true_iff in Hq as [H1 H2]. apply N.eqb_eq in H1, H2. subst x y.
      destruct (span no_q s) as [w r] eqn:E. apply span_longest in E as (-> & Hw & _).
      destruct r as [|q1 [|q2 [|q3 r]]]; [discriminate H..|].
      apply andb_true_iff in H as [H H4]. apply andb_true_iff in H as [H H3]. apply andb_true_iff in H as [H1 H2].
      apply N.eqb_eq in H1, H2, H3. subst q1 q2 q3.
      change (closes (S d) (([quote; quote; quote] ++ w ++ [quote; quote; quote] ++ r))). rewrite !app_assoc. apply closes_string; auto.
      rewrite <- app_assoc. apply token_multi. intros K. rewrite forallb_forall in Hw. apply Hw in K. discriminate K.
    - destruct (span plain (x :: y :: s)) as [w r] eqn:E. apply span_longest in E as (E & Hw & _). rewrite E.
      destruct r as [|q r]; [discriminate H|]. apply andb_true_iff in H as [H H2]. apply andb_true_iff in H as [H0 H1]. apply N.eqb_eq in H0. subst q.
      change (quote :: w ++ quote :: r) with ((quote :: w) ++ [quote] ++ r). rewrite app_assoc. apply closes_string; auto.
      apply token_single; [apply plain_content, Hw|]. intros _. apply ends_check_ends, H1. }
  destruct (N.eqb_spec c squote) as [->|Hc7].
  { destruct s as [|x [|q r]]; [discriminate H..|]. apply andb_true_iff in H as [H H1]. apply N.eqb_eq in H. subst q.
    apply (closes_char d [squote; x; squote]); auto. apply (token_char [x] x). constructor. }
  apply closes_plain; auto. unfold is_plain, is_other. rewrite Hc1, Hc3, Hc4, Hc5. apply N.eqb_neq in Hc6, Hc7. rewrite Hc6, Hc7. reflexivity.
Qed.
