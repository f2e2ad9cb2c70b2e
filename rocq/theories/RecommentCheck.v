(** * Deciding [recomment], for the examples

    Strings without escapes and character literals without escapes only; where
    [rc_check] says yes, the texts are in relation. *)
From Verif Require Import Base Nom Regex Spec Lexers Ast Seqs LexProps RenameSim Whole WholeCheck CommentSpec.

Definition quiet_check (s : str) : bool := let '(_, r) := span lead s in negb (dashes_check r).
Lemma quiet_check_quiet s : quiet_check s = true -> quiet s.
Proof.
  unfold quiet_check. destruct (span lead s) as [w r] eqn:E. intros H a b ->. destruct (forallb lead a) eqn:Ha; [|reflexivity]. exfalso.
  assert (E2 : span lead (a ++ L "--" ++ b) = (a, L "--" ++ b)) by (apply span_longest; split; [reflexivity|split; [exact Ha|reflexivity]]).
  rewrite E2 in E. injection E as <- <-. discriminate H.
Qed.
Definition ordinary_check (c : char) (s : str) : bool :=
  negb (c =? quote)%N && negb (c =? squote)%N && negb (dashes_check (c :: s)) &&
  (negb (is_op_char c || (c =? C "(")%N) || negb (dashes_check s)) &&
  (negb (c =? C "{")%N || ends_check (fun x => (x =? C "-")%N) s) &&
  match strip (L "infix") (c :: s) with Some r => quiet_check r | None => true end.
Lemma ordinary_check_ordinary c s : ordinary_check c s = true -> ordinary c s.
Proof.
  unfold ordinary_check. intros H. apply andb_true_iff in H as [H H6]. apply andb_true_iff in H as [H H5]. apply andb_true_iff in H as [H H4].
  apply andb_true_iff in H as [H H3]. apply andb_true_iff in H as [H1 H2]. apply negb_true_iff in H1, H2, H3.
  assert (Hd : forall r, dashes_check r = false -> ~ dashes r).
  { intros r Hr K. apply dashes_dashes_check in K. congruence. }
  split; [apply N.eqb_neq, H1|]. split; [apply N.eqb_neq, H2|]. split; [apply Hd, H3|]. split; [|split].
  - intros K. apply Hd. assert (E : is_op_char c || (c =? C "(")%N = true) by (destruct K as [->| ->]; [reflexivity|apply orb_true_r]).
    rewrite E in H4. apply negb_true_iff in H4. exact H4.
  - intros ->. apply ends_check_ends. exact H5.
  - intros r E. apply quiet_check_quiet. assert (E2 : strip (L "infix") (c :: s) = Some r).
    { rewrite E. clear. cbn. reflexivity. }
    rewrite E2 in H6. exact H6.
Qed.

Definition block_split (s : str) : option (str * str) :=
  match s with
  | x :: _ => if (x =? C "-")%N then None else find_sub (L "-}") s
  | [] => None
  end.
Fixpoint rc_check (n : nat) (s s' : str) : bool :=
  match n with
  | 0 => false
  | S n =>
    match s, s' with
    | [], [] => true
    | c :: s, c' :: s' =>
      (c =? c')%N &&
      if dashes_check (c :: s) && dashes_check (c' :: s') then
        let '(_, r) := span not_newline (tl s) in let '(_, r') := span not_newline (tl s') in rc_check n r r'
      else if (c =? quote)%N then
        match s with
        | x :: y :: s2 =>
          if (x =? quote)%N && (y =? quote)%N then
            let '(w, r) := span no_q s2 in
            match r with q1 :: q2 :: q3 :: r =>
              (q1 =? quote)%N && (q2 =? quote)%N && (q3 =? quote)%N &&
              match strip ([quote; quote] ++ w ++ [quote; quote; quote]) s' with Some r' => rc_check n r r' | None => false end
            | _ => false end
          else
            let '(w, r) := span plain s in
            match r with q :: r =>
              (q =? quote)%N && ends_check (fun x => (x =? quote)%N) r &&
              match strip (w ++ [quote]) s' with Some r' => rc_check n r r' | None => false end
            | _ => false end
        | _ => false
        end
      else if (c =? squote)%N then
        match s, s' with
        | x :: q :: r, x' :: q' :: r' => (q =? squote)%N && (q' =? squote)%N && (x =? x')%N && rc_check n r r'
        | _, _ => false
        end
      else if ordinary_check c s then rc_check n s s'
      else if (c =? C "{")%N then
        match s, s' with
        | m :: s, m' :: s' => (m =? C "-")%N && (m' =? C "-")%N &&
          match block_split s, block_split s' with Some (_, r), Some (_, r') => rc_check n r r' | _, _ => false end
        | _, _ => false
        end
      else false
    | _, _ => false
    end
  end.
Lemma block_split_text s c r : block_split s = Some (c, r) -> s = c ++ L "-}" ++ r /\ block_text c.
Proof.
  unfold block_split. destruct s as [|x s]; [discriminate|]. destruct (N.eqb_spec x (C "-")) as [|Hx]; [discriminate|]. intros H.
  assert (E : preceded (tag (L "{-")) (take_until_and_consume (L "-}")) (L "{-" ++ x :: s) = Ok r c).
  { unfold preceded, bind. replace (tag (L "{-") (L "{-" ++ x :: s)) with (Ok (x :: s) (L "{-")) by (symmetry; apply tag_iff; auto).
    unfold take_until_and_consume. rewrite H. reflexivity. }
  apply block_comment_iff in E as [E Hn]. apply app_inv_head in E. split; [exact E|]. split; [exact Hn|].
  destruct c as [|y c]; [injection E as E _; contradiction|]. injection E as <- _. eauto.
Qed.
Lemma rc_check_recomment n s s' : rc_check n s s' = true -> recomment s s'.
Proof.
  revert s s'. induction n as [|n IH]; intros s s' H; [discriminate H|]. cbn [rc_check] in H.
  destruct s as [|c s]; destruct s' as [|c' s']; [constructor|discriminate H..|]. apply andb_true_iff in H as [Hc H]. apply N.eqb_eq in Hc. subst c'.
  destruct (dashes_check (c :: s) && dashes_check (c :: s')) eqn:Hd.
  { apply andb_true_iff in Hd as [Hd Hd']. destruct s as [|x s]; [discriminate Hd|]. destruct s' as [|x' s']; [discriminate Hd'|].
    apply andb_true_iff in Hd as [H1 H2]. apply andb_true_iff in Hd' as [_ H3]. apply N.eqb_eq in H1, H2, H3. subst c x x'. cbn [tl] in H.
    destruct (span not_newline s) as [w r] eqn:E. destruct (span not_newline s') as [w' r'] eqn:E'.
    apply span_longest in E as (-> & Hw & Hr). apply span_longest in E' as (-> & Hw' & _). apply (rc_line w w' r r'); auto.
    destruct r as [|y r]; [exact I|]. cbn in Hr. unfold not_newline in Hr. apply negb_false_iff, N.eqb_eq in Hr. exact Hr. }
  destruct (N.eqb_spec c quote) as [->|Hc1].
  { destruct s as [|x [|y s]]; [discriminate H..|]. destruct ((x =? quote)%N && (y =? quote)%N) eqn:Hq.
    - apply andb_true_iff in Hq as [H1 H2]. apply N.eqb_eq in H1, H2. subst x y.
      destruct (span no_q s) as [w r] eqn:E. apply span_longest in E as (-> & Hw & _).
      destruct r as [|q1 [|q2 [|q3 r]]]; [discriminate H..|].
      apply andb_true_iff in H as [H H4]. apply andb_true_iff in H as [H H3]. apply andb_true_iff in H as [H1 H2].
      apply N.eqb_eq in H1, H2, H3. subst q1 q2 q3.
      destruct (strip _ s') as [r'|] eqn:Es; [|discriminate H4]. apply strip_iff in Es. subst s'.
      assert (K : recomment (([quote; quote; quote] ++ w ++ [quote; quote; quote]) ++ r) (([quote; quote; quote] ++ w ++ [quote; quote; quote]) ++ r')).
      { apply rc_string; [|auto]. apply token_multi. intros K. rewrite forallb_forall in Hw. apply Hw in K. discriminate K. }
      rewrite <- !app_assoc in K. cbn [app]. rewrite <- !app_assoc. exact K.
    - destruct (span plain (x :: y :: s)) as [w r] eqn:E. apply span_longest in E as (E & Hw & _). rewrite E.
      destruct r as [|q r]; [discriminate H|]. apply andb_true_iff in H as [H H2]. apply andb_true_iff in H as [H0 H1]. apply N.eqb_eq in H0. subst q.
      destruct (strip _ s') as [r'|] eqn:Es; [|discriminate H2]. apply strip_iff in Es. subst s'.
      change (quote :: w ++ quote :: r) with ((quote :: w) ++ [quote] ++ r). rewrite app_assoc. apply (rc_string (quote :: w ++ [quote]) r r'); auto.
      apply token_single; [apply plain_content, Hw|]. intros _. apply ends_check_ends, H1. }
  destruct (N.eqb_spec c squote) as [->|Hc2].
  { destruct s as [|x [|q r]]; [discriminate H..|]. destruct s' as [|x' [|q' r']]; [discriminate H..|].
    apply andb_true_iff in H as [H H4]. apply andb_true_iff in H as [H H3]. apply andb_true_iff in H as [H1 H2].
    apply N.eqb_eq in H1, H2, H3. subst q q' x'. apply (rc_literal [squote; x; squote] r r'); auto. apply (token_char [x] x). constructor. }
  destruct (ordinary_check c s) eqn:Ho; [apply rc_char; [apply ordinary_check_ordinary, Ho|auto]|].
  destruct (N.eqb_spec c (C "{")) as [->|Hc3]; [|discriminate H].
  destruct s as [|m s]; [discriminate H|]. destruct s' as [|m' s']; [discriminate H|]. apply andb_true_iff in H as [H H3]. apply andb_true_iff in H as [H1 H2].
  apply N.eqb_eq in H1, H2. subst m m'. destruct (block_split s) as [[w r]|] eqn:E; [|discriminate H3]. destruct (block_split s') as [[w' r']|] eqn:E'; [|discriminate H3].
  apply block_split_text in E as [-> Hw]. apply block_split_text in E' as [-> Hw']. apply (rc_block w w' r r'); auto.
Qed.
