(** * Deciding [relayout], for the examples

    As RecommentCheck.v: where [rl_check] says yes, the texts are in relation. *)
From Verif Require Import Base Nom Regex Spec Lexers Layout Ast Seqs LexProps RenameSim Whole WholeCheck CommentSpec RecommentCheck LayoutSpec.

Fixpoint rl_check (n : nat) (s s' : str) : bool :=
  match n with
  | 0 => false
  | S n =>
    match s, s' with
    | [], [] => true
    | c :: s, c' :: s' =>
      (c =? c')%N &&
      if dashes_check (c :: s) && dashes_check (c' :: s') then
        let '(_, r) := span not_newline (tl s) in let '(_, r') := span not_newline (tl s') in rl_check n r r'
      else if (c =? quote)%N then
        match s with
        | x :: y :: s2 =>
          if (x =? quote)%N && (y =? quote)%N then
            let '(w, r) := span no_q s2 in
            match r with q1 :: q2 :: q3 :: r =>
              (q1 =? quote)%N && (q2 =? quote)%N && (q3 =? quote)%N &&
              match strip ([quote; quote] ++ w ++ [quote; quote; quote]) s' with Some r' => rl_check n r r' | None => false end
            | _ => false end
          else
            let '(w, r) := span plain s in
            match r with q :: r =>
              (q =? quote)%N && ends_check (fun x => (x =? quote)%N) r &&
              match strip (w ++ [quote]) s' with Some r' => rl_check n r r' | None => false end
            | _ => false end
        | _ => false
        end
      else if (c =? squote)%N then
        match s, s' with
        | x :: q :: r, x' :: q' :: r' => (q =? squote)%N && (q' =? squote)%N && (x =? x')%N && rl_check n r r'
        | _, _ => false
        end
      else if (c =? space)%N then
        let '(_, r) := span (fun c => (c =? space)%N) s in let '(_, r') := span (fun c => (c =? space)%N) s' in rl_check n r r'
      else if (c =? newline)%N then
        let '(w, r) := span is_sp_nl s in let '(w', r') := span is_sp_nl s' in
        Bool.eqb (has_newline w) (has_newline w') && (length (last_line w) =? length (last_line w'))%nat && rl_check n r r'
      else if (c =? C ",")%N then
        let '(w, r) := span (fun c => (c =? space)%N) s in let '(w', r') := span (fun c => (c =? space)%N) s' in
        Bool.eqb (length w =? 0)%nat (length w' =? 0)%nat && Bool.eqb (length w =? 1)%nat (length w' =? 1)%nat && rl_check n r r'
      else if ordinary_check c s then rl_check n s s'
      else if (c =? C "{")%N then
        match s, s' with
        | m :: s, m' :: s' => (m =? C "-")%N && (m' =? C "-")%N &&
          match block_split s, block_split s' with Some (_, r), Some (_, r') => rl_check n r r' | _, _ => false end
        | _, _ => false
        end
      else false
    | _, _ => false
    end
  end.
Lemma spaces_repeat w : forallb (fun c => (c =? space)%N) w = true -> w = spaces_of (length w).
Proof.
  induction w as [|c w IH]; intros H; [reflexivity|]. cbn in H. apply andb_true_iff in H as [H1 H2]. apply N.eqb_eq in H1. subst c.
  cbn. f_equal. apply IH, H2.
Qed.
Lemma plain_repeat w : forallb is_sp_nl w = true -> has_newline w = false -> w = spaces_of (length w).
Proof.
  intros H1 H2. apply spaces_repeat. induction w as [|c w IH]; [reflexivity|]. cbn in *. apply andb_true_iff in H1 as [H1 H3].
  apply orb_false_iff in H2 as [H2 H4]. unfold is_sp_nl in H1. rewrite H2, orb_false_r in H1. rewrite H1. apply IH; assumption.
Qed.
Lemma blank_split w : forallb is_sp_nl w = true -> has_newline w = true ->
  exists v, w = v ++ newline :: spaces_of (length (last_line w)) /\ forallb is_sp_nl v = true.
Proof.
  induction w as [|c w IH]; intros H1 H2; [discriminate H2|]. cbn [forallb] in H1. apply andb_true_iff in H1 as [H1 H3]. cbn [last_line].
  destruct (has_newline w) eqn:Hn.
  - destruct (IH H3 eq_refl) as (v & Ev & Hv). exists (c :: v). cbn [forallb app]. rewrite H1, Hv, <- Ev. auto.
  - cbn in H2. change (existsb (fun c => (c =? newline)%N) w) with (has_newline w) in H2. rewrite Hn, orb_false_r in H2. rewrite H2. apply N.eqb_eq in H2. subst c.
    exists []. split; [|reflexivity]. cbn. f_equal. apply plain_repeat; assumption.
Qed.
Lemma rl_check_relayout n s s' : rl_check n s s' = true -> relayout s s'.
Proof.
  revert s s'. induction n as [|n IH]; intros s s' H; [discriminate H|]. cbn [rl_check] in H.
  destruct s as [|c s]; destruct s' as [|c' s']; [constructor|discriminate H..|]. apply andb_true_iff in H as [Hc H]. apply N.eqb_eq in Hc. subst c'.
  destruct (dashes_check (c :: s) && dashes_check (c :: s')) eqn:Hd.
  { apply andb_true_iff in Hd as [Hd Hd']. destruct s as [|x s]; [discriminate Hd|]. destruct s' as [|x' s']; [discriminate Hd'|].
    apply andb_true_iff in Hd as [H1 H2]. apply andb_true_iff in Hd' as [_ H3]. apply N.eqb_eq in H1, H2, H3. subst c x x'. cbn [tl] in H.
    destruct (span not_newline s) as [w r] eqn:E. destruct (span not_newline s') as [w' r'] eqn:E'.
    apply span_longest in E as (-> & Hw & Hr). apply span_longest in E' as (-> & Hw' & _). apply (rl_comment w w' r r'); auto.
    destruct r as [|y r]; [exact I|]. cbn in Hr. unfold not_newline in Hr. apply negb_false_iff, N.eqb_eq in Hr. exact Hr. }
  destruct (N.eqb_spec c quote) as [->|Hc1].
  { destruct s as [|x [|y s]]; [discriminate H..|]. destruct ((x =? quote)%N && (y =? quote)%N) eqn:Hq.
    - apply andb_true_iff in Hq as [H1 H2]. apply N.eqb_eq in H1, H2. subst x y.
      destruct (span no_q s) as [w r] eqn:E. apply span_longest in E as (-> & Hw & _).
      destruct r as [|q1 [|q2 [|q3 r]]]; [discriminate H..|].
      apply andb_true_iff in H as [H H4]. apply andb_true_iff in H as [H H3]. apply andb_true_iff in H as [H1 H2].
      apply N.eqb_eq in H1, H2, H3. subst q1 q2 q3.
      destruct (strip _ s') as [r'|] eqn:Es; [|discriminate H4]. apply strip_iff in Es. subst s'.
      assert (K : relayout (([quote; quote; quote] ++ w ++ [quote; quote; quote]) ++ r) (([quote; quote; quote] ++ w ++ [quote; quote; quote]) ++ r')).
      { apply rl_string; [|auto]. apply token_multi. intros K. rewrite forallb_forall in Hw. apply Hw in K. discriminate K. }
      rewrite <- !app_assoc in K. cbn [app]. rewrite <- !app_assoc. exact K.
    - destruct (span plain (x :: y :: s)) as [w r] eqn:E. apply span_longest in E as (E & Hw & _). rewrite E.
      destruct r as [|q r]; [discriminate H|]. apply andb_true_iff in H as [H H2]. apply andb_true_iff in H as [H0 H1]. apply N.eqb_eq in H0. subst q.
      destruct (strip _ s') as [r'|] eqn:Es; [|discriminate H2]. apply strip_iff in Es. subst s'.
      change (quote :: w ++ quote :: r) with ((quote :: w) ++ [quote] ++ r). rewrite app_assoc. apply (rl_string (quote :: w ++ [quote]) r r'); auto.
      apply token_single; [apply plain_content, Hw|]. intros _. apply ends_check_ends, H1. }
  destruct (N.eqb_spec c squote) as [->|Hc2].
  { destruct s as [|x [|q r]]; [discriminate H..|]. destruct s' as [|x' [|q' r']]; [discriminate H..|].
    apply andb_true_iff in H as [H H4]. apply andb_true_iff in H as [H H3]. apply andb_true_iff in H as [H1 H2].
    apply N.eqb_eq in H1, H2, H3. subst q q' x'. apply (rl_literal [squote; x; squote] r r'); auto. apply (token_char [x] x). constructor. }
  destruct (N.eqb_spec c space) as [->|Hc4].
  { destruct (span (fun c => (c =? space)%N) s) as [w r] eqn:E. destruct (span (fun c => (c =? space)%N) s') as [w' r'] eqn:E'.
    apply span_longest in E as (-> & Hw & Hr). apply span_longest in E' as (-> & Hw' & Hr').
    rewrite (spaces_repeat w Hw), (spaces_repeat w' Hw'). apply (rl_spaces (S (length w)) (S (length w')) r r'); auto; lia. }
  destruct (N.eqb_spec c newline) as [->|Hc5].
  { destruct (span is_sp_nl s) as [w r] eqn:E. destruct (span is_sp_nl s') as [w' r'] eqn:E'.
    apply span_longest in E as (-> & Hw & Hr). apply span_longest in E' as (-> & Hw' & Hr').
    apply andb_true_iff in H as [H H3]. apply andb_true_iff in H as [H1 H2]. apply Bool.eqb_prop in H1. apply Nat.eqb_eq in H2.
    destruct (has_newline w) eqn:Hn.
    - destruct (blank_split w Hw Hn) as (v & Ev & Hv). symmetry in H1. destruct (blank_split w' Hw' H1) as (v' & Ev' & Hv').
      rewrite Ev, Ev', <- H2, <- !app_assoc. cbn [app]. apply (rl_lines v v' (length (last_line w)) r r'); auto.
    - symmetry in H1. rewrite !last_line_no_newline in H2 by assumption. rewrite (plain_repeat w Hw Hn), (plain_repeat w' Hw' H1), <- H2.
      apply rl_line; auto. }
  destruct (N.eqb_spec c (C ",")) as [->|Hc6].
  { destruct (span (fun c => (c =? space)%N) s) as [w r] eqn:E. destruct (span (fun c => (c =? space)%N) s') as [w' r'] eqn:E'.
    apply span_longest in E as (-> & Hw & Hr). apply span_longest in E' as (-> & Hw' & Hr').
    apply andb_true_iff in H as [H H3]. apply andb_true_iff in H as [H1 H2]. apply Bool.eqb_prop in H1, H2.
    rewrite (spaces_repeat w Hw), (spaces_repeat w' Hw'). apply rl_comma; auto; rewrite <- !Nat.eqb_eq.
    - rewrite H1. tauto.
    - rewrite H2. tauto. }
  destruct (ordinary_check c s) eqn:Ho.
  { apply rl_char; [apply ordinary_check_ordinary, Ho| |exact Hc6|auto]. unfold is_sp_nl. apply orb_false_iff. split; apply N.eqb_neq; assumption. }
  destruct (N.eqb_spec c (C "{")) as [->|Hc3]; [|discriminate H].
  destruct s as [|m s]; [discriminate H|]. destruct s' as [|m' s']; [discriminate H|]. apply andb_true_iff in H as [H H3]. apply andb_true_iff in H as [H1 H2].
  apply N.eqb_eq in H1, H2. subst m m'. destruct (block_split s) as [[w r]|] eqn:E; [|discriminate H3]. destruct (block_split s') as [[w' r']|] eqn:E'; [|discriminate H3].
  apply block_split_text in E as [-> Hw]. apply block_split_text in E' as [-> Hw']. apply (rl_block w w' r r'); auto.
Qed.
