(** * Deciding [relit], for the examples

    Strings without escapes and character literals without escapes only; where
    [rl_check] says yes, the texts are in relation. *)
From Verif Require Import Base Nom Regex Spec Lexers Ast Seqs LexProps RenameSim Whole WholeCheck CommentSpec RecommentCheck LiteralSpec.

Lemma span_app f v x : forallb f v = true -> span f (v ++ x) = (let '(p, q) := span f x in (v ++ p, q)).
Proof.
  intros Hv. destruct (span f x) as [p q] eqn:E. apply span_longest in E as (-> & Hp & Hq). apply span_longest. split; [apply app_assoc|].
  rewrite forallb_app, Hv, Hp. split; [reflexivity|exact Hq].
Qed.
Definition kept_check (c : char) (s s' : str) : bool :=
  match strip (L "infix") (c :: s), strip (L "infix") (c :: s') with
  | Some r, Some r' => str_eqb (fst (span lead r)) (fst (span lead r'))
  | None, None => true
  | _, _ => false
  end.
Lemma kept_check_kept c s s' : kept_check c s s' = true -> infix_kept c s s'.
Proof.
  unfold kept_check. intros H v Hv.
  assert (J : forall s, (exists r, c :: s = L "infix" ++ v ++ r) <-> exists r, strip (L "infix") (c :: s) = Some r /\ exists x, r = v ++ x).
  { intros u. split.
    - intros (r & E). exists (v ++ r). split; [apply strip_iff; exact E|eauto].
    - intros (r & E & x & ->). apply strip_iff in E. eauto. }
  rewrite !J. destruct (strip (L "infix") (c :: s)) as [r|]; destruct (strip (L "infix") (c :: s')) as [r'|]; try discriminate H.
  - apply str_eqb_eq in H.
    assert (G : forall r r', fst (span lead r) = fst (span lead r') -> (exists x, r = v ++ x) -> exists x, r' = v ++ x).
    { intros u u' E (x & ->). rewrite span_app in E by exact Hv. destruct (span lead x) as [p q]. cbn in E. destruct (span lead u') as [p' q'] eqn:E'. cbn in E.
      apply span_longest in E' as (-> & _). subst p'. rewrite <- app_assoc. eauto. }
    split; intros (y & E & Hy); injection E as <-; eexists; (split; [reflexivity|]); (eapply G; [|exact Hy]); congruence.
  - split; intros (y & E & _); discriminate E.
Qed.

(** the content of a string, after the first quote, and what follows *)
Definition string_split (s : str) : option (str * str) :=
  match s with
  | x :: y :: s2 =>
    if (x =? quote)%N && (y =? quote)%N then
      let '(w, r) := span no_q s2 in
      match r with q1 :: q2 :: q3 :: r => if (q1 =? quote)%N && (q2 =? quote)%N && (q3 =? quote)%N then Some (w, r) else None | _ => None end
    else
      let '(w, r) := span plain s in
      match r with q :: r => if (q =? quote)%N && ends_check (fun x => (x =? quote)%N) r then Some (w, r) else None | _ => None end
  | _ => None
  end.
Lemma string_split_literal s c r : string_split s = Some (c, r) -> exists t, quote :: s = t ++ r /\ string_literal r t c.
Proof.
  unfold string_split. destruct s as [|x [|y s]]; [discriminate..|]. destruct ((x =? quote)%N && (y =? quote)%N) eqn:Hq.
  - apply andb_true_iff in Hq as [H1 H2]. apply N.eqb_eq in H1, H2. subst x y.
    destruct (span no_q s) as [w u] eqn:E. apply span_longest in E as (-> & Hw & _). destruct u as [|q1 [|q2 [|q3 u]]]; [discriminate..|].
    destruct ((q1 =? quote)%N && (q2 =? quote)%N && (q3 =? quote)%N) eqn:Hq; [|discriminate]. intros E. injection E as <- <-.
    apply andb_true_iff in Hq as [H H3]. apply andb_true_iff in H as [H1 H2]. apply N.eqb_eq in H1, H2, H3. subst q1 q2 q3.
    exists ([quote; quote; quote] ++ w ++ [quote; quote; quote]). rewrite <- !app_assoc. split; [reflexivity|]. apply lit_multi.
    intros J. rewrite forallb_forall in Hw. apply Hw in J. discriminate J.
  - destruct (span plain (x :: y :: s)) as [w u] eqn:E. apply span_longest in E as (E & Hw & _). rewrite E. destruct u as [|q u]; [discriminate|].
    destruct ((q =? quote)%N && ends_check (fun x => (x =? quote)%N) u) eqn:H; [|discriminate]. intros E2. injection E2 as <- <-.
    apply andb_true_iff in H as [H1 H2]. apply N.eqb_eq in H1. subst q. exists (quote :: w ++ [quote]). cbn [app]. rewrite <- app_assoc. split; [reflexivity|].
    apply lit_single; [apply plain_content, Hw|]. intros _. apply ends_check_ends, H2.
Qed.

(** operators that can be replaced *)
Fixpoint two_dashes (s : str) : bool :=
  match s with x :: t => match t with y :: _ => (x =? C "-")%N && (y =? C "-")%N | [] => false end || two_dashes t | [] => false end.
Lemma two_dashes_in p q : two_dashes (p ++ L "--" ++ q) = true.
Proof.
  assert (J : two_dashes (L "--" ++ q) = true) by reflexivity. revert J. generalize (L "--" ++ q). intros u J.
  induction p as [|x p IH]; [exact J|]. cbn [app two_dashes]. rewrite IH. apply orb_true_r.
Qed.
Definition changeable_check (o s : str) : bool :=
  match o with
  | [] => false
  | x :: t => forallb is_op_char o && negb (existsb (str_eqb o) reserved_operators) && ends_check is_op_char s && negb (two_dashes o) &&
    (negb (str_eqb o (L "+") || str_eqb o (L "-")) || ends_check is_dec s) && negb (x =? backslash)%N &&
    (negb (x =? C "=")%N || ends_check (fun x => mem_char x (L ".+-\")) t)
  end.
Lemma changeable_check_changeable o s : changeable_check o s = true -> changeable o s.
Proof.
  destruct o as [|x t]; [discriminate|]. intros H. unfold changeable_check in H. apply andb_true_iff in H as [H H7]. apply andb_true_iff in H as [H H6].
  apply andb_true_iff in H as [H H5]. apply andb_true_iff in H as [H H4]. apply andb_true_iff in H as [H H3]. apply andb_true_iff in H as [H1 H2].
  split; [|split; [apply ends_check_ends, H3|split; [|split; [|split]]]].
  - split; [discriminate|]. split; [exact H1|]. intros Hi. apply negb_true_iff in H2. enough (E : existsb (str_eqb (x :: t)) reserved_operators = true) by congruence.
    apply existsb_exists. exists (x :: t). split; [exact Hi|apply str_eqb_eq; reflexivity].
  - intros (p & q & E). assert (G : two_dashes (x :: t) = true) by (rewrite E; apply two_dashes_in). apply negb_true_iff in H4. congruence.
  - intros Ho. apply orb_true_iff in H5 as [H5|H5]; [|apply ends_check_ends, H5]. apply negb_true_iff, orb_false_iff in H5 as [Hp Hm].
    destruct Ho as [E|E]; apply str_eqb_eq in E; congruence.
  - intros u E. injection E as -> _. discriminate H6.
  - intros u E. injection E as -> ->. apply ends_check_ends, H7.
Qed.

Record tests := mkTests { t_string : str -> str -> bool; t_char : char -> char -> bool; t_digits : str -> str -> bool; t_comment : str -> str -> bool; t_operator : str -> str -> bool; t_lists : list ((str * expr) * (str * expr)); t_rounds : list ((str * expr) * (str * expr)); t_curlies : list ((str * expr) * (str * expr)) }.
Definition kinds_of (t : tests) : kinds :=
  mkKinds (fun a b => t_string t a b = true) (fun a b => t_char t a b = true) (fun a b => t_digits t a b = true) (fun a b => t_comment t a b = true) (fun a b => t_operator t a b = true)
    (fun x y => In (x, y) (t_lists t)) (fun x y => In (x, y) (t_rounds t)) (fun x y => In (x, y) (t_curlies t)).

Definition named (b : before) : bool := match b with after_name => true | _ => false end.
Definition in_operator (b : before) : bool := match b with after_operator => true | _ => false end.
Section Check.
Variable T : tests.
Definition operator_case (b : before) (s s' : str) : bool :=
  let '(w, r) := span is_op_char s in let '(w', r') := span is_op_char s' in
  negb (in_operator b) && negb (str_eqb w w') && changeable_check w r && changeable_check w' r'.
(** the first phrase of a table that begins both texts, and what follows *)
Fixpoint list_split (l : list ((str * expr) * (str * expr))) (s s' : str) : option (str * str) :=
  match l with
  | [] => None
  | ((t, _), (t', _)) :: l => match strip t s, strip t' s' with Some r, Some r' => Some (r, r') | _, _ => list_split l s s' end
  end.
Lemma list_split_in l s s' r r' : list_split l s s' = Some (r, r') -> exists t e t' e', In ((t, e), (t', e')) l /\ s = t ++ r /\ s' = t' ++ r'.
Proof.
  induction l as [|[[t e] [t' e']] l IH]; [discriminate|]. cbn [list_split]. intros H.
  assert (J : list_split l s s' = Some (r, r') -> exists u a u' a', In ((u, a), (u', a')) (((t, e), (t', e')) :: l) /\ s = u ++ r /\ s' = u' ++ r').
  { intros G. destruct (IH G) as (u & a & u' & a' & H1 & H2). exists u, a, u', a'. split; [right; exact H1|exact H2]. }
  destruct (strip t s) as [x|] eqn:E; [|exact (J H)]. destruct (strip t' s') as [x'|] eqn:E'; [|exact (J H)].
  injection H as -> ->. apply strip_iff in E, E'. exists t, e, t', e'. split; [left; reflexivity|]. auto.
Qed.
Definition brace_check (t : str) : bool := match t with c :: _ => negb (c =? C "-")%N | [] => false end.
Definition brace_texts (p : (str * expr) * (str * expr)) : bool := brace_check (fst (fst p)) && brace_check (fst (snd p)).
Lemma brace_check_text t : brace_check t = true -> brace_text t.
Proof. destruct t as [|c t]; [discriminate|]. cbn. intros H. apply negb_true_iff, N.eqb_neq in H. exists c, t. auto. Qed.
Fixpoint rl_check (n : nat) (b : before) (s s' : str) : bool :=
  match n with
  | 0 => false
  | S n =>
    match s, s' with
    | [], [] => true
    | c :: s, c' :: s' =>
      match (if (c =? C "[")%N && (c' =? C "[")%N then list_split (t_lists T) s s' else
             if (c =? C "(")%N && (c' =? C "(")%N then list_split (t_rounds T) s s' else
             if (c =? C "{")%N && (c' =? C "{")%N then list_split (filter brace_texts (t_curlies T)) s s' else None) with Some (r, r') => rl_check n after_other r r' | None =>
      if dashes_check (c :: s) && dashes_check (c' :: s') then
        let '(w, r) := span not_newline (tl s) in let '(w', r') := span not_newline (tl s') in t_comment T w w' && rl_check n after_other r r'
      else if (c =? quote)%N && (c' =? quote)%N then
        match string_split s, string_split s' with Some (w, r), Some (w', r') => t_string T w w' && rl_check n after_other r r' | _, _ => false end
      else if (c =? squote)%N && (c' =? squote)%N then
        match s, s' with
        | x :: q :: r, x' :: q' :: r' => (q =? squote)%N && (q' =? squote)%N && t_char T x x' && rl_check n after_other r r'
        | _, _ => false
        end
      else if is_dec c && is_dec c' && negb (named b) then
        let '(w, r) := span is_dec (c :: s) in let '(w', r') := span is_dec (c' :: s') in t_digits T w w' && rl_check n after_other r r'
      else if operator_case b (c :: s) (c' :: s') then
        let '(w, r) := span is_op_char (c :: s) in let '(w', r') := span is_op_char (c' :: s') in t_operator T w w' && rl_check n after_other r r'
      else if (c =? c')%N && ordinary_check c s && ordinary_check c s' && (negb (is_dec c) || named b) && kept_check c s s' then rl_check n (kind c) s s'
      else if (c =? C "{")%N && (c' =? C "{")%N then
        match s, s' with
        | m :: s, m' :: s' => (m =? C "-")%N && (m' =? C "-")%N &&
          match block_split s, block_split s' with Some (w, r), Some (w', r') => t_comment T w w' && rl_check n after_other r r' | _, _ => false end
        | _, _ => false
        end
      else false
      end
    | _, _ => false
    end
  end.
Ltac two H H1 H2 := apply andb_true_iff in H as [H1 H2]; apply N.eqb_eq in H1, H2.
Lemma rl_check_relit n b s s' : rl_check n b s s' = true -> relit (kinds_of T) b s s'.
Proof.
  revert b s s'. induction n as [|n IH]; intros b s s' H; [discriminate H|]. cbn [rl_check] in H.
  destruct s as [|c s]; destruct s' as [|c' s']; [constructor|discriminate H..|].
  destruct (if (c =? C "[")%N && (c' =? C "[")%N then list_split (t_lists T) s s' else
            if (c =? C "(")%N && (c' =? C "(")%N then list_split (t_rounds T) s s' else
            if (c =? C "{")%N && (c' =? C "{")%N then list_split (filter brace_texts (t_curlies T)) s s' else None) as [[r r']|] eqn:Hl.
  { destruct ((c =? C "[")%N && (c' =? C "[")%N) eqn:Hc; [|destruct ((c =? C "(")%N && (c' =? C "(")%N) eqn:Hc'; [|destruct ((c =? C "{")%N && (c' =? C "{")%N) eqn:Hc2; [|discriminate Hl]]].
    - two Hc H1 H2. subst c c'. apply list_split_in in Hl as (t & e & t' & e' & Hi & -> & ->). apply (rl_list _ b t t' e e'); [exact Hi|apply IH, H].
    - two Hc' H1 H2. subst c c'. apply list_split_in in Hl as (t & e & t' & e' & Hi & -> & ->). apply (rl_round _ b t t' e e'); [exact Hi|apply IH, H].
    - two Hc2 H1 H2. subst c c'. apply list_split_in in Hl as (t & e & t' & e' & Hi & -> & ->). apply filter_In in Hi as [Hi Hb].
      apply andb_true_iff in Hb as [Hb Hb']. apply (rl_curly _ b t t' e e'); [exact Hi|apply brace_check_text, Hb|apply brace_check_text, Hb'|apply IH, H]. }
  clear Hl.
  destruct (dashes_check (c :: s) && dashes_check (c' :: s')) eqn:Hd.
  { apply andb_true_iff in Hd as [Hd Hd']. destruct s as [|x s]; [discriminate Hd|]. destruct s' as [|x' s']; [discriminate Hd'|].
    two Hd H1 H2. two Hd' H3 H4. subst c x c' x'. cbn [tl] in H.
    destruct (span not_newline s) as [w r] eqn:E. destruct (span not_newline s') as [w' r'] eqn:E'. apply andb_true_iff in H as [Ht H].
    apply span_longest in E as (-> & Hw & Hr). apply span_longest in E' as (-> & Hw' & Hr').
    assert (G : forall r, ends not_newline r -> line_end r).
    { intros [|y u] Hu; [exact I|]. cbn in Hu. unfold not_newline in Hu. apply negb_false_iff, N.eqb_eq in Hu. exact Hu. }
    apply (rl_line _ b w w' r r'); auto. }
  destruct ((c =? quote)%N && (c' =? quote)%N) eqn:Hc1.
  { two Hc1 H1 H2. subst c c'. destruct (string_split s) as [[w r]|] eqn:E; [|discriminate H]. destruct (string_split s') as [[w' r']|] eqn:E'; [|discriminate H].
    apply andb_true_iff in H as [Ht H]. apply string_split_literal in E as (t & -> & Hl). apply string_split_literal in E' as (t' & -> & Hl').
    eapply rl_string; try eassumption. apply IH, H. }
  destruct ((c =? squote)%N && (c' =? squote)%N) eqn:Hc2.
  { two Hc2 H1 H2. subst c c'. destruct s as [|x [|q r]]; [discriminate H..|]. destruct s' as [|x' [|q' r']]; [discriminate H..|].
    apply andb_true_iff in H as [H H4]. apply andb_true_iff in H as [H H3]. two H H1 H2. subst q q'.
    apply (rl_literal _ b [squote; x; squote] [squote; x'; squote] x x' r r'); auto; [apply (lit_char [x] x)|apply (lit_char [x'] x')]; constructor. }
  destruct (is_dec c && is_dec c' && negb (named b)) eqn:Hc3.
  { apply andb_true_iff in Hc3 as [Hc3 H3]. apply andb_true_iff in Hc3 as [H1 H2]. 
    destruct (span is_dec (c :: s)) as [w r] eqn:E. destruct (span is_dec (c' :: s')) as [w' r'] eqn:E'. apply andb_true_iff in H as [Ht H].
    apply span_longest in E as (E & Hw & Hr). apply span_longest in E' as (E' & Hw' & Hr'). rewrite E, E'. apply rl_digits; auto; [| |intros ->; discriminate H3].
    - split; [|exact Hw]. intros ->. cbn in E. subst r. cbn in Hr. congruence.
    - split; [|exact Hw']. intros ->. cbn in E'. subst r'. cbn in Hr'. congruence. }
  destruct (operator_case b (c :: s) (c' :: s')) eqn:Hc5.
  { unfold operator_case in Hc5. destruct (span is_op_char (c :: s)) as [w r] eqn:E. destruct (span is_op_char (c' :: s')) as [w' r'] eqn:E'.
    apply andb_true_iff in Hc5 as [Hc5 H4]. apply andb_true_iff in Hc5 as [Hc5 H3]. apply andb_true_iff in Hc5 as [H1 _]. apply andb_true_iff in H as [Ht H].
    apply span_longest in E as (E & _). apply span_longest in E' as (E' & _). rewrite E, E'.
    apply rl_operator; [apply changeable_check_changeable; assumption..|intros ->; discriminate H1|exact Ht|apply IH, H]. }
  destruct ((c =? c')%N && ordinary_check c s && ordinary_check c s' && (negb (is_dec c) || named b) && kept_check c s s') eqn:Ho.
  { apply andb_true_iff in Ho as [Ho H5]. apply andb_true_iff in Ho as [Ho H4]. apply andb_true_iff in Ho as [Ho H3]. apply andb_true_iff in Ho as [H1 H2].
    apply N.eqb_eq in H1. subst c'. apply rl_other; [apply ordinary_check_ordinary, H2|apply ordinary_check_ordinary, H3| |apply kept_check_kept, H5|apply IH, H].
    intros Hx. rewrite Hx in H4. destruct b; [reflexivity|discriminate H4..]. }
  destruct ((c =? C "{")%N && (c' =? C "{")%N) eqn:Hc4; [|discriminate H].
  two Hc4 H1 H2. subst c c'. destruct s as [|m s]; [discriminate H|]. destruct s' as [|m' s']; [discriminate H|]. apply andb_true_iff in H as [H H3]. two H H1 H2. subst m m'.
  destruct (block_split s) as [[w r]|] eqn:E; [|discriminate H3]. destruct (block_split s') as [[w' r']|] eqn:E'; [|discriminate H3].
  apply andb_true_iff in H3 as [Ht H]. apply block_split_text in E as [-> Hw]. apply block_split_text in E' as [-> Hw']. apply (rl_block _ b w w' r r'); auto.
Qed.
End Check.
