(** * The lexical parsers, characterised

    The regex engine of Regex.v on each regular expression of the crate is
    reduced to "longest prefix" functions. *)
From Verif Require Import Base Nom Regex Good Spec Helpers Types Expr Stmt.

(** ** Longest prefixes *)

Lemma span_longest P s w r : span P s = (w, r) <-> longest P w s r.
Proof.
  revert w r. induction s as [|c s IH]; intros w r; simpl.
  - split.
    + intros [= <- <-]. repeat split.
    + intros (He & _ & _). symmetry in He. apply app_eq_nil in He. destruct He; subst; reflexivity.
  - destruct (P c) eqn:Hc.
    + destruct (span P s) as [a b] eqn:Hs. split.
      * intros [= <- <-]. destruct (proj1 (IH a b) eq_refl) as (He & Hf & Hn). subst s.
        repeat split; simpl; [rewrite Hc; exact Hf|exact Hn].
      * intros (He & Hf & Hn). destruct w as [|d w].
        { simpl in He. subst r. simpl in Hn. congruence. }
        simpl in He. injection He as <- He. simpl in Hf. rewrite Hc in Hf.
        assert (Hl : longest P w s r) by (repeat split; auto).
        apply IH in Hl. injection Hl as <- <-. reflexivity.
    + split.
      * intros [= <- <-]. repeat split. exact Hc.
      * intros (He & Hf & Hn). destruct w as [|d w].
        { simpl in He. subst r. reflexivity. }
        simpl in He. injection He as <- He. simpl in Hf. rewrite Hc in Hf. discriminate.
Qed.

Lemma span_ext P Q s : (forall c, P c = Q c) -> span P s = span Q s.
Proof. intros H. induction s as [|c s IH]; simpl; [reflexivity|]. rewrite H, IH. reflexivity. Qed.

Lemma span_all P w r :
  forallb P w = true -> match r with [] => True | c :: _ => P c = false end ->
  span P (w ++ r) = (w, r).
Proof. intros. apply span_longest. repeat split; auto. Qed.

(** ** The regex engine *)

(** A regular expression that starts with ^ finds nothing after the start. *)
Lemma search_begin_false r s : re_search (RSeq RBegin r) false s = None.
Proof. induction s as [|c s IH]; simpl; [reflexivity|exact IH]. Qed.

Lemma find_iter_begin_false n r after s :
  find_iter n (RSeq RBegin r) false after s = [].
Proof. destruct n; cbn [find_iter]; [reflexivity|]. rewrite search_begin_false. reflexivity. Qed.

(** re_matches! of an anchored regular expression: at most one match. *)
Lemma re_matches_begin r s :
  re_matches (RSeq RBegin r) s =
  match re_match r (fun _ s' => Some s') true s with
  | Some rest => Ok rest [firstn (length s - length rest) s]
  | None => Err
  end.
Proof.
  unfold re_matches. cbn [find_iter].
  assert (Hs : re_search (RSeq RBegin r) true s =
               match re_match r (fun _ s' => Some s') true s with
               | Some rest => Some (firstn (length s - length rest) s, rest)
               | None => None
               end).
  { destruct s as [|c s]; cbn [re_search re_match];
      destruct (re_match r _ true _) eqn:Hm; try reflexivity.
    apply search_begin_false. }
  rewrite Hs. destruct (re_match r (fun _ s' => Some s') true s) as [rest|] eqn:Hm; [|reflexivity].
  destruct (firstn (length s - length rest) s) as [|c m] eqn:Hf.
  - cbn [andb]. destruct rest as [|d rest]; [reflexivity|].
    rewrite find_iter_begin_false. reflexivity.
  - rewrite find_iter_begin_false. reflexivity.
Qed.

(** The greedy star of a regular expression all of whose matches are one
    character satisfying [P], when the continuation always succeeds. *)
Definition one_char (r : re) (P : char -> bool) : Prop :=
  forall k z s, re_match r k z s =
    match s with c :: s' => if P c then k false s' else None | [] => None end.

Lemma star_one_char r P z s :
  one_char r P ->
  re_match (RStar r) (fun _ s' => Some s') z s = Some (snd (span P s)).
Proof.
  intros H. cbn [re_match].
  set (star := fix star (n : nat) (z : bool) (s : str) : option str := _).
  assert (Hg : forall n z s, length s <= n -> star n z s = Some (snd (span P s))).
  { induction n as [|n IH]; intros z0 s0 Hl.
    - destruct s0; [reflexivity|simpl in Hl; lia].
    - unfold star; fold star. rewrite H. destruct s0 as [|c s0]; [reflexivity|].
      cbn [span]. destruct (P c); [|reflexivity].
      simpl in Hl. replace (length s0 <? length (c :: s0)) with true
        by (symmetry; apply Nat.ltb_lt; simpl; lia).
      rewrite IH by lia. destruct (span P s0). reflexivity. }
  apply Hg. lia.
Qed.

Lemma plus_one_char r P z s :
  one_char r P ->
  re_match (RPlus r) (fun _ s' => Some s') z s =
  match s with
  | c :: s' => if P c then Some (snd (span P s')) else None
  | [] => None
  end.
Proof.
  intros H. cbn [re_match]. rewrite H. destruct s as [|c s]; [reflexivity|].
  destruct (P c); [|reflexivity].
  exact (star_one_char r P false s H).
Qed.

Lemma one_char_class neg l : one_char (RClass neg l) (fun c => xorb neg (in_ranges c l)).
Proof. intros k z s. reflexivity. Qed.

Lemma one_char_dot : one_char RDot (fun c => negb (c =? 10)%N).
Proof. intros k z s. simpl. destruct s as [|c s]; [reflexivity|]. destruct (c =? 10)%N; reflexivity. Qed.

Lemma firstn_span P s a b :
  span P s = (a, b) -> firstn (length s - length b) s = a.
Proof.
  intros H. apply span_app in H. subst s. rewrite app_length.
  replace (length a + length b - length b) with (length a) by lia.
  rewrite firstn_app, firstn_all, Nat.sub_diag. apply app_nil_r.
Qed.

(** ^[first][rest]* *)
Lemma re_first_rest l1 l2 s :
  re_matches (RSeq RBegin (RSeq (RClass false l1) (RStar (RClass false l2)))) s =
  match s with
  | c :: s' => if in_ranges c l1
               then let '(a, b) := span (fun c => in_ranges c l2) s' in Ok b [c :: a]
               else Err
  | [] => Err
  end.
Proof.
  rewrite re_matches_begin.
  change (re_match (RSeq (RClass false l1) (RStar (RClass false l2))) (fun _ s' => Some s') true s)
    with (match s with
          | c :: s' => if xorb false (in_ranges c l1)
                       then re_match (RStar (RClass false l2)) (fun _ s' => Some s') false s' else None
          | [] => None end).
  destruct s as [|c s]; [reflexivity|]. cbn [xorb].
  destruct (in_ranges c l1); cbn [xorb]; [|reflexivity].
  rewrite (star_one_char _ _ _ _ (one_char_class false l2)).
  rewrite (span_ext _ (fun c => in_ranges c l2)) by (intros; apply xorb_false_l).
  destruct (span (fun c => in_ranges c l2) s) as [a b] eqn:Hs. cbn [snd].
  f_equal. f_equal. apply span_app in Hs. subst s.
  replace (length (c :: a ++ b) - length b) with (S (length a))
    by (cbn [length]; rewrite app_length; lia).
  simpl. f_equal. rewrite firstn_app, firstn_all, Nat.sub_diag. apply app_nil_r.
Qed.

(** ** Names *)

Lemma reserved_words_eq : RESERVED_WORDS = reserved_words.
Proof. reflexivity. Qed.
Lemma reserved_operators_eq : RESERVED_OPERATORS = reserved_operators.
Proof. reflexivity. Qed.

Lemma in_ranges_lower c : in_ranges c [(C "a", C "z")] = is_lower c.
Proof. unfold in_ranges, is_lower, between. simpl. apply orb_false_r. Qed.
Lemma in_ranges_upper c : in_ranges c [(C "A", C "Z")] = is_upper c.
Proof. unfold in_ranges, is_upper, between. simpl. apply orb_false_r. Qed.

Lemma eq_range c d : ((d <=? c) && (c <=? d) = (c =? d))%N.
Proof.
  destruct (N.leb_spec d c), (N.leb_spec c d), (N.eqb_spec c d); simpl; solve [reflexivity | exfalso; lia].
Qed.

Lemma in_ranges_name c :
  in_ranges c [(C "a", C "z"); (C "A", C "Z"); (C "0", C "9"); (C "_", C "_")]
  = is_name_char c.
Proof.
  unfold in_ranges, is_name_char, is_lower, is_upper, is_dec, between.
  cbn [existsb]. rewrite eq_range, orb_false_r, !orb_assoc. reflexivity.
Qed.

Lemma in_ranges_tyvar c :
  in_ranges c [(C "a", C "z"); (C "1", C "9"); (C "_", C "_")] = is_tyvar_char c.
Proof.
  unfold in_ranges, is_tyvar_char, is_lower, between.
  cbn [existsb]. rewrite eq_range, orb_false_r, !orb_assoc. reflexivity.
Qed.

Lemma in_ranges_op c :
  in_ranges c
      [(C "-", C "-"); (C "+", C "+"); (92, 92)%N; (C "/", C "/"); (C "*", C "*");
       (C "=", C "="); (C ".", C "."); (C "$", C "$"); (C "<", C "<"); (C ">", C ">");
       (C ":", C ":"); (C "&", C "&"); (C "|", C "|"); (C "^", C "^"); (C "?", C "?");
       (C "%", C "%"); (C "#", C "#"); (C "@", C "@"); (C "~", C "~"); (C "!", C "!")]
  = is_op_char c.
Proof.
  unfold in_ranges, is_op_char, op_chars, mem_char. cbn [existsb].
  rewrite !eq_range. reflexivity.
Qed.

Lemma up_name_eq s :
  up_name s =
  match s with
  | c :: s' => if is_upper c
               then let '(a, b) := span is_name_char s' in Ok b (c :: a) else Err
  | [] => Err
  end.
Proof.
  unfold up_name, map_index0, re_up_name. rewrite re_first_rest.
  destruct s as [|c s]; [reflexivity|]. rewrite in_ranges_upper.
  destruct (is_upper c); [|reflexivity].
  rewrite (span_ext _ is_name_char) by (intros; apply in_ranges_name).
  destruct (span is_name_char s); reflexivity.
Qed.

Lemma lo_word_eq s :
  map_index0 (re_matches re_lo_name) s =
  match s with
  | c :: s' => if is_lower c
               then let '(a, b) := span is_name_char s' in Ok b (c :: a) else Err
  | [] => Err
  end.
Proof.
  unfold map_index0, re_lo_name. rewrite re_first_rest.
  destruct s as [|c s]; [reflexivity|]. rewrite in_ranges_lower.
  destruct (is_lower c); [|reflexivity].
  rewrite (span_ext _ is_name_char) by (intros; apply in_ranges_name).
  destruct (span is_name_char s); reflexivity.
Qed.

Lemma lo_name_eq s :
  lo_name s =
  match s with
  | c :: s' => if (c =? C "_")%N then Ok s' (L "_")
               else if is_lower c
               then let '(a, b) := span is_name_char s' in
                    if mem_str (c :: a) reserved_words then Err else Ok b (c :: a)
               else Err
  | [] => Err
  end.
Proof.
  unfold lo_name, alt, map_res. rewrite lo_word_eq.
  destruct s as [|c s]; [reflexivity|].
  unfold tag, need_more, at_eof. cbn [strip].
  rewrite (N.eqb_sym (C "_") c). destruct (c =? C "_")%N; [reflexivity|].
  destruct (is_lower c); [|reflexivity].
  destruct (span is_name_char s) as [a b]. rewrite reserved_words_eq.
  destruct (mem_str (c :: a) reserved_words); reflexivity.
Qed.

Lemma type_variable_eq s :
  type_variable s =
  match s with
  | c :: s' => if is_lower c
               then let '(a, b) := span is_tyvar_char s' in
                    Ok b (Ast.TypeVariable (c :: a)) else Err
  | [] => Err
  end.
Proof.
  unfold type_variable, map_, map_index0, re_type_variable. rewrite re_first_rest.
  destruct s as [|c s]; [reflexivity|]. rewrite in_ranges_lower.
  destruct (is_lower c); [|reflexivity].
  rewrite (span_ext _ is_tyvar_char) by (intros; apply in_ranges_tyvar).
  destruct (span is_tyvar_char s); reflexivity.
Qed.

Lemma operator_eq s :
  operator s =
  match span is_op_char s with
  | ([], _) => Err
  | (a, b) => if mem_str a reserved_operators then Err else Ok b a
  end.
Proof.
  unfold operator, map_res, map_index0, re_operator. rewrite re_matches_begin.
  rewrite (plus_one_char _ _ _ _ (one_char_class false _)).
  destruct s as [|c s]; [reflexivity|]. cbn beta. rewrite xorb_false_l, in_ranges_op.
  rewrite (span_ext _ is_op_char) by (intros; rewrite xorb_false_l; apply in_ranges_op).
  cbn [span]. destruct (is_op_char c) eqn:Hc; [|reflexivity].
  destruct (span is_op_char s) as [a b] eqn:Hs. cbn [snd].
  rewrite (firstn_span is_op_char (c :: s) (c :: a) b) by (simpl; rewrite Hc, Hs; reflexivity).
  rewrite reserved_operators_eq. destruct (mem_str (c :: a) reserved_operators); reflexivity.
Qed.

(** ** Lines *)

Lemma re_line_eq s : re_matches re_line s =
  let '(a, b) := span not_newline s in Ok b [a].
Proof.
  unfold re_line. rewrite re_matches_begin, (star_one_char _ _ _ _ one_char_dot).
  change (fun c => negb (c =? 10)%N) with not_newline.
  destruct (span not_newline s) as [a b] eqn:Hs. cbn [snd].
  rewrite (firstn_span _ _ _ _ Hs). reflexivity.
Qed.

Lemma comment_line_eq s :
  map_index0 (preceded (tag (L "--")) (re_matches re_line)) s =
  match strip (L "--") s with
  | Some s' => let '(a, b) := span not_newline s' in Ok b a
  | None => Err
  end.
Proof.
  unfold map_index0, preceded, bind, tag, need_more, at_eof.
  destruct (strip (L "--") s) as [s'|]; [|reflexivity].
  rewrite re_line_eq. destruct (span not_newline s'). reflexivity.
Qed.

Lemma single_line_comment_eq s :
  single_line_comment s =
  match strip (L "--") s with
  | Some s' => let '(a, b) := span not_newline s' in Ok b a
  | None => Err
  end.
Proof. apply comment_line_eq. Qed.

(** ** Strings *)

(** The longest run of two-character escapes (two backslashes; backslash,
    quote) and of characters other than quote and line feed. *)
Fixpoint str_span (s : str) : str * str :=
  match s with
  | [] => ([], [])
  | c :: s1 =>
      if (c =? backslash)%N then
        match s1 with
        | d :: s2 => if (d =? backslash)%N || (d =? quote)%N
                     then let '(a, b) := str_span s2 in (c :: d :: a, b)
                     else let '(a, b) := str_span s1 in (c :: a, b)
        | [] => ([c], [])
        end
      else if (c =? quote)%N || (c =? newline)%N then ([], s)
      else let '(a, b) := str_span s1 in (c :: a, b)
  end.

Lemma str_span_app_n n : forall s a b, length s <= n -> str_span s = (a, b) -> s = a ++ b.
Proof.
  induction n as [|n IH]; intros s a b Hl; destruct s as [|c s1];
    try (intros [= <- <-]; reflexivity); [simpl in Hl; lia|].
  cbn [str_span]. simpl in Hl. destruct (c =? backslash)%N.
  - destruct s1 as [|d s2]; [intros [= <- <-]; reflexivity|].
    destruct ((d =? backslash) || (d =? quote))%N.
    + destruct (str_span s2) as [x y] eqn:Hs. intros [= <- <-].
      simpl. do 2 f_equal. apply IH; [simpl in Hl; lia|exact Hs].
    + destruct (str_span (d :: s2)) as [x y] eqn:Hs. intros [= <- <-].
      rewrite (IH (d :: s2) x y); [reflexivity|lia|exact Hs].
  - destruct ((c =? quote) || (c =? newline))%N; [intros [= <- <-]; reflexivity|].
    destruct (str_span s1) as [x y] eqn:Hs. intros [= <- <-].
    simpl. f_equal. apply IH; [lia|exact Hs].
Qed.

Lemma str_span_app s a b : str_span s = (a, b) -> s = a ++ b.
Proof. apply (str_span_app_n (length s)). lia. Qed.

Lemma in_ranges_one c d : in_ranges c [(d, d)] = (c =? d)%N.
Proof. unfold in_ranges. cbn [existsb]. rewrite eq_range. apply orb_false_r. Qed.

Lemma star_string z s :
  re_match (RStar (RAlt (RSeq (RClass false [(92, 92)%N]) (RClass false [(92, 92)%N]))
           (RAlt (RSeq (RClass false [(92, 92)%N]) (RClass false [(34, 34)%N]))
                 (RClass true [(34, 34)%N; (10, 10)%N])))) (fun _ s' => Some s') z s
  = Some (snd (str_span s)).
Proof.
  cbn [re_match].
  set (star := fix star (n : nat) (z : bool) (s : str) : option str := _).
  assert (Hg : forall n z s, length s <= n -> star n z s = Some (snd (str_span s))).
  { induction n as [|n IH]; intros z0 s0 Hl.
    - destruct s0; [reflexivity|simpl in Hl; lia].
    - unfold star; fold star. destruct s0 as [|c s1]; [reflexivity|].
      rewrite !xorb_false_l, xorb_true_l, !in_ranges_one.
      replace (in_ranges c [(34, 34); (10, 10)]%N) with ((c =? quote) || (c =? newline))%N
        by (unfold in_ranges; cbn [existsb]; rewrite !eq_range, orb_false_r; reflexivity).
      assert (Hlt1 : length s1 <? length (c :: s1) = true) by (apply Nat.ltb_lt; cbn [length]; lia).
      rewrite Hlt1. simpl in Hl.
      cbn [str_span]. change 92%N with backslash.
      destruct (N.eqb_spec c backslash) as [->|Hc].
      + destruct s1 as [|d s2].
        * cbn [str_span]. replace ((backslash =? quote) || (backslash =? newline))%N with false
            by reflexivity. cbn [negb]. rewrite (IH false []) by (simpl; lia). reflexivity.
        * rewrite !xorb_false_l, !in_ranges_one. change 92%N with backslash. change 34%N with quote.
          assert (Hlt2 : length s2 <? length (backslash :: d :: s2) = true)
            by (clear; apply Nat.ltb_lt; simpl; lia).
          rewrite Hlt2. simpl in Hl.
          replace ((backslash =? quote) || (backslash =? newline))%N with false by reflexivity.
          cbn [negb].
          destruct (d =? backslash)%N eqn:Hd1; cbn [orb].
          -- rewrite IH by lia. destruct (str_span s2); reflexivity.
          -- destruct (d =? quote)%N eqn:Hd2.
             ++ rewrite IH by lia. destruct (str_span s2); reflexivity.
             ++ rewrite IH by (simpl; lia). destruct (str_span (d :: s2)); reflexivity.
      + destruct ((c =? quote) || (c =? newline))%N; cbn [negb]; [reflexivity|].
        rewrite IH by lia. destruct (str_span s1); reflexivity. }
  apply Hg. lia.
Qed.

Lemma single_string_eq s :
  single_string s =
  match s with
  | c :: s' => if (c =? quote)%N
               then let '(a, b) := str_span s' in
                    match b with
                    | d :: r => if (d =? quote)%N then Ok r a else Err
                    | [] => Err
                    end
               else Err
  | [] => Err
  end.
Proof.
  unfold single_string, map_index0, delimited, bind, char_, need_more, at_eof, re_single_string.
  destruct s as [|c s]; [reflexivity|]. change 34%N with quote.
  destruct (c =? quote)%N; [|reflexivity].
  rewrite re_matches_begin, star_string.
  destruct (str_span s) as [a b] eqn:Hs. cbn [snd].
  destruct b as [|d b]; [reflexivity|]. destruct (d =? quote)%N; [|reflexivity].
  unfold ret. f_equal. apply str_span_app in Hs. subst s. rewrite app_length.
  replace (length a + length (d :: b) - length (d :: b)) with (length a) by lia.
  rewrite firstn_app, firstn_all, Nat.sub_diag. apply app_nil_r.
Qed.

Definition not_quote (c : char) : bool := negb (c =? quote)%N.

Lemma multi_string_eq s :
  multi_string s =
  match strip [quote; quote; quote] s with
  | Some s' => let '(a, b) := span not_quote s' in
               match strip [quote; quote; quote] b with
               | Some r => Ok r a
               | None => Err
               end
  | None => Err
  end.
Proof.
  unfold multi_string, map_index0, delimited, bind, tag, need_more, at_eof, re_multi_string.
  change [34; 34; 34]%N with [quote; quote; quote].
  destruct (strip [quote; quote; quote] s) as [s'|]; [|reflexivity].
  rewrite re_matches_begin, (star_one_char _ _ _ _ (one_char_class true _)).
  rewrite (span_ext _ not_quote)
    by (intros; rewrite in_ranges_one, xorb_true_l; reflexivity).
  destruct (span not_quote s') as [a b] eqn:Hs. cbn [snd].
  rewrite (firstn_span _ _ _ _ Hs).
  destruct (strip [quote; quote; quote] b); reflexivity.
Qed.
