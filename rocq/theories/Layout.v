(** * The layout parser, characterised (src/ast/helpers.rs:66-175) *)
From Verif Require Import Base Nom Regex Good Spec Helpers Types Expr Stmt Lexers Total.

Lemma has_newline_app a b : has_newline (a ++ b) = has_newline a || has_newline b.
Proof. apply existsb_app. Qed.

Lemma all_spaces_no_newline t : all_spaces t = true -> has_newline t = false.
Proof.
  induction t as [|c t IH]; intros H; [reflexivity|]. simpl in *.
  apply andb_true_iff in H as [H1 H2]. apply N.eqb_eq in H1. subst c.
  rewrite IH by exact H2. reflexivity.
Qed.

Lemma not_newline_no_newline t : forallb not_newline t = true <-> has_newline t = false.
Proof.
  induction t as [|c t IH]; [split; reflexivity|]. simpl. unfold not_newline at 1.
  destruct (c =? newline)%N; simpl; [split; discriminate|exact IH].
Qed.

Lemma last_line_app_newline a b : has_newline b = true -> last_line (a ++ b) = last_line b.
Proof.
  intros H. induction a as [|c a IH]; [reflexivity|].
  cbn [app last_line]. rewrite has_newline_app, H, orb_true_r. exact IH.
Qed.

Lemma last_line_no_newline t : has_newline t = false -> last_line t = t.
Proof.
  induction t as [|c t IH]; intros H; [reflexivity|]. cbn [last_line].
  simpl in H. apply orb_false_iff in H as [H1 H2]. fold has_newline in H2.
  change (existsb (fun c => (c =? newline)%N) t) with (has_newline t) in H2.
  rewrite H2, H1. reflexivity.
Qed.

Lemma last_line_app_plain a b :
  has_newline b = false -> last_line (a ++ b) = last_line a ++ b.
Proof.
  intros H. induction a as [|c a IH]; cbn [app last_line].
  - apply last_line_no_newline, H.
  - rewrite has_newline_app, H, orb_false_r. destruct (has_newline a); [exact IH|].
    destruct (c =? newline)%N; reflexivity.
Qed.

Lemma all_spaces_app a b : all_spaces (a ++ b) = all_spaces a && all_spaces b.
Proof. apply forallb_app. Qed.

Lemma last_line_newline_spaces sp :
  all_spaces sp = true -> last_line (newline :: sp) = sp.
Proof.
  intros H. cbn [last_line]. rewrite (all_spaces_no_newline _ H). reflexivity.
Qed.

(** The text after the trivia does not depend on what precedes the last line
    feed. *)
Lemma width_app i a b :
  has_newline b = true \/ all_spaces b = false -> width i (a ++ b) = width i b.
Proof.
  intros [H|H]; unfold width.
  - rewrite last_line_app_newline, has_newline_app, H, orb_true_r by exact H. reflexivity.
  - destruct (has_newline b) eqn:Hn.
    + rewrite last_line_app_newline, has_newline_app, Hn, orb_true_r by exact Hn. reflexivity.
    + rewrite last_line_app_plain, all_spaces_app, H, andb_false_r by exact Hn.
      rewrite last_line_no_newline, H by exact Hn. reflexivity.
Qed.

(** ** Trivia *)

Lemma span_spaces_trivia s a b :
  span (fun c => (c =? space)%N) s = (a, b) ->
  all_spaces a = true /\ match b with c :: _ => c <> space | [] => True end.
Proof.
  intros H. apply span_longest in H as (_ & H1 & H2). split; [exact H1|].
  destruct b as [|c b]; [exact I|]. apply N.eqb_neq in H2. exact H2.
Qed.

Lemma trivia_app_spaces a t : all_spaces a = true -> trivia t -> trivia (a ++ t).
Proof.
  induction a as [|c a IH]; intros H Ht; [exact Ht|]. simpl in *.
  apply andb_true_iff in H as [H1 H2]. apply N.eqb_eq in H1. subst c.
  apply trivia_space, IH; assumption.
Qed.

Lemma trivia_spaces a : all_spaces a = true -> trivia a.
Proof. intros H. rewrite <- (app_nil_r a). apply trivia_app_spaces; [exact H|constructor]. Qed.

(** ** One item *)

Definition is_sp (c : char) : bool := (c =? space)%N.

Lemma spaces_eq s : spaces s = match span is_sp s with ([], _) => Err | (a, b) => Ok b a end.
Proof.
  unfold spaces, is_a, take_while1.
  rewrite (span_ext _ is_sp) by (intros c; unfold mem_char, is_sp; simpl; apply orb_false_r).
  reflexivity.
Qed.

Lemma spaces0_eq s : spaces0 s = let '(a, b) := span is_sp s in Ok b a.
Proof.
  unfold spaces0, map_, opt. change (is_a [32%N]) with spaces. rewrite spaces_eq.
  destruct (span is_sp s) as [a b] eqn:H. destruct a; [|reflexivity].
  apply span_app in H. simpl in H. subst. reflexivity.
Qed.

Definition nl_line : parser (spaces_content * N) :=
  preceded (char_ 10%N)
        (map_ (fun s => (NewLineAndSpaces, len_u32 s)) spaces0
         <|> map_ (fun _ => (CommentC, 0%N)) single_line_comment).

Lemma nl_line_eq s :
  nl_line s = match s with
              | c :: s' => if (c =? newline)%N
                           then let '(a, b) := span is_sp s' in Ok b (NewLineAndSpaces, len_u32 a)
                           else Err
              | [] => Err
              end.
Proof.
  unfold nl_line, preceded, bind, char_, need_more, at_eof. destruct s as [|c s]; [reflexivity|].
  change 10%N with newline. destruct (c =? newline)%N; [|reflexivity].
  unfold alt, map_. rewrite spaces0_eq. destruct (span is_sp s). reflexivity.
Qed.

Lemma spaces_item_eq i s :
  spaces_item i s =
  match spaces s with
  | Ok r _ => Ok r [(Spaces, i)]
  | Err => match single_line_comment s with
           | Ok r _ => Ok r [(CommentC, 0%N)]
           | Err => many1 nl_line s
           | Abort w => Abort w
           end
  | Abort w => Abort w
  end.
Proof.
  unfold spaces_item, alt, value, map_. fold nl_line.
  destruct (spaces s); [reflexivity| |reflexivity].
  destruct (single_line_comment s); reflexivity.
Qed.

(** What a successful item says about the text it consumed. *)
Definition good_items (i : N) (t : str) (v : list (spaces_content * N)) : Prop :=
  v <> [] /\
  existsb (fun '(c, _) => is_newline_content c) v = has_newline t /\
  snd (last v (Spaces, 0%N)) = width i t.

Definition item_res (i : N) (s : str) (x : res (list (spaces_content * N))) : Prop :=
  match x with
  | Ok r v => exists t, s = t ++ r /\ t <> [] /\ good_items i t v /\
      (* what may follow, and how it extends trivia *)
      (forall t', trivia t' -> (exists r', r = t' ++ r') ->
                  (all_spaces t' = false \/ t' = []) ->
                  trivia (t ++ t')) /\
      (all_spaces (last_line t) = true \/ line_end r) /\
      match r with c :: _ => c = newline -> has_newline t = false | [] => True end /\
      match r with c :: _ => c <> space | [] => True end
  | Err => no_trivia s
  | Abort _ => False
  end.

Lemma nl_loop i n : forall s, length s < n ->
  exists t r v, s = t ++ r /\ many1_loop n nl_line s = Ok r v /\
    match r with c :: _ => c <> newline /\ (t <> [] -> c <> space) | [] => True end /\
    (t = [] -> v = []) /\
    (t <> [] -> good_items i t v /\ all_spaces (last_line t) = true /\ has_newline t = true) /\
    (forall t', trivia t' -> trivia (t ++ t')).
Proof.
  induction n as [|n IH]; intros s Hn; [lia|]. cbn [many1_loop]. rewrite nl_line_eq.
  destruct s as [|c s].
  { exists [], [], []. repeat split; auto; congruence. }
  destruct (N.eqb_spec c newline) as [->|Hc].
  2:{ exists [], (c :: s), []. repeat split; auto; congruence. }
  destruct (span is_sp s) as [a b] eqn:Hs.
  pose proof (span_len _ _ _ _ Hs) as Hl. pose proof (span_app _ _ _ _ Hs) as ->.
  destruct (span_spaces_trivia _ _ _ Hs) as [Ha Hb].
  simpl in Hn. replace (length b =? length (newline :: a ++ b)) with false
    by (symmetry; apply Nat.eqb_neq; simpl; rewrite app_length; lia).
  destruct (IH b) as (t & r & v & He & Hm & Hr & Hv0 & Hv & Ht); [rewrite app_length in Hn; lia|].
  rewrite Hm. exists (newline :: a ++ t), r, ((NewLineAndSpaces, len_u32 a) :: v).
  split; [simpl; rewrite He, app_assoc; reflexivity|]. split; [reflexivity|].
  split.
  { destruct r as [|d r]; [exact I|]. destruct Hr as [Hr1 Hr2]. split; [exact Hr1|].
    intros _. destruct t as [|e t]; [|apply Hr2; discriminate].
    simpl in He. subst b. exact Hb. }
  split; [discriminate|]. split.
  - intros _. destruct t as [|d t].
    + rewrite (Hv0 eq_refl), app_nil_r. split; [|split].
      * split; [discriminate|]. split.
        { reflexivity. }
        unfold width. rewrite last_line_newline_spaces, Ha by exact Ha. reflexivity.
      * rewrite last_line_newline_spaces by exact Ha. exact Ha.
      * reflexivity.
    + destruct Hv as (Hg & Hsp & Hnl); [discriminate|].
      destruct Hg as (Hne & Hex & Hw).
      change (newline :: a ++ d :: t) with ((newline :: a) ++ d :: t).
      split; [|split].
      * split; [discriminate|]. split.
        { rewrite has_newline_app, Hnl, orb_true_r. reflexivity. }
        destruct v as [|x v]; [congruence|]. rewrite width_app by auto. exact Hw.
      * rewrite last_line_app_newline by exact Hnl. exact Hsp.
      * rewrite has_newline_app, Hnl, orb_true_r. reflexivity.
  - intros t' Ht'. simpl. apply trivia_newline. rewrite <- app_assoc.
    apply trivia_app_spaces; [exact Ha|]. apply Ht, Ht'.
Qed.

Lemma item_spec i s : item_res i s (spaces_item i s).
Proof.
  rewrite spaces_item_eq, spaces_eq.
  destruct (span is_sp s) as [a b] eqn:Hs.
  pose proof (span_app _ _ _ _ Hs) as Hab. destruct (span_spaces_trivia _ _ _ Hs) as [Ha Hb].
  destruct a as [|c a].
  - simpl in Hab. subst b. clear Hs Ha.
    rewrite single_line_comment_eq. destruct (strip (L "--") s) as [s'|] eqn:Ht.
    + apply strip_app in Ht. subst s.
      destruct (span not_newline s') as [x y] eqn:Hs. apply span_longest in Hs as (-> & Hx & Hy).
      exists (L "--" ++ x). split; [rewrite <- app_assoc; reflexivity|]. split; [discriminate|].
      assert (Hnn : has_newline (L "--" ++ x) = false).
      { simpl. apply not_newline_no_newline in Hx. rewrite Hx. reflexivity. }
      assert (Hle : line_end y).
      { destruct y as [|d y]; [exact I|]. unfold not_newline in Hy. simpl.
        apply negb_false_iff, N.eqb_eq in Hy. exact Hy. }
      split.
      { split; [discriminate|]. split; [rewrite Hnn; reflexivity|].
        unfold width. rewrite last_line_no_newline by exact Hnn. reflexivity. }
      split; [|split; [|split]].
      * intros t' Ht' [r' Hr'] _. rewrite <- app_assoc. apply trivia_comment; [exact Hx| |exact Ht'].
        subst y. destruct t' as [|d t']; [exact I|]. simpl in Hle. exact Hle.
      * right. exact Hle.
      * destruct y as [|d y]; [exact I|]. intros _. exact Hnn.
      * destruct y as [|d y]; [exact I|]. simpl in Hle. subst d. discriminate.
    + unfold many1. destruct s as [|c s]; [rewrite nl_line_eq; exact I|].
      rewrite nl_line_eq. destruct (N.eqb_spec c newline) as [->|Hc].
      * pose proof (nl_loop i (S (length (newline :: s))) (newline :: s) ltac:(lia))
          as (t & r & v & He & Hm & Hr & Hv0 & Hv & Htr).
        cbn [many1_loop] in Hm. rewrite nl_line_eq in Hm.
        change (newline =? newline)%N with true in Hm. cbn beta iota in Hm |- *.
        destruct (span is_sp s) as [x y] eqn:Hsp. pose proof (span_len _ _ _ _ Hsp) as Hl.
        replace (length y =? length (newline :: s)) with false in Hm
          by (symmetry; apply Nat.eqb_neq; simpl; lia).
        destruct (nl_loop i (S (length y)) y ltac:(lia))
          as (t2 & r2 & v2 & He2 & Hm2 & Hr2 & _).
        destruct (nl_loop i (length (newline :: s)) y ltac:(simpl; lia))
          as (t3 & r3 & v3 & He3 & Hm3 & Hr3 & _).
        assert (Hsame : many1_loop (S (length y)) nl_line y = many1_loop (length (newline :: s)) nl_line y).
        { assert (Hg : forall m k z, length z < m -> length z < k ->
                    many1_loop m nl_line z = many1_loop k nl_line z).
          { clear. induction m as [|m IH]; intros k z Hm Hk; [lia|].
            destruct k as [|k]; [lia|]. cbn [many1_loop]. rewrite nl_line_eq.
            destruct z as [|c z]; [reflexivity|]. destruct (c =? newline)%N; [|reflexivity].
            destruct (span is_sp z) as [x y] eqn:Hsp. pose proof (span_len _ _ _ _ Hsp) as Hl.
            simpl in Hm, Hk. destruct (length y =? length (c :: z)); [reflexivity|].
            rewrite (IH k y) by lia. reflexivity. }
          apply Hg; [lia|simpl; lia]. }
        rewrite Hsame, Hm3. rewrite Hm3 in Hm. injection Hm as <- <-.
        assert (Hne : t <> []).
        { intros ->. simpl in He. rewrite <- He in Hr. destruct Hr as [Hr _]. apply Hr; reflexivity. }
        destruct (Hv Hne) as (Hg & Hlast & Hnl).
        exists t. split; [exact He|]. split; [exact Hne|]. split; [exact Hg|].
        split; [|split; [|split]].
        -- intros t' Ht' _ _. apply Htr, Ht'.
        -- left; exact Hlast.
        -- destruct r3 as [|d r3']; [exact I|]. intros ->. destruct Hr as [Hr _]. congruence.
        -- destruct r3 as [|d r3']; [exact I|]. destruct Hr as [_ Hr]. auto.
      * simpl. split; [exact Hb|]. split; [exact Hc|]. intros [-> [r'' ->]]. discriminate Ht.
  - simpl. exists (c :: a). split; [exact Hab|]. split; [discriminate|].
    pose proof (all_spaces_no_newline _ Ha) as Hnn.
    split; [|split; [|split; [|split]]].
    + split; [discriminate|]. split; [rewrite Hnn; reflexivity|].
      unfold width. rewrite last_line_no_newline, Ha, Hnn by exact Hnn. reflexivity.
    + intros t' Ht' _ _. apply trivia_app_spaces; [exact Ha|exact Ht'].
    + left. rewrite last_line_no_newline by exact Hnn. exact Ha.
    + destruct b as [|d b]; [exact I|]. intros _. exact Hnn.
    + destruct b as [|d b]; [exact I|]. exact Hb.
Qed.

(** ** The whole run *)

Definition run_items (i : N) (t : str) (v : list (list (spaces_content * N))) : Prop :=
  (t = [] -> v = []) /\
  (t <> [] -> v <> [] /\
     existsb (existsb (fun '(c, _) => is_newline_content c)) v = has_newline t /\
     snd (last (last v []) (Spaces, 0%N)) = width i t).

Lemma trivia_head t : trivia t -> no_trivia t -> t = [].
Proof.
  intros Ht Hn. destruct Ht; [reflexivity| | |]; simpl in Hn; destruct Hn as (H1 & H2 & H3).
  - congruence.
  - congruence.
  - exfalso. apply H3. split; [reflexivity|]. eexists; reflexivity.
Qed.

Lemma run_cons i t1 v1 t2 v2 :
  t1 <> [] -> good_items i t1 v1 -> run_items i t2 v2 ->
  t2 = [] \/ has_newline t2 = true \/ all_spaces t2 = false ->
  run_items i (t1 ++ t2) (v1 :: v2).
Proof.
  intros Hne (Hv & Hex & Hw) (H0 & H1) Hc. split.
  { intros H. apply app_eq_nil in H as [H _]. congruence. }
  intros _. split; [discriminate|]. destruct t2 as [|c t2].
  - rewrite (H0 eq_refl), app_nil_r. cbn [existsb last]. rewrite orb_false_r. auto.
  - destruct H1 as (Hn2 & Hex2 & Hw2); [discriminate|]. split.
    + cbn [existsb]. rewrite Hex, Hex2, has_newline_app. reflexivity.
    + destruct v2 as [|x v2]; [congruence|]. cbn [last].
      rewrite width_app; [exact Hw2|]. destruct Hc as [Hc|Hc]; [discriminate|exact Hc].
Qed.

Lemma items_loop i n : forall s, length s < n ->
  exists t r v, trivia_run s t r /\ many1_loop n (spaces_item i) s = Ok r v /\ run_items i t v.
Proof.
  induction n as [|n IH]; intros s Hn; [lia|]. cbn [many1_loop].
  pose proof (item_spec i s) as Hi. destruct (spaces_item i s) as [r1 v1| |w]; simpl in Hi.
  - destruct Hi as (t1 & -> & Hne & Hg & Htr & Hll & Hnl & Hsp).
    assert (Hlt : 0 < length t1) by (destruct t1; [congruence|simpl; lia]).
    rewrite app_length in *.
    replace (length r1 =? length t1 + length r1) with false by (symmetry; apply Nat.eqb_neq; lia).
    destruct (IH r1) as (t & r & v & (He & Ht & Hnt & Hlast) & Hm & Hr); [lia|].
    rewrite Hm. exists (t1 ++ t), r, (v1 :: v).
    assert (Hc : t = [] \/ has_newline t = true \/ all_spaces t = false).
    { destruct t as [|c t']; [left; reflexivity|right].
      destruct (all_spaces (c :: t')) eqn:Has; [|right; reflexivity].
      exfalso. subst r1. simpl in Hsp. simpl in Has. apply andb_true_iff in Has as [Has _].
      apply N.eqb_eq in Has. congruence. }
    split; [|split; [reflexivity|apply run_cons; assumption]].
    split; [subst r1; apply app_assoc|]. split.
    { apply Htr; [exact Ht|exists r; exact He|].
      destruct Hc as [Hc|[Hc|Hc]]; [right; exact Hc| |left; exact Hc].
      left. destruct (all_spaces t) eqn:Has; [|reflexivity].
      apply all_spaces_no_newline in Has. congruence. }
    split; [exact Hnt|]. destruct t as [|c t'].
    + rewrite app_nil_r. simpl in He. subst r1. destruct Hll as [Hll|Hll]; [left; exact Hll|].
      right. destruct r as [|d r']; [reflexivity|]. simpl in Hll. destruct Hnt as (_ & Hnt & _). congruence.
    + destruct Hlast as [Hlast|Hlast]; [|right; exact Hlast].
      destruct (has_newline (c :: t')) eqn:Hn'.
      * left. rewrite last_line_app_newline by exact Hn'. exact Hlast.
      * rewrite last_line_no_newline in Hlast by exact Hn'.
        destruct Hc as [Hc|[Hc|Hc]]; [discriminate|congruence|congruence].
  - exists [], s, []. split; [|split; [reflexivity|]].
    + repeat split; auto. constructor.
    + split; [reflexivity|congruence].
  - contradiction.
Qed.

(** Every text has exactly one longest run of trivia. *)
Lemma trivia_run_exists s : exists t r, trivia_run s t r.
Proof.
  destruct (items_loop 0 (S (length s)) s ltac:(lia)) as (t & r & v & H & _). eauto.
Qed.

Lemma trivia_comment_split c1 c2 t1 t2 r1 r2 :
  forallb not_newline c1 = true -> forallb not_newline c2 = true ->
  line_end (t1 ++ r1) -> line_end (t2 ++ r2) ->
  c1 ++ t1 ++ r1 = c2 ++ t2 ++ r2 -> c1 = c2 /\ t1 ++ r1 = t2 ++ r2.
Proof.
  intros H1 H2 L1 L2 He.
  assert (Hs : forall c x, forallb not_newline c = true -> line_end x ->
                 span not_newline (c ++ x) = (c, x)).
  { intros c x Hc Hx. apply span_all; [exact Hc|]. destruct x as [|d x]; [exact I|].
    simpl in Hx. subst d. reflexivity. }
  pose proof (Hs c1 _ H1 L1) as E1. pose proof (Hs c2 _ H2 L2) as E2.
  rewrite He, E2 in E1. injection E1 as -> ->. split; reflexivity.
Qed.

Lemma open_comment_rest c t r :
  forallb not_newline c = true -> line_end t ->
  all_spaces (last_line (L "--" ++ c ++ t)) = true \/ r = [] ->
  line_end (t ++ r) /\ (all_spaces (last_line t) = true \/ r = []).
Proof.
  intros Hc Ht Hl. destruct t as [|d t].
  - rewrite app_nil_r in Hl. destruct Hl as [Hl|Hl].
    + rewrite last_line_no_newline in Hl; [discriminate|].
      simpl. apply not_newline_no_newline in Hc. exact Hc.
    + subst r. split; [exact I|left; reflexivity].
  - simpl in Ht. subst d. split; [reflexivity|].
    destruct Hl as [Hl|Hl]; [left|right; exact Hl].
    change (L "--" ++ c ++ newline :: t) with ((L "--" ++ c) ++ newline :: t) in Hl.
    rewrite last_line_app_newline in Hl by reflexivity. exact Hl.
Qed.

Lemma last_line_cons_spaces c t (r : str) :
  (all_spaces (last_line (c :: t)) = true \/ r = []) ->
  (all_spaces (last_line t) = true \/ r = []).
Proof.
  intros [H|H]; [left|right; exact H]. cbn [last_line] in H.
  destruct (has_newline t) eqn:Hn; [exact H|].
  rewrite last_line_no_newline by exact Hn.
  destruct (c =? newline)%N; [exact H|]. simpl in H. apply andb_true_iff in H. apply H.
Qed.

Lemma trivia_run_unique_n n : forall s t r t' r', length s <= n ->
  trivia_run s t r -> trivia_run s t' r' -> t = t' /\ r = r'.
Proof.
  induction n as [|n IH]; intros s t r t' r' Hn (He & Ht & Hr & Hl) (He' & Ht' & Hr' & Hl').
  - destruct s; [|simpl in Hn; lia]. symmetry in He, He'.
    apply app_eq_nil in He as [-> ->], He' as [-> ->]. auto.
  - destruct Ht as [|t Ht|t Ht|c t Hc Hle Ht].
    + simpl in He. subst s. destruct Ht'; simpl in He'; subst r; simpl in Hr.
      * auto.
      * destruct Hr as (Hr & _); congruence.
      * destruct Hr as (_ & Hr & _); congruence.
      * destruct Hr as (_ & _ & Hr). exfalso; apply Hr. split; [reflexivity|]. eexists; reflexivity.
    + subst s. simpl in He', Hn. destruct Ht' as [|t' Ht'|t' Ht'|c' t' Hc' Hle' Ht'].
      * simpl in He'. subst r'. destruct Hr' as (Hr' & _). congruence.
      * injection He' as He'. destruct (IH (t ++ r) t r t' r') as [-> ->]; auto; [lia| |].
        -- repeat split; auto. eapply last_line_cons_spaces, Hl.
        -- repeat split; auto. eapply last_line_cons_spaces, Hl'.
      * discriminate.
      * discriminate.
    + subst s. simpl in He', Hn. destruct Ht' as [|t' Ht'|t' Ht'|c' t' Hc' Hle' Ht'].
      * simpl in He'. subst r'. destruct Hr' as (_ & Hr' & _). congruence.
      * discriminate.
      * injection He' as He'. destruct (IH (t ++ r) t r t' r') as [-> ->]; auto; [lia| |].
        -- repeat split; auto. eapply last_line_cons_spaces, Hl.
        -- repeat split; auto. eapply last_line_cons_spaces, Hl'.
      * discriminate.
    + subst s. destruct Ht' as [|t' Ht'|t' Ht'|c' t' Hc' Hle' Ht'].
      * simpl in He'. subst r'. destruct Hr' as (_ & _ & Hr').
        exfalso; apply Hr'. split; [reflexivity|]. eexists; reflexivity.
      * discriminate.
      * discriminate.
      * destruct (open_comment_rest c t r Hc Hle Hl) as [Hle1 Hl1].
        destruct (open_comment_rest c' t' r' Hc' Hle' Hl') as [Hle1' Hl1'].
        rewrite <- !app_assoc in He'. apply app_inv_head in He'.
        destruct (trivia_comment_split c c' t t' r r') as [-> He2]; auto.
        rewrite <- !app_assoc, !app_length in Hn. simpl in Hn. try rewrite !app_length in Hn.
        destruct (IH (t ++ r) t r t' r') as [-> ->]; auto.
        -- rewrite app_length; lia.
        -- repeat split; auto.
        -- repeat split; auto.
Qed.

Lemma trivia_run_unique s t r t' r' :
  trivia_run s t r -> trivia_run s t' r' -> t = t' /\ r = r'.
Proof. apply (trivia_run_unique_n (length s)). lia. Qed.

(** ** The layout parser *)

(** The relation asked for. *)
Definition ir_rel (ir : IR) (n i : N) : Prop :=
  match ir with
  | IR_EQ => n = i
  | IR_GT => (n > i)%N
  | IR_GTE => (n >= i)%N
  end.

Definition accepts (i : N) (ir : IR) (t : str) : Prop :=
  has_newline t = true -> ir_rel ir (width i t) i.

Lemma check_indent_spec i ir t v :
  run_items i t v -> t <> [] ->
  (accepts i ir t /\ check_indent i ir v = Some (width i t)) \/
  (~ accepts i ir t /\ check_indent i ir v = None).
Proof.
  intros [_ H] Hne. destruct (H Hne) as (Hv & Hex & Hw). unfold check_indent, accepts.
  destruct (last (last v []) (Spaces, 0%N)) as [x y] eqn:Hl. simpl in Hw. subst y.
  rewrite Hex. destruct (has_newline t).
  - simpl. destruct ir; simpl.
    + destruct (N.eqb_spec (width i t) i); [left|right]; split; auto.
    + destruct (N.ltb_spec i (width i t)); [left|right]; split; auto; try (intros; lia).
    + destruct (N.leb_spec i (width i t)); [left|right]; split; auto; try (intros; lia).
  - left. split; [discriminate|]. destruct ir; reflexivity.
Qed.

Lemma sp_run i ir s t r : trivia_run s t r ->
  (t = [] /\ spaces_or_new_lines_and_indent i ir s = Err) \/
  (t <> [] /\ accepts i ir t /\
     spaces_or_new_lines_and_indent i ir s = Ok r (width i t)) \/
  (t <> [] /\ ~ accepts i ir t /\ spaces_or_new_lines_and_indent i ir s = Err).
Proof.
  intros Hrun. unfold spaces_or_new_lines_and_indent, map_res, many1.
  destruct (items_loop i (S (length s)) s ltac:(lia)) as (t0 & r0 & v0 & Hrun0 & Hm & Hv).
  destruct (trivia_run_unique _ _ _ _ _ Hrun Hrun0) as [<- <-].
  cbn [many1_loop] in Hm. pose proof (item_spec i s) as Hi.
  destruct (spaces_item i s) as [r1 v1| |w]; simpl in Hi; [|left|contradiction].
  - right. destruct Hi as (t1 & -> & Hne & _).
    assert (Hlt : 0 < length t1) by (destruct t1; [congruence|simpl; lia]).
    rewrite app_length in Hm.
    replace (length r1 =? length t1 + length r1) with false in Hm
      by (symmetry; apply Nat.eqb_neq; lia).
    assert (Hsame : forall m k z, length z < m -> length z < k ->
              many1_loop m (spaces_item i) z = many1_loop k (spaces_item i) z).
    { clear. induction m as [|m IH]; intros k z Hm Hk; [lia|]. destruct k as [|k]; [lia|].
      cbn [many1_loop]. pose proof (item_spec i z) as Hi.
      destruct (spaces_item i z) as [r1 v1| |w]; [|reflexivity|reflexivity].
      destruct Hi as (t1 & -> & Hne & _).
      assert (Hlt : 0 < length t1) by (destruct t1; [congruence|simpl; lia]).
      rewrite app_length in *. destruct (length r1 =? length t1 + length r1); [reflexivity|].
      rewrite (IH k r1) by lia. reflexivity. }
    rewrite (Hsame (S (length r1)) (length t1 + length r1) r1) by lia.
    destruct (many1_loop (length t1 + length r1) (spaces_item i) r1) as [r2 v2| |w];
      try discriminate. injection Hm as <- <-.
    assert (Htne : t <> []).
    { intros ->. destruct Hv as [Hv _]. discriminate (Hv eq_refl). }
    destruct (check_indent_spec i ir t _ Hv Htne) as [[Ha Hc]|[Ha Hc]].
    + left. split; [exact Htne|]. split; [exact Ha|]. rewrite Hc. reflexivity.
    + right. split; [exact Htne|]. split; [exact Ha|]. rewrite Hc. reflexivity.
  - injection Hm as <- <-. split; [|reflexivity].
    destruct t as [|c t]; [reflexivity|]. destruct Hv as [_ Hv].
    destruct Hv as [Hv _]; [discriminate|]. congruence.
Qed.

(** Exact behaviour of the layout parser. *)
Lemma sp_iff i ir s r n :
  spaces_or_new_lines_and_indent i ir s = Ok r n <->
  exists t, trivia_run s t r /\ t <> [] /\ accepts i ir t /\ n = width i t.
Proof.
  split.
  - intros H. destruct (trivia_run_exists s) as (t & r' & Hrun).
    destruct (sp_run i ir s t r' Hrun) as [[_ H']|[(Hne & Ha & H')|(_ & _ & H')]]; try congruence.
    rewrite H' in H. injection H as <- <-. exists t. auto.
  - intros (t & Hrun & Hne & Ha & ->).
    destruct (sp_run i ir s t r Hrun) as [[Hx _]|[(_ & _ & H')|(_ & Hx & _)]]; try congruence.
Qed.
