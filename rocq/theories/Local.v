(** * An error in a definition is never repaired by the text after it *)
From Verif Require Import Base Nom Regex Ast Good Spec Helpers Types Expr Stmt Lexers Total Layout Seqs Grammar Follow Sound SoundE SoundS LexProps Heads Rules
  Render CompleteT CompleteE CompleteX CompleteS Round Language Chains Exact Keywords Decls Brackets TypesExact Solution Errors Front Cut CutS CutFile Trail
  TwoRuns Names Rename RenameSim RenameAll Whole Steps Indep IndepAll IndepTop.

(** ** A whole text holds no declarations *)
Definition outer_words : list str := [L "module"; L "where"; L "import"; L "exposing"; L "type"; L "alias"; L "port"].
Lemma outer_name k : In k outer_words -> forallb is_name_char k = true /\ k <> [] /\ In k reserved_words /\ ~ In k inner_words /\ k <> L "let" /\ k <> L "in".
Proof.
  intros Hk. repeat (destruct Hk as [<-|Hk]; [split; [reflexivity|]; split; [discriminate|]; split; [cbn; tauto|]; split;
    [intros H; repeat (destruct H as [H|H]; [discriminate H|]); destruct H|split; discriminate]|]). destruct Hk.
Qed.
Lemma whole_no_outer b d k w : In k outer_words -> ends is_name_char w -> ~ whole b d (k ++ w).
Proof.
  intros Hk Hw H. destruct (outer_name k Hk) as (H1 & H2 & H3 & H4 & H5 & H6). destruct k as [|c k]; [congruence|].
  cbn [forallb] in H1. pose proof H1 as H1'. apply andb_true_iff in H1 as [Hc _]. apply class_name in Hc. apply inv_name in H; [|exact Hc].
  destruct H as (n & w' & E & Hn & Hn2 & Hw' & Hcase). change (c :: k ++ w) with ((c :: k) ++ w) in E.
  assert (n = c :: k /\ w' = w) as [-> ->] by (apply (run_unique is_name_char); auto).
  destruct Hcase as [(Hr & _)|[(Hr & _)|[(Hr & _)|(Hr & _)]]]; contradiction.
Qed.
Lemma outer_newline k : In k outer_words -> ~ In newline k.
Proof. intros Hk. apply (no_newline_class is_name_char); [reflexivity|]. apply (outer_name k Hk). Qed.
Lemma no_outer b d k x w v : In k outer_words -> ends is_name_char x -> whole b d w -> w ++ newline :: v = k ++ x -> False.
Proof.
  intros Hk Hx Hw E. symmetry in E. destruct (prefix_in _ _ _ _ E (outer_newline k Hk)) as (w2 & -> & ->).
  apply (whole_no_outer b d k w2 Hk); [|exact Hw]. destruct w2; [exact I|exact Hx].
Qed.
Lemma spaces1_ends b y : spaces1 b -> ends is_name_char (b ++ y).
Proof. intros [Hne Hb]. destruct b as [|a b]; [congruence|]. apply andb_true_iff in Hb as [Hb _]. apply N.eqb_eq in Hb. subst a. reflexivity. Qed.
Lemma lay0_ends t y : lay0 t -> ends is_name_char (t ++ y).
Proof. intros (j & Ht & _ & Hne & _). destruct Ht; [congruence|reflexivity..]. Qed.

Definition no_infix (w : str) : Prop := ~ exists a b, w = a ++ L "infix" ++ b.
Lemma no_infix_tail a w : no_infix (a ++ w) -> no_infix w.
Proof. intros H (x & y & ->). apply H. exists (a ++ x), y. rewrite <- app_assoc. reflexivity. Qed.

Lemma no_effect b w v v0 t x : new_start v v0 -> whole b 0 w -> lay0 t -> ends is_name_char x ->
  w ++ newline :: v = L "effect" ++ t ++ L "module" ++ x -> False.
Proof.
  intros (Hv & _) Hw Ht Hx E. symmetry in E.
  assert (He : ~ In newline (L "effect")) by (intros H; repeat (destruct H as [H|H]; [discriminate H|]); destruct H).
  destruct (prefix_in _ _ _ _ E He) as (w2 & -> & E2).
  assert (Hw2 : whole b 0 w2).
  { change (L "effect" ++ w2) with (C "e" :: L "ffect" ++ w2) in Hw. apply inv_name in Hw; [|reflexivity].
    destruct Hw as (n & w' & E' & Hn & Hn2 & Hw' & Hcase). change (C "e" :: L "ffect" ++ w2) with (L "effect" ++ w2) in E'.
    assert (L "effect" = n /\ w2 = w') as [<- <-].
    { apply (run_unique is_name_char); auto. pose proof (lay0_ends t (L "module" ++ x) Ht) as H. rewrite E2 in H. destruct w2; [exact I|exact H]. }
    destruct Hcase as [(_ & _ & Hr)|[(Hr & _)|[(Hr & _)|(Hr & _)]]]; [exact Hr| |discriminate Hr..].
    repeat (destruct Hr as [Hr|Hr]; [discriminate Hr|]). destruct Hr. }
  destruct Ht as (j & H1 & H2 & H3 & H4 & H5). destruct (split_two _ _ _ _ E2) as [(w3 & -> & E3)|(t2 & -> & E3)].
  - apply drop_trivia in Hw2; [|exact H1|left; exact H2]. eapply (no_outer b 0 (L "module") x w3 v); [cbn; tauto|exact Hx|exact Hw2|]. symmetry. exact E3.
  - assert (Hnt : no_trivia (L "module" ++ x)) by (repeat split; try discriminate; intros [K _]; discriminate K).
    assert (Ht2 : trivia_run v t2 (L "module" ++ x)).
    { split; [exact E3|]. split; [apply (trivia_line w2 t2 [] H1); constructor|]. split; [exact Hnt|]. left.
      unfold closed in H2. rewrite (last_line_app_newline w2 (newline :: t2)) in H2 by reflexivity. change (newline :: t2) with ([newline] ++ t2) in H2.
      destruct (has_newline t2) eqn:En; [rewrite (last_line_app_newline [newline] t2 En) in H2; exact H2|].
      rewrite (last_line_app_plain [newline] t2 En) in H2. rewrite (last_line_no_newline t2 En). exact H2. }
    pose proof (apart_no_trivia v v0 Hv) as Hn0. destruct Hv as (_ & _ & _ & z & Ez & Hz & Hlast).
    assert (Hz2 : trivia_run v z v0).
    { split; [exact Ez|]. split; [exact Hz|]. split; [exact Hn0|]. destruct Hlast as [Hlast|[Hlast _]]; [left|right; exact Hlast].
      change (newline :: z) with ([newline] ++ z) in Hlast. destruct (has_newline z) eqn:En; [rewrite (last_line_app_newline [newline] z En) in Hlast; rewrite Hlast; reflexivity|].
      rewrite (last_line_app_plain [newline] z En) in Hlast. rewrite (last_line_no_newline z En). cbn in Hlast. rewrite Hlast. reflexivity. }
    destruct (trivia_run_unique _ _ _ _ _ Ht2 Hz2) as [<- <-]. destruct Hlast as [Hlast|[Hlast _]]; [|discriminate Hlast].
    assert (Hnl : has_newline (w2 ++ newline :: t2) = true) by (rewrite has_newline_app; apply orb_true_r).
    specialize (H4 Hnl). unfold width in H4. rewrite Hnl, (last_line_app_newline w2 (newline :: t2) eq_refl), Hlast in H4. cbn in H4. lia.
Qed.

(** only definitions and line comments *)
Lemma whole_statement b w v v0 r st : new_start v v0 -> whole b 0 w -> no_infix w -> statement (w ++ newline :: v) = Ok r st -> by_hand st.
Proof.
  intros Hv Hw Hi H. apply statement_rule_iff in H.
  destruct st; cbn [statement_rule by_hand] in *; try exact I; exfalso.
  - destruct H as (u1 & u2 & u3 & s' & H1 & _ & _ & _ & _ & E). eapply (no_outer b 0); [|apply lay0_ends, H1|exact Hw|exact E]. cbn; tauto.
  - destruct H as (u0 & u1 & u2 & u3 & s' & H1 & _ & _ & _ & _ & _ & E). eapply (no_outer b 0); [|apply lay0_ends, H1|exact Hw|exact E]. cbn; tauto.
  - destruct H as (t0 & t1 & t2 & t3 & sf & t4 & t5 & s' & H0 & H1 & _ & _ & _ & _ & _ & _ & _ & E).
    eapply no_effect; [exact Hv|exact Hw|exact H0| |exact E]. apply lay0_ends, H1.
  - destruct H as (b1 & s1 & s2 & E & H1 & _). eapply (no_outer b 0); [|apply spaces1_ends, H1|exact Hw|exact E]. cbn; tauto.
  - destruct H as (b1 & b2 & s1 & b3 & u & j & s2 & E & H1 & _). eapply (no_outer b 0); [|apply spaces1_ends, H1|exact Hw|exact E]. cbn; tauto.
  - destruct H as (b1 & s1 & u1 & m & u2 & j & s2 & k & cs' & s3 & E & H1 & _). eapply (no_outer b 0); [|apply spaces1_ends, H1|exact Hw|exact E]. cbn; tauto.
  - destruct H as (b1 & b2 & u & j & s' & E & H1 & _). eapply (no_outer b 0); [|apply spaces1_ends, H1|exact Hw|exact E]. cbn; tauto.
  - destruct H as (b1 & s1 & b2 & u & j & s' & E & H1 & _). eapply (no_outer b 0); [|apply spaces1_ends, H1|exact Hw|exact E]. cbn; tauto.
  - destruct H as [(x & b1 & d & b' & E & Hx & _) _].
    assert (Hin : exists y, x = L "infix" ++ y) by (destruct Hx; [exists (L "l")|exists (L "r")|exists []]; reflexivity).
    destruct Hin as (y & ->). rewrite <- !app_assoc in E. symmetry in E. apply prefix_in in E as (w2 & -> & _).
    + apply Hi. exists [], w2. reflexivity.
    + intros K. repeat (destruct K as [K|K]; [discriminate K|]). destruct K.
Qed.

(** ** One statement *)
Lemma back_function v v0 b w r f : new_start v v0 -> no_blank v -> whole b 0 w -> function 0 (w ++ newline :: v) = Ok r f ->
  (exists b2 w2, whole b2 0 w2 /\ r = w2 ++ newline :: v /\ (exists u, w = u ++ w2) /\ function 0 (w ++ [newline]) = Ok (w2 ++ [newline]) f) \/
  (exists sg d, f = mkFunc (Some sg) d /\ function_definition 0 v = Ok r d).
Proof.
  intros Hv Hb Hw H. assert (Hs : at_ either on 0 v [] (w ++ newline :: v) (w ++ [newline])) by (exists b, w; repeat split; auto).
  assert (Hdef : forall b1 w1 r1 d, whole b1 0 w1 -> function_definition 0 (w1 ++ newline :: v) = Ok r1 d ->
    exists b2 w2, whole b2 0 w2 /\ r1 = w2 ++ newline :: v /\ (exists u, w1 = u ++ w2) /\ function_definition 0 (w1 ++ [newline]) = Ok (w2 ++ [newline]) d).
  { intros b1 w1 r1 d Hw1 K. assert (Hs1 : at_ either on 0 v [] (w1 ++ newline :: v) (w1 ++ [newline])) by (exists b1, w1; repeat split; auto).
    pose proof (over_definition v v0 [] [] Hv nothing_starts 0 0 _ _ Hs1) as Ha. rewrite K in Ha.
    destruct (ok_def 0 (S (length (w1 ++ [newline]))) _ (le_n _)) as [_ K2]. destruct (function_definition 0 (w1 ++ [newline])) as [r' a'| |]; [|destruct Ha|destruct K2].
    destruct Ha as (<- & (b2 & w2 & _ & Hw2 & _ & -> & ->) & u & E1 & _). exists b2, w2. repeat split; auto.
    exists u. rewrite app_assoc in E1. apply app_inv_tail in E1. exact E1. }
  apply function_iff in H as [(d & H & ->)|(sg & bs & s2 & d & H1 & Hbs & Hi & H2 & ->)].
  - destruct (Hdef b w r d Hw H) as (b2 & w2 & A1 & A2 & A3 & A4). left. exists b2, w2. repeat split; auto. apply function_iff. left. eauto.
  - pose proof (over_signature v v0 [] [] Hv nothing_starts 0 0 _ _ Hs) as Ha. rewrite H1 in Ha.
    destruct (ok_weak1 _ (fun n => ok_function_signature n 0) (S (length (w ++ [newline]))) _ (le_n _)) as [_ K2].
    destruct (function_signature 0 (w ++ [newline])) as [r' a'| |] eqn:Es; [|destruct Ha|destruct K2].
    destruct Ha as (<- & (b1 & w1 & _ & Hw1 & _ & E & ->) & u & Eu & _). destruct w1 as [|c w1].
    + right. exists sg, d. split; [reflexivity|]. injection E as E.
      destruct bs as [|x bs]; [cbn in E; subst v; exact H2|]. exfalso. subst v. cbn in Hb. unfold all_spaces in Hbs. cbn in Hbs.
      apply andb_true_iff in Hbs as [Hx _]. apply N.eqb_eq in Hx. subst x. discriminate Hb.
    + left. injection E as <- E. apply inv_other in Hw1; [|reflexivity].
      assert (Hbn : ~ In newline bs).
      { intros Hin. unfold all_spaces in Hbs. rewrite forallb_forall in Hbs. apply Hbs in Hin. discriminate Hin. }
      destruct (prefix_in _ _ _ _ E Hbn) as (w2 & -> & ->).
      assert (Hw2 : whole b1 0 w2).
      { eapply drop_blanks; [|exact Hw1]. unfold all_spaces in Hbs. rewrite forallb_forall in *. intros x Hx. apply Hbs, N.eqb_eq in Hx. subst x. reflexivity. }
      destruct (Hdef b1 w2 r d Hw2 H2) as (b3 & w3 & A1 & A2 & (u3 & A3) & A4). exists b3, w3. split; [exact A1|]. split; [exact A2|]. split.
      * exists (u ++ newline :: bs ++ u3). subst w2. rewrite <- !app_assoc. cbn [app]. rewrite <- !app_assoc.
        apply (app_inv_tail (newline :: v)). rewrite Eu, <- !app_assoc. cbn [app]. rewrite <- !app_assoc. reflexivity.
      * apply function_iff. right. exists sg, bs, (w2 ++ [newline]), d. split; [|auto]. rewrite Es. cbn [app]. rewrite <- app_assoc. reflexivity.
Qed.
Lemma back_statement v v0 b w r st : new_start v v0 -> no_blank v -> whole b 0 w -> no_infix w -> statement (w ++ newline :: v) = Ok r st ->
  (exists b2 w2, whole b2 0 w2 /\ no_infix w2 /\ r = w2 ++ newline :: v /\ statement (w ++ [newline]) = Ok (w2 ++ [newline]) st /\ by_hand st) \/
  (exists sg d, st = Function_ (mkFunc (Some sg) d) /\ function_definition 0 v = Ok r d).
Proof.
  intros Hv Hb Hw Hi H. pose proof (whole_statement b w v v0 r st Hv Hw Hi H) as Hst. destruct st; try destruct Hst.
  - apply statement_function_iff in H. destruct (back_function v v0 b w r f Hv Hb Hw H) as [(b2 & w2 & H1 & H2 & (u & ->) & H4)|(sg & d & -> & H1)]; [left|right; eauto].
    exists b2, w2. split; [exact H1|]. split; [eapply no_infix_tail, Hi|]. split; [exact H2|]. split; [|exact I]. apply statement_function_iff, H4.
  - left. apply statement_comment_iff, comment_iff in H as (c & [= ->] & [(E & Hc & Hl)|(E & _)]).
    + rewrite app_assoc in E. symmetry in E. apply prefix_in in E as (w2 & -> & ->).
      * exists b, w2. rewrite <- app_assoc in Hw. assert (Hle : line_end w2) by (destruct w2; [exact I|exact Hl]).
        split; [apply (drop_comment b 0 c); assumption|]. split; [eapply no_infix_tail, Hi|]. split; [reflexivity|]. split; [|exact I]. apply statement_comment_iff, comment_iff. exists c. split; [reflexivity|].
        left. split; [rewrite <- !app_assoc; reflexivity|]. split; [exact Hc|]. destruct w2; [reflexivity|exact Hl].
      * intros Hin. apply in_app_iff in Hin as [Hin|Hin]; [repeat (destruct Hin as [Hin|Hin]; [discriminate Hin|]); destruct Hin|].
        rewrite forallb_forall in Hc. apply Hc in Hin. discriminate Hin.
    + exfalso. destruct w as [|x [|y w]]; [discriminate E|discriminate E|]. injection E as -> -> _.
      apply inv_open in Hw; [|reflexivity]. destruct Hw as (_ & Hw & _). specialize (Hw eq_refl). discriminate Hw.
Qed.

(** ** A file *)
Lemma blank_rest w v t s : w ++ newline :: v = t ++ s -> blanks t -> no_blank s -> no_blank v -> 
  (exists w2, w = t ++ w2 /\ s = w2 ++ newline :: v) \/ (blanks (w ++ [newline]) /\ s = v).
Proof.
  intros E Ht Hs Hv. symmetry in E. destruct (split_two _ _ _ _ E) as [H|(t2 & -> & ->)]; [left; exact H|right].
  unfold blanks in *. rewrite forallb_app in Ht. apply andb_true_iff in Ht as [Ht1 Ht2]. cbn [forallb] in Ht2. apply andb_true_iff in Ht2 as [_ Ht2].
  split; [rewrite forallb_app, Ht1; reflexivity|]. destruct t2 as [|x t2]; [reflexivity|]. exfalso. cbn [forallb] in Ht2. apply andb_true_iff in Ht2 as [Hx _].
  change (is_blank x = false) in Hv. congruence.
Qed.
Lemma reads_back v v0 : new_start v v0 -> no_blank v -> v <> [] -> forall s l r, reads s l r -> blanks r -> forall b w, s = w ++ newline :: v -> whole b 0 w -> no_infix w ->
  (exists l1 l2 r1, l = l1 ++ l2 /\ reads (w ++ [newline]) l1 r1 /\ blanks r1 /\ Forall by_hand l1 /\ reads v l2 r) \/
  (exists l1 sg d l2, l = l1 ++ Function_ (mkFunc (Some sg) d) :: l2 /\ reads v (Function_ (mkFunc None d) :: l2) r).
Proof.
  intros Hv Hb Hne. induction 1 as [s st r H|s st t s' l r H Ht Hs' Hl IH]; intros Hr b w -> Hw Hi.
  - destruct (back_statement v v0 b w r st Hv Hb Hw Hi H) as [(b2 & w2 & _ & _ & -> & _)|(sg & d & -> & Hd)].
    + exfalso. unfold blanks in Hr. rewrite forallb_app in Hr. apply andb_true_iff in Hr as [_ Hr]. cbn [forallb] in Hr. apply andb_true_iff in Hr as [_ Hr].
      destruct v as [|x v]; [congruence|]. cbn [forallb] in Hr. apply andb_true_iff in Hr as [Hr _]. change (is_blank x = false) in Hb. congruence.
    + right. exists [], sg, d, []. split; [reflexivity|]. constructor. apply statement_function_iff, function_iff. left. eauto.
  - destruct (back_statement v v0 b w _ st Hv Hb Hw Hi H) as [(b2 & w2 & Hw2 & Hi2 & E & H' & Hst)|(sg & d & -> & Hd)].
    + destruct Ht as [Ht1 Ht]. symmetry in E. destruct (blank_rest _ _ _ _ E Ht Hs' Hb) as [(w3 & -> & ->)|(Hbl & ->)].
      * assert (Hw3 : whole b2 0 w3) by (eapply drop_blanks; [exact Ht|exact Hw2]).
        destruct (IH Hr b2 w3 eq_refl Hw3 (no_infix_tail _ _ Hi2)) as [(l1 & l2 & r1 & -> & H1 & H2 & H3 & H4)|(l1 & sg & d & l2 & -> & H1)].
        -- left. exists (st :: l1), l2, r1. split; [reflexivity|]. split; [|split; [exact H2|split; [constructor; assumption|exact H4]]].
           apply (reads_cons _ st t (w3 ++ [newline])); [rewrite app_assoc; exact H'|split; assumption| |exact H1].
           destruct w3; [discriminate Hs'|exact Hs'].
        -- right. exists (st :: l1), sg, d, l2. auto.
      * left. exists [st], l, (w2 ++ [newline]). split; [reflexivity|]. split; [constructor; exact H'|]. split; [exact Hbl|]. split; [repeat constructor; exact Hst|exact Hl].
    + right. exists [], sg, d, l. split; [reflexivity|]. apply (reads_cons _ _ t s'); auto. apply statement_function_iff, function_iff. left. eauto.
Qed.

(** ** Sections of a file *)
Definition named (n x : str) : Prop := lower_name n /\ x = n \/ operator_name n /\ x = L "(" ++ n ++ L ")".
(** the first line of a definition with a type: a name, spaces, a colon *)
Definition signed (c : str) : Prop :=
  exists n x b y, named n x /\ spaces1 b /\ c = x ++ b ++ L ":" ++ y /\ ends is_op_char y.
Definition section (p : str * str) : Prop :=
  gap (snd p) /\ no_blank (fst p) /\
  ((whole false 0 (fst p) /\ signed (fst p) /\ no_infix (fst p)) \/
   (exists st, file (fst p) = Ok [] [st] /\ trimmed (fst p) /\ (headed st \/ block (fst p) st)) \/
   (exists d, fst p = L "--" ++ d /\ has_newline d = false)).

Lemma signed_name c v : signed c -> exists n b y, RName n (c ++ v) (b ++ L ":" ++ y ++ v) /\ spaces1 b /\ ends is_op_char y.
Proof.
  intros (n & x & b & y & Hx & Hb & -> & Hy). exists n, b, y. split; [|auto]. rewrite <- !app_assoc.
  destruct Hx as [[Hn ->]|[Hn ->]]; [constructor; [exact Hn|]|rewrite <- !app_assoc; constructor; exact Hn].
  right. apply spaces1_ends, Hb.
Qed.
Lemma gap_op g v : gap g -> ends is_op_char (g ++ v).
Proof. intros ((g' & ->) & _). reflexivity. Qed.
Lemma signed_start c g v : gap g -> signed c -> new_start (c ++ g ++ v) (c ++ g ++ v).
Proof.
  intros Hg Hc. destruct (signed_name c (g ++ v) Hc) as (n & b & y & Hn & Hb & Hy). destruct (name_start _ _ _ Hn) as (N1 & N2 & N3).
  split; [|split; [exact N3|]].
  - split; [exact N1|]. split; [exact N1|]. split; [exact N2|]. exists []. split; [reflexivity|]. split; [constructor|left; reflexivity].
  - eapply (dead_name n _ _ [] b (C ":") (y ++ g ++ v)); [exact Hn|constructor|exact Hb|auto|]. destruct y as [|h y]; [exact (gap_op g v Hg)|exact Hy].
Qed.
Lemma signed_undefined c v r d : signed c -> function_definition 0 (c ++ v) <> Ok r d.
Proof.
  intros Hc H. destruct (signed_name c v Hc) as (n & b & y & Hn & Hb & _). apply name_iff in Hn. unfold function_definition, function_definition_f in H.
  apply bind_Ok in H as (s1 & n' & Hn' & H). rewrite Hn in Hn'. injection Hn' as <- <-.
  assert (Hs : forall s2 b2, spaces (b ++ L ":" ++ y ++ v) = Ok s2 b2 -> s2 = L ":" ++ y ++ v).
  { intros s2 b2 K. apply spaces_iff in K as (E & Hb2 & Hs2). apply (run_unique (fun c => (c =? space)%N)) in E; [symmetry; apply E|apply Hb|reflexivity|apply Hb2|exact Hs2]. }
  apply bind_Ok in H as (s2 & args & Ha & H). apply many0_Ok in Ha. inversion Ha as [u _ E1 E2 E3|u u2 a l w2 Hp _ _ E1 E2 E3]; subst.
  - apply bind_Ok in H as (s3 & b3 & Hb3 & H). apply Hs in Hb3. subst s3. discriminate H.
  - apply preceded_Ok in Hp as (u3 & z & Hz & Hp). apply Hs in Hz. subst u3. change (L ":" ++ y ++ v) with (C ":" :: y ++ v) in Hp. rewrite mark_term in Hp by auto. discriminate Hp.
Qed.

Lemma comment_new_line d : has_newline d = false -> forallb not_newline d = true.
Proof.
  intros Hd. apply forallb_forall. intros x Hx. unfold not_newline. apply negb_true_iff, N.eqb_neq. intros ->.
  apply not_true_iff_false in Hd. apply Hd. apply existsb_exists. exists newline. split; [exact Hx|reflexivity].
Qed.
Lemma file_nil l : file [] <> Ok [] l.
Proof. intros H. apply file_at_once in H as (r & H & _); [|exact I]. eapply reads_nil, H. Qed.
Lemma section_full c g : section (c, g) -> c <> [].
Proof.
  intros (_ & _ & Hk) E. cbn [fst snd] in Hk. destruct Hk as [(_ & (n & x & b & y & _ & Hb & E2 & _) & _)|[(st & Hf & _)|(d & E2 & _)]].
  - rewrite E2 in E. apply app_eq_nil in E as [_ E]. apply app_eq_nil in E as [E _]. destruct Hb. contradiction.
  - subst c. eapply file_nil, Hf.
  - rewrite E2 in E. discriminate E.
Qed.
Lemma sections_start parts : Forall section parts ->
  (exists t, new_start (text_of parts) t) /\ no_blank (text_of parts) /\ (parts <> [] -> text_of parts <> []).
Proof.
  induction 1 as [|[c g] parts Hp HF ((t & IH1) & IH2 & _)].
  - split; [exists []; exact nothing_starts|]. split; [exact I|congruence].
  - pose proof (section_full c g Hp) as Hne. unfold text_of in *. cbn [map concat fst snd]. rewrite <- app_assoc.
    set (s := concat (map (fun p => fst p ++ snd p) parts)) in *. destruct Hp as (Hg & Hc & Hk). cbn [fst snd] in *.
    split; [|split; [destruct c; [congruence|exact Hc]|intros _ E; apply app_eq_nil in E as [E _]; contradiction]].
    destruct Hk as [(Hw & Hd & Hi)|[(st & Hf & Ht & Hh)|(d & -> & Hd)]].
    + exists (c ++ g ++ s). apply signed_start; assumption.
    + pose proof (one_statement c st Hf Hc Ht) as Hst. exists (c ++ g ++ s).
      destruct Hh as [Hh|(d & t' & -> & Hd & _)]; [eapply headed_start; eassumption|]. rewrite <- app_assoc. apply start_block.
      destruct d as [|x d]; [|exact Hd]. destruct Hg as ((g' & ->) & _). reflexivity.
    + exists t. rewrite <- app_assoc. apply start_comment; [apply comment_new_line, Hd|exact Hg|exact IH1].
Qed.
(** the sections that are given as accepted *)
Lemma known_section c g v v0 : section (c, g) -> ~ signed c -> new_start v v0 ->
  exists st, file c = Ok [] [st] /\ statement (c ++ g ++ v) = Ok (g ++ v) st /\ (forall f, st <> Function_ f).
Proof.
  intros (Hg & Hc & Hk) Hn Hv. cbn [fst snd] in *.
  assert (Hst : exists st, file c = Ok [] [st] /\ statement c = Ok [] st /\ without_expression st = true /\ forall f, st <> Function_ f).
  { destruct Hk as [(_ & Hd & _)|[(st & Hf & Ht & Hh)|(d & -> & Hd)]]; [contradiction| |].
    - exists st. split; [exact Hf|]. split; [apply one_statement; assumption|].
      destruct Hh as [Hh|(d & t & _ & _ & ->)]; [|split; [reflexivity|discriminate]]. destruct st; try destruct Hh; (split; [reflexivity|discriminate]).
    - exists (Comment d). pose proof (line_comment_statement d Hd) as H. split; [apply file_one; [exact Hc|exact H]|]. split; [exact H|]. split; [reflexivity|discriminate]. }
  destruct Hst as (st & H1 & H2 & H3 & H4). exists st. split; [exact H1|]. split; [|exact H4].
  pose proof (start_new_line v v0 g Hv Hg) as Hl. destruct Hg as ((g' & ->) & _). apply plain_join; auto.
  - exists newline, (g' ++ v). split; reflexivity.
  - exists (g' ++ v). reflexivity.
Qed.
Lemma known_undefined c g v v0 r d : section (c, g) -> new_start v v0 -> function_definition 0 (c ++ g ++ v) <> Ok r d.
Proof.
  intros Hp Hv H. assert (Hs : ~ signed c) by (intros Hs; eapply signed_undefined; [exact Hs|exact H]).
  destruct (known_section c g v v0 Hp Hs Hv) as (st & _ & H1 & H2).
  assert (K : statement (c ++ g ++ v) = Ok r (Function_ (mkFunc None d))) by (apply statement_function_iff, function_iff; left; eauto).
  rewrite H1 in K. injection K as _ K. apply (H2 _ K).
Qed.
Lemma section_cases c g : section (c, g) -> (signed c /\ whole false 0 c /\ no_infix c) \/ ~ signed c.
Proof.
  intros (Hg & Hc & [(H1 & H2 & H3)|Hk]); [left; auto|right]. cbn [fst snd] in *. intros Hs. destruct Hk as [(st & Hf & Ht & Hh)|(d & -> & Hd)].
  - assert (Hp : section (c, g)) by (split; [exact Hg|]; split; [exact Hc|]; right; left; eauto).
    destruct (signed_name c [] Hs) as (n & b & y & Hn & _). rewrite app_nil_r in *.
    pose proof (one_statement c st Hf Hc Ht) as Hst. destruct Hh as [Hh|(d & t' & -> & Hd & ->)].
    + apply statement_rule_iff in Hst.
      assert (K : exists k x, In k outer_words /\ ends is_name_char x /\ c = k ++ x).
      { destruct st; try destruct Hh; cbn [statement_rule] in Hst.
        - destruct Hst as (u1 & u2 & u3 & s' & H1 & _ & _ & _ & _ & ->). do 2 eexists. split; [|split; [|reflexivity]]; [cbn; tauto|apply lay0_ends, H1].
        - destruct Hst as (u0 & u1 & u2 & u3 & s' & H1 & _ & _ & _ & _ & _ & ->). do 2 eexists. split; [|split; [|reflexivity]]; [cbn; tauto|apply lay0_ends, H1].
        - destruct Hst as (b0 & s1 & s2 & -> & H1 & _). do 2 eexists. split; [|split; [|reflexivity]]; [cbn; tauto|apply spaces1_ends, H1].
        - destruct Hst as (b1 & b2 & s1 & b3 & u & j & s2 & -> & H1 & _). do 2 eexists. split; [|split; [|reflexivity]]; [cbn; tauto|apply spaces1_ends, H1].
        - destruct Hst as (b0 & s1 & u1 & m & u2 & j & s2 & k & cs' & s3 & -> & H1 & _). do 2 eexists. split; [|split; [|reflexivity]]; [cbn; tauto|apply spaces1_ends, H1].
        - destruct Hst as (b1 & b2 & u & j & s' & -> & H1 & _). do 2 eexists. split; [|split; [|reflexivity]]; [cbn; tauto|apply spaces1_ends, H1]. }
      destruct K as (k & x & Hk & Hx & ->). destruct (outer_name k Hk) as (K1 & K2 & K3 & _). inversion Hn as [n' r' Hl He E1 E2|o r' Ho E1 E2]; subst.
      * destruct He as [->|He].
        -- destruct k as [|h k]; [congruence|]. injection E2 as <- _. repeat (destruct Hk as [Hk|Hk]; [discriminate Hk|]). destruct Hk.
        -- assert (n = k) as ->.
           { apply (run_unique is_name_char n _ k _ E2); auto. apply (lower_longest n _ Hl He). }
           apply (lower_not_reserved k k Hl) in K3. congruence.
      * repeat (destruct Hk as [<-|Hk]; [discriminate|]). destruct Hk.
    + inversion Hn as [n' r' Hl He E1 E2|o r' Ho E1 E2]; subst. destruct (lower_name_head n Hl) as (h & t & -> & Hh). injection E2 as -> _. destruct Hh as [Hh|Hh]; discriminate Hh.
  - destruct (signed_name _ [] Hs) as (n & b & y & Hn & _). inversion Hn as [n' r' Hl He E1 E2|o r' Ho E1 E2]; subst.
    destruct (lower_name_head n Hl) as (h & t & -> & Hh). injection E2 as -> _. destruct Hh as [Hh|Hh]; discriminate Hh.
Qed.

(** ** The file and its sections *)
Lemma file_one_after c g v l : c <> [] -> no_blank c -> blanks1 g -> no_blank v -> v <> [] -> forall st,
  statement (c ++ g ++ v) = Ok (g ++ v) st -> file (c ++ g ++ v) = Ok [] l -> exists l2, l = st :: l2 /\ file v = Ok [] l2.
Proof.
  intros Hne Hc [Hg1 Hg] Hv Hvn st Hst H. apply file_at_once in H as (r & H & Hr); [|destruct c; [congruence|exact Hc]].
  inversion H as [s st' r' K|s st' b s' l' r' K Hb Hs' Hl]; subst; rewrite Hst in K.
  - injection K as <- <-. exfalso. unfold blanks in Hr. rewrite forallb_app in Hr. apply andb_true_iff in Hr as [_ Hr].
    destruct v as [|x v]; [congruence|]. cbn [forallb] in Hr. apply andb_true_iff in Hr as [Hr _]. change (is_blank x = false) in Hv. congruence.
  - injection K as K <-. assert (g = b /\ v = s') as [<- <-] by (apply (run_unique is_blank); [exact K|exact Hg|exact Hv|apply Hb|exact Hs']).
    exists l'. split; [reflexivity|]. apply file_at_once; [exact Hv|]. eauto.
Qed.
Lemma text_cons c g parts : text_of ((c, g) :: parts) = c ++ g ++ text_of parts.
Proof. unfold text_of. cbn [map concat fst snd]. rewrite <- app_assoc. reflexivity. Qed.
Lemma whole_gap c g1 : blanks g1 -> line_end g1 -> whole false 0 c -> no_infix c -> whole false 0 (c ++ g1) /\ no_infix (c ++ g1).
Proof.
  intros Hg1 Hl Hw Hi. split; [apply whole_blanks; assumption|]. intros (a & b & E).
  assert (Hk : forall k x y z : str, x ++ y = k ++ z -> blanks y -> forallb (fun c => negb (is_blank c)) k = true -> exists z', x = k ++ z').
  { clear. induction k as [|h k IH]; intros x y z E Hy Hk; [exists x; reflexivity|]. cbn in Hk. apply andb_true_iff in Hk as [Hh Hk].
    destruct x as [|x0 x]; cbn [app] in E.
    - subst y. unfold blanks in Hy. cbn [forallb] in Hy. apply andb_true_iff in Hy as [Hy _]. change (negb (is_blank h) = true) in Hh. rewrite Hy in Hh. discriminate Hh.
    - injection E as -> E. destruct (IH x y z E Hy Hk) as (z' & ->). exists z'. reflexivity. }
  assert (Hsp : (exists c2, c = a ++ c2 /\ L "infix" ++ b = c2 ++ g1) \/ (exists a2, a = c ++ a2 /\ g1 = a2 ++ L "infix" ++ b)).
  { revert E. generalize (L "infix" ++ b) as z. clear. intros z E. revert a E. induction c as [|x c IH]; intros a E; [right; exists a; auto|].
    destruct a as [|y a]; [left; exists (x :: c); auto|]. injection E as -> E. destruct (IH a E) as [(c2 & -> & ->)|(a2 & -> & ->)]; [left; exists c2; auto|right; exists a2; auto]. }
  destruct Hsp as [(c2 & -> & E2)|(a2 & _ & ->)].
  - symmetry in E2. destruct (Hk _ _ _ _ E2 Hg1 eq_refl) as (z' & ->). apply Hi. exists a, z'. reflexivity.
  - unfold blanks in Hg1. rewrite forallb_app in Hg1. apply andb_true_iff in Hg1 as [_ Hg1]. discriminate Hg1.
Qed.
Theorem sections_back parts : Forall section parts -> forall l, file (text_of parts) = Ok [] l ->
  exists stss, Forall2 (fun p sts => file (fst p) = Ok [] sts /\ piece p sts) parts stss /\ l = concat stss.
Proof.
  induction 1 as [|[c g] parts Hp HF IH]; intros l H; [exfalso; eapply file_nil, H|].
  pose proof (section_full c g Hp) as Hne. pose proof Hp as (Hg & Hc & _). cbn [fst snd] in Hg, Hc.
  destruct (sections_start parts HF) as ((t & Hv) & Hb & Hvne). rewrite text_cons in H.
  assert (Hlg : line_end g) by (destruct Hg as ((g' & ->) & _); reflexivity). pose proof (gap_blanks g Hg) as Hbg.
  assert (Hg1 : blanks1 g) by (split; [destruct Hg as ((g' & ->) & _); discriminate|exact Hbg]).
  destruct (section_cases c g Hp) as [(Hs & Hw & Hi)|Hs].
  - destruct (gap_split g Hg) as (g1 & Eg & Hg1' & Hl1). destruct (whole_gap c g1 Hg1' Hl1 Hw Hi) as [Hw1 Hi1].
    assert (Hend : ends (fun x => (x =? C "-")%N) c).
    { destruct Hs as (n & x & bb & y & Hx & _ & -> & _). destruct Hx as [[Hn ->]|[_ ->]]; [|reflexivity].
      destruct (lower_name_head n Hn) as (h & t' & -> & Hh). cbn [app ends]. destruct Hh as [->|Hh]; [reflexivity|]. destruct (N.eqb_spec h (C "-")) as [->|_]; [discriminate Hh|reflexivity]. }
    assert (Hpiece : forall l1, file c = Ok [] l1 -> Forall by_hand l1 -> piece (c, g) l1).
    { intros l1 Hf Hbh. split; [exact Hg|]. split; [exact Hc|]. split; [exact Hf|]. left. auto. }
    assert (E : c ++ g ++ text_of parts = (c ++ g1) ++ newline :: text_of parts) by (rewrite Eg, <- !app_assoc; reflexivity).
    assert (Hcn : no_blank (c ++ g ++ text_of parts)) by (destruct c; [congruence|exact Hc]).
    destruct parts as [|p parts].
    + unfold text_of in H. cbn [map concat] in H. rewrite app_nil_r, file_trail_line in H by assumption.
      exists [l]. split; [|cbn; rewrite app_nil_r; reflexivity]. constructor; [|constructor]. split; [exact H|]. apply Hpiece; [exact H|].
      rewrite <- (file_trail_line c g Hbg Hlg) in H. rewrite Eg, app_assoc in H. apply file_at_once in H as (r & H & Hr); [|rewrite <- app_assoc; destruct c; [congruence|exact Hc]].
      clear - H Hr Hw1 Hi1. remember ((c ++ g1) ++ [newline]) as s eqn:Es. revert Es Hw1 Hi1. generalize (c ++ g1) as w. generalize false as b.
      induction H as [s st r K|s st b' s' l r K Hb' Hs' Hl IH]; intros b w -> Hw Hi.
      * constructor; [|constructor]. eapply whole_statement; [exact nothing_starts|exact Hw|exact Hi|exact K].
      * destruct (back_statement [] [] b w _ st nothing_starts I Hw Hi K) as [(b2 & w2 & Hw2 & Hi2 & E & _ & Hst)|(sg & d & _ & Hd)]; [|exfalso; eapply definition_nil, Hd].
        constructor; [exact Hst|]. symmetry in E. destruct (blank_rest _ _ _ _ E (proj2 Hb') Hs' I) as [(w3 & -> & ->)|(_ & ->)].
        -- apply (IH Hr b2 w3); [reflexivity| |eapply no_infix_tail, Hi2]. eapply drop_blanks; [apply Hb'|exact Hw2].
        -- exfalso. eapply reads_nil, Hl.
    + assert (Hvn : text_of (p :: parts) <> []) by (apply Hvne; discriminate).
      apply file_at_once in H as (r & H & Hr); [|exact Hcn]. rewrite E in H.
      destruct (reads_back _ t Hv Hb Hvn _ _ _ H Hr false _ eq_refl Hw1 Hi1) as [(l1 & l2 & r1 & -> & H1 & H2 & H3 & H4)|(l1 & sg & d & l2 & -> & H1)].
      * destruct (IH l2) as (stss & HS & ->); [apply file_at_once; [exact Hb|]; eauto|].
        assert (Hf : file c = Ok [] l1).
        { rewrite <- (file_trail_line c g Hbg Hlg). rewrite Eg, app_assoc. apply file_at_once; [rewrite <- app_assoc; destruct c; [congruence|exact Hc]|]. eauto. }
        exists (l1 :: stss). split; [|reflexivity]. constructor; [|exact HS]. split; [exact Hf|]. apply Hpiece; assumption.
      * exfalso. destruct p as [c2 g2]. inversion HF as [|? ? Hp2 HF2]; subst. destruct (sections_start parts HF2) as ((t2 & Hv2) & _).
        assert (K : exists r d, function_definition 0 (text_of ((c2, g2) :: parts)) = Ok r d).
        { inversion H1 as [? ? ? K|? ? ? ? ? ? K]; subst; apply statement_function_iff, function_iff in K as [(d' & K & _)|(? & ? & ? & ? & _ & _ & _ & _ & K)]; eauto; discriminate K. }
        destruct K as (r3 & d3 & K). rewrite text_cons in K. eapply known_undefined; eassumption.
  - destruct (known_section c g _ t Hp Hs Hv) as (st & Hf & Hst & _).
    assert (Hpiece : piece (c, g) [st]).
    { destruct Hp as (_ & _ & Hk). split; [exact Hg|]. split; [exact Hc|]. split; [exact Hf|]. cbn [fst snd] in *.
      destruct Hk as [(_ & Hk & _)|[(st' & Hf' & Ht & Hh)|Hk]]; [contradiction| |right; right; exact Hk].
      right. left. exists st. split; [reflexivity|]. split; [exact Ht|]. rewrite Hf in Hf'. injection Hf' as <-. exact Hh. }
    destruct parts as [|p parts].
    + unfold text_of in H. cbn [map concat] in H. rewrite app_nil_r, file_trail_line in H by assumption. rewrite Hf in H. injection H as <-.
      exists [[st]]. split; [|reflexivity]. constructor; [auto|constructor].
    + destruct (file_one_after c g _ l Hne Hc Hg1 Hb (Hvne ltac:(discriminate)) st Hst H) as (l2 & -> & H2).
      destruct (IH l2 H2) as (stss & HS & ->). exists ([st] :: stss). split; [|reflexivity]. constructor; [auto|exact HS].
Qed.

(** ** Any whole text before pieces *)
Lemma pieces_start parts stss : Forall2 piece parts stss ->
  (exists t, new_start (text_of parts) t) /\ no_blank (text_of parts) /\
  (text_of parts = [] /\ concat stss = [] \/ file (text_of parts) = Ok [] (concat stss)) /\ (parts <> [] -> text_of parts <> []).
Proof.
  induction 1 as [|[c g] sts parts stss Hp HF ((t & IH1) & IH2 & IH3 & _)].
  - split; [exists []; exact nothing_starts|]. split; [exact I|]. split; [auto|congruence].
  - destruct (piece_join c g sts (text_of parts) t (concat stss) Hp IH1 IH2 IH3) as (H1 & H2 & H3).
    rewrite text_cons. split; [exact H1|]. split; [exact H2|]. split; [right; exact H3|].
    intros _ E. apply app_eq_nil in E as [_ E]. apply app_eq_nil in E as [-> _]. destruct Hp as (((g' & Hg) & _) & _). discriminate Hg.
Qed.
Theorem pieces_back c g parts stss sts :
  whole false 0 c -> no_infix c -> c <> [] -> no_blank c -> gap g -> Forall2 piece parts stss -> parts <> [] ->
  file (c ++ g ++ text_of parts) = Ok [] sts ->
  (exists l, file c = Ok [] l /\ sts = l ++ concat stss) \/
  (exists l sg d l', concat stss = Function_ (mkFunc None d) :: l' /\ sts = l ++ Function_ (mkFunc (Some sg) d) :: l').
Proof.
  intros Hw Hi Hne Hc Hg HP Hp H. destruct (pieces_start parts stss HP) as ((t & Hv) & Hb & Hf & Hvne). specialize (Hvne Hp).
  destruct Hf as [[Hf _]|Hf]; [contradiction|]. destruct (gap_split g Hg) as (g1 & Eg & Hg1 & Hl1). destruct (whole_gap c g1 Hg1 Hl1 Hw Hi) as [Hw1 Hi1].
  assert (Hcb : forall x, no_blank (c ++ x)) by (intros x; destruct c; [congruence|exact Hc]).
  assert (Hlg : line_end g) by (destruct Hg as ((g' & ->) & _); reflexivity).
  apply file_at_once in H as (r & H & Hr); [|apply Hcb].
  assert (E : c ++ g ++ text_of parts = (c ++ g1) ++ newline :: text_of parts) by (rewrite Eg, <- !app_assoc; reflexivity). rewrite E in H.
  assert (Hone : forall l2, reads (text_of parts) l2 r -> l2 = concat stss).
  { intros l2 K. assert (K2 : file (text_of parts) = Ok [] l2) by (apply file_at_once; [exact Hb|eauto]). congruence. }
  destruct (reads_back _ t Hv Hb Hvne _ _ _ H Hr false _ eq_refl Hw1 Hi1) as [(l1 & l2 & r1 & -> & H1 & H2 & H3 & H4)|(l1 & sg & d & l2 & -> & H1)].
  - left. exists l1. rewrite (Hone l2 H4). split; [|reflexivity].
    rewrite <- (file_trail_line c g (gap_blanks g Hg) Hlg). rewrite Eg, app_assoc. apply file_at_once; [rewrite <- app_assoc; apply Hcb|]. eauto.
  - right. exists l1, sg, d, l2. split; [symmetry; apply Hone, H1|reflexivity].
Qed.
