(** * Whole files: totality, blanks, first characters, progress *)
From Verif Require Import Base Nom Regex Ast Good Spec Helpers Types Expr Stmt Lexers Total
  Layout Seqs Grammar Follow Sound SoundE SoundS LexProps Heads.

Lemma file_total s : (exists sts, file s = Ok [] sts) \/ file s = Err.
Proof.
  destruct (ok_file (S (length s)) s (le_n _)) as [_ H].
  destruct (file s) as [r sts| |w] eqn:Hf; [left|right; reflexivity|contradiction].
  destruct (file_sound _ _ _ Hf) as [-> _]. eauto.
Qed.

Lemma GStmts_nonnil sts w : GStmts sts w -> sts <> [].
Proof. intros []; discriminate. Qed.
Lemma file_nonempty s r sts : file s = Ok r sts -> r = [] /\ sts <> [].
Proof.
  intros H. destruct (file_sound _ _ _ H) as [-> HG]. split; [reflexivity|].
  destruct HG as [b1 sts w b2 _ HG _]. eapply GStmts_nonnil; eauto.
Qed.

Lemma multispace0_eq s : multispace0 s = let '(a, r) := span is_blank s in Ok r a.
Proof. reflexivity. Qed.

Lemma span_blank_app w s : blanks w -> exists a,
  span is_blank (w ++ s) = (w ++ a, snd (span is_blank s)).
Proof.
  intros Hw. exists (fst (span is_blank s)). unfold blanks in Hw.
  induction w as [|c w IH]; cbn [app].
  - apply surjective_pairing.
  - simpl in Hw. apply andb_true_iff in Hw as [Hc Hw]. cbn [span]. rewrite Hc, (IH Hw). reflexivity.
Qed.

Lemma file_eq s : file s =
  match separated_nonempty_list multispace0 statement (snd (span is_blank s)) with
  | Ok r l => match snd (span is_blank r) with [] => Ok [] l | _ => Err end
  | Err => Err
  | Abort w => Abort w
  end.
Proof.
  unfold file, statements, terminated, delimited, bind. rewrite multispace0_eq.
  destruct (span is_blank s) as [a r]. cbn [snd].
  destruct (separated_nonempty_list multispace0 statement r) as [r' l| |w]; try reflexivity.
  rewrite multispace0_eq. destruct (span is_blank r') as [a' r'']. cbn [snd].
  destruct r''; reflexivity.
Qed.

Lemma file_blanks w s : blanks w -> file (w ++ s) = file s.
Proof.
  intros Hw. rewrite !file_eq. destruct (span_blank_app w s Hw) as [a ->]. reflexivity.
Qed.

Lemma file_blank_only w : blanks w -> file w = Err.
Proof. intros Hw. rewrite <- (app_nil_r w), file_blanks by exact Hw. reflexivity. Qed.

Lemma heads_word (P : char -> bool) (w s : str) : (exists c w', w = c :: w' /\ P c = true) ->
  exists c s', w ++ s = c :: s' /\ P c = true.
Proof. intros (c & w' & -> & Hc). cbn [app]. eauto. Qed.

Definition stmt0 (c : char) : bool := is_lower c || mem_char c (L "_(-{").

Lemma GName_head n w : GName n w -> exists c w', w = c :: w' /\ stmt0 c = true.
Proof.
  intros [m [->|[(c & t & -> & Hc & _) _]]|o _].
  - eexists _, _. split; reflexivity.
  - exists c, t. split; [reflexivity|]. unfold stmt0. rewrite Hc. reflexivity.
  - eexists _, _. split; reflexivity.
Qed.

Lemma GStmt_head st w : GStmt st w -> exists c w', w = c :: w' /\ stmt0 c = true.
Proof.
  intros [ | | | | | | | | f w' HF | a b1 d b2 n _ _ _ _ _ | | ];
    try (eexists _, _; split; reflexivity).
  - assert (HD : forall i d w0, GDef i d w0 -> exists c w', w0 = c :: w' /\ stmt0 c = true).
    { intros i d w0 [i' n wn args wa b t j e w1 HN _ _ _ _].
      apply heads_word, (GName_head _ _ HN). }
    destruct HF as [i d w0 H|i sg ws b d w0 [i' n wn b' t1 j t w1 HN _ _ _] _ _ _].
    + exact (HD _ _ _ H).
    + rewrite <- !app_assoc. apply heads_word, (GName_head _ _ HN).
  - destruct a; eexists _, _; split; reflexivity.
Qed.

Lemma file_head b c s : blanks b -> is_blank c = false -> stmt0 c = false -> file (b ++ c :: s) = Err.
Proof.
  intros Hb Hc Hs. rewrite file_blanks by exact Hb. rewrite file_eq. cbn [span]. rewrite Hc. cbn [snd].
  assert (He : statement (c :: s) = Err).
  { apply err_of_no_ok; [oks|]. intros r st H. apply sound_statement in H as (w & He & HG).
    apply GStmt_head in HG as (c' & w' & -> & Hc'). cbn [app] in He. congruence. }
  unfold separated_nonempty_list. rewrite He. reflexivity.
Qed.

(** ** Progress *)

Definition progress {A} (p : parser A) : Prop :=
  forall s r a, p s = Ok r a -> exists w, w <> [] /\ s = w ++ r.

Lemma sound_progress {A} (P : A -> str -> Prop) (p : parser A) :
  (forall n, ok 1 n p p) -> sound P p -> progress p.
Proof.
  intros Ho Hs s r a H. destruct (Hs _ _ _ H) as (w & -> & _). exists w. split; [|reflexivity].
  destruct (Ho (S (length (w ++ r))) _ (le_n _)) as [_ Hk]. rewrite H in Hk. cbn [ok_res] in Hk.
  intros ->. simpl in Hk. lia.
Qed.

Lemma ok_comment n : ok 1 n comment comment.
Proof. unfold comment; oks. Qed.

Lemma all_progress :
  progress statement /\ (forall i, progress (expression i)) /\ (forall i, progress (term i)) /\
  (forall i, progress (type_ i)) /\ (forall i, progress (type_annotation i)).
Proof.
  split; [|split; [|split; [|split]]]; intros.
  - exact (sound_progress _ statement (fun n => ltac:(oks)) sound_statement).
  - exact (sound_progress _ _ (fun n => ok_expression n i) (sound_expression i)).
  - exact (sound_progress _ (term i) (fun n => ltac:(oks)) (sound_term i)).
  - exact (sound_progress _ (type_ i) (fun n => ltac:(oks)) (sound_type i)).
  - exact (sound_progress _ (type_annotation i) (fun n => ltac:(oks)) (sound_type_annotation i)).
Qed.

Lemma file_head_In b c s :
  blanks b -> is_blank c = false -> is_lower c = false -> ~ In c (L "_(-{") ->
  file (b ++ c :: s) = Err.
Proof.
  intros Hb Hc Hl Hn. apply file_head; [assumption..|]. unfold stmt0. rewrite Hl.
  apply not_true_is_false. intros H. apply Hn, mem_char_In. exact H.
Qed.

Lemma expression_depth n i s : length s < n ->
  expression_n n i s = expression i s /\ forall w, expression_n n i s <> Abort w.
Proof.
  intros H. split; [apply expression_n_expression; exact H|]. intros w Hw.
  destruct (ok_expression_n n n i (le_n _) s H) as [_ Ho]. rewrite Hw in Ho. exact Ho.
Qed.
Lemma type_depth n i s : length s < n ->
  type_n n i s = type_ i s /\ forall w, type_n n i s <> Abort w.
Proof.
  intros H. split; [apply type_n_type; exact H|]. intros w Hw.
  destruct (ok_type_n n n i (le_n _) s H) as [_ Ho]. rewrite Hw in Ho. exact Ho.
Qed.

Lemma trivia_run_exists_unique s :
  exists t r, trivia_run s t r /\ forall t' r', trivia_run s t' r' -> t' = t /\ r' = r.
Proof.
  destruct (trivia_run_exists s) as (t & r & H). exists t, r. split; [exact H|].
  intros t' r' H'. exact (trivia_run_unique _ _ _ _ _ H' H).
Qed.
