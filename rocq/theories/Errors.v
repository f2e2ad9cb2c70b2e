(** * The error of a rejected file *)
From Verif Require Import Base Nom Regex Ast Good Spec Helpers Types Expr Stmt Lexers Total Layout Seqs
  Grammar Sound SoundS Front Fail.

Lemma forget_file s : forget (file_e s) = file s.
Proof.
  rewrite file_eq. unfold file_e, statements_e. change is_multispace with is_blank.
  destruct (span is_blank s) as [b s1]. cbn [snd]. unfold statement_list_e, statement_e, separated_nonempty_list.
  destruct (statement s1) as [r a| |]; [|reflexivity..].
  destruct (length r =? length s1); [reflexivity|].
  destruct (sep_loop (S (length r)) multispace0 statement r) as [r' l| |]; [|reflexivity..].
  destruct (span is_blank r') as [b' [|c r'']]; reflexivity.
Qed.

Lemma file_ok s r l : file_e s = EOk r l <-> file s = Ok r l.
Proof. rewrite <- forget_file. destruct (file_e s); cbn; split; congruence. Qed.
Lemma file_err s : (exists r k, file_e s = EError r k) <-> file s = Err.
Proof.
  rewrite <- forget_file. destruct (file_e s) as [|r k|]; cbn; split; try congruence; try (intros (? & ? & H); congruence).
  intros _. eauto.
Qed.
Lemma file_e_total s : (exists l, file_e s = EOk [] l) \/ (exists r k, file_e s = EError r k).
Proof.
  destruct (file_total s) as [(l & H)|H]; [left; exists l; apply file_ok, H|right; apply file_err, H].
Qed.

(** ** Reading statements one after the other *)

Definition no_blank (s : str) : Prop := match s with [] => True | c :: _ => is_blank c = false end.

(** from [s], the statements [l] are read, each separated from the next by
    blanks, and [r] is left *)
Inductive reads : str -> list statement_ast -> str -> Prop :=
| reads_one s st r : statement s = Ok r st -> reads s [st] r
| reads_more s st b s' l r :
    statement s = Ok (b ++ s') st -> blanks1 b -> no_blank s' -> reads s' l r -> reads s (st :: l) r.

(** no further statement can be read from [r] *)
Definition stuck (r : str) : Prop :=
  no_blank r \/ forall b s', r = b ++ s' -> blanks1 b -> no_blank s' -> statement s' = Err.

Lemma span_blank_split s : exists b s1, span is_blank s = (b, s1) /\ s = b ++ s1 /\ blanks b /\ no_blank s1.
Proof.
  destruct (span is_blank s) as [b s1] eqn:E. exists b, s1. split; [reflexivity|].
  apply span_longest in E as (-> & Hb & Hs). split; [reflexivity|]. split; [exact Hb|].
  destruct s1; [exact I|exact Hs].
Qed.
Lemma span_blank_app_eq b s : blanks b -> no_blank s -> span is_blank (b ++ s) = (b, s).
Proof.
  intros Hb Hs. apply span_longest. split; [reflexivity|]. split; [exact Hb|]. destruct s; [exact I|exact Hs].
Qed.
Lemma multispace0_app b s : blanks b -> no_blank s -> multispace0 (b ++ s) = Ok s b.
Proof. intros Hb Hs. rewrite multispace0_eq, span_blank_app_eq by assumption. reflexivity. Qed.
Lemma statement_shorter s r a : statement s = Ok r a -> length r < length s.
Proof.
  intros H. apply (proj1 all_progress) in H as (u & Hu & ->). rewrite app_length.
  destruct u; [congruence|]. cbn [length]. lia.
Qed.
Lemma statement_total s : (exists r a, statement s = Ok r a) \/ statement s = Err.
Proof.
  destruct (fun H => ok_statement (S (length s)) s H) as [_ H]; [lia|].
  destruct (statement s) as [r a| |]; [left; eauto|right; reflexivity|contradiction].
Qed.

Lemma seps_reads s st r1 l r : statement s = Ok r1 st -> seps multispace0 statement r1 l r ->
  reads s (st :: l) r /\ stuck r.
Proof.
  intros H Hs. revert s st H. induction Hs as [r Hst|r1 s2 x s3 a l r Hm Hl Hp Hl3 Hrest IH]; intros s st H.
  - split; [constructor; exact H|]. unfold sep_stop in Hst.
    destruct (span_blank_split r) as (b & r' & E & -> & Hb & Hr'). rewrite multispace0_eq, E in Hst.
    destruct Hst as [Hst|Hst].
    + left. rewrite app_length in Hst. destruct b; [exact Hr'|cbn [length] in Hst; lia].
    + right. intros b2 s' E2 Hb2 Hs'. destruct Hb2 as [_ Hb2].
      assert (b = b2 /\ r' = s') as [<- <-].
      { pose proof (span_blank_app_eq b r' Hb Hr') as E3. rewrite E2 in E3.
        rewrite (span_blank_app_eq b2 s' Hb2 Hs') in E3. injection E3; auto. }
      destruct (statement_total r') as [(r2 & a & Ha)|Ha]; [|exact Ha]. rewrite Ha in Hst.
      apply statement_shorter in Ha. lia.
  - destruct (IH _ _ Hp) as [IH1 IH2]. split; [|exact IH2].
    destruct (span_blank_split r1) as (b & r' & E & -> & Hb & Hr'). rewrite multispace0_eq, E in Hm.
    injection Hm as <- <-. eapply reads_more; [exact H| |exact Hr'|exact IH1].
    split; [|exact Hb]. intros ->. apply Hl. reflexivity.
Qed.
Lemma reads_seps s l r : reads s l r -> stuck r ->
  exists st l' r1, l = st :: l' /\ statement s = Ok r1 st /\ seps multispace0 statement r1 l' r.
Proof.
  intros H Hst. induction H as [s st r H|s st b s' l r H [Hne Hb] Hs' Hr IH].
  - exists st, [], r. split; [reflexivity|]. split; [exact H|]. constructor. unfold sep_stop.
    destruct (span_blank_split r) as (b & r' & E & -> & Hb & Hr'). rewrite multispace0_eq, E.
    destruct b as [|c b]; [left; reflexivity|right]. destruct Hst as [Hst|Hst].
    + cbn [app no_blank] in Hst. apply andb_true_iff in Hb as [Hc _]. congruence.
    + rewrite (Hst (c :: b) r' eq_refl); [exact I| |exact Hr']. split; [discriminate|exact Hb].
  - destruct (IH Hst) as (st2 & l2 & r2 & -> & H2 & Hs2). exists st, (st2 :: l2), (b ++ s').
    split; [reflexivity|]. split; [exact H|]. eapply seps_more; [apply multispace0_app; assumption| | | |exact Hs2].
    + rewrite app_length. destruct b; [congruence|cbn [length]; lia].
    + exact H2.
    + apply statement_shorter in H2. lia.
Qed.
Lemma list_reads s l r : separated_nonempty_list multispace0 statement s = Ok r l <-> reads s l r /\ stuck r.
Proof.
  split.
  - intros H. apply separated_nonempty_list_Ok in H as (a & l' & s1 & -> & H & _ & Hs).
    eapply seps_reads; eauto.
  - intros [H Hst]. destruct (reads_seps _ _ _ H Hst) as (st & l' & r1 & -> & H1 & Hs).
    eapply separated_nonempty_list_intro; [| |exact H1| |exact Hs].
    + intros u v x Hx. rewrite multispace0_eq in Hx. destruct (span is_blank u) as [y z] eqn:E.
      injection Hx as <- _. apply span_longest in E as (-> & _). rewrite app_length. lia.
    + intros u v x Hx. apply statement_shorter in Hx. lia.
    + apply statement_shorter in H1. lia.
Qed.
Lemma stuck_blanks r : blanks r -> stuck r.
Proof.
  intros Hr. right. intros b s' -> Hb Hs'. destruct s' as [|c s']; [|].
  - destruct (statement_total []) as [(r & a & H)|H]; [|exact H]. apply statement_shorter in H. cbn in H. lia.
  - unfold blanks in Hr. rewrite forallb_app in Hr. cbn [forallb no_blank] in *. rewrite Hs' in Hr.
    rewrite andb_false_r in Hr. discriminate.
Qed.

(** A file is accepted exactly when it can be read statement by statement. *)
Theorem file_reads s l : file s = Ok [] l <->
  exists b s1 r, s = b ++ s1 /\ blanks b /\ no_blank s1 /\ reads s1 l r /\ blanks r.
Proof.
  rewrite file_eq. split.
  - destruct (span_blank_split s) as (b & s1 & E & -> & Hb & Hs1). rewrite E. cbn [snd].
    destruct (separated_nonempty_list multispace0 statement s1) as [r l'| |] eqn:H; [|discriminate..].
    destruct (span_blank_split r) as (b2 & r2 & E2 & -> & Hb2 & _). rewrite E2. cbn [snd].
    destruct r2; [|discriminate]. intros [= ->]. apply list_reads in H as [H _].
    rewrite app_nil_r in H. exists b, s1, b2. auto.
  - intros (b & s1 & r & -> & Hb & Hs1 & H & Hr). rewrite (span_blank_app_eq b s1 Hb Hs1). cbn [snd].
    rewrite (proj2 (list_reads s1 l r)) by (split; [exact H|apply stuck_blanks, Hr]).
    rewrite <- (app_nil_r r), (span_blank_app_eq r [] Hr I). reflexivity.
Qed.

(** What the error of a rejected file says. *)
Theorem file_error s r k : file_e s = EError r k <->
  exists b s1, s = b ++ s1 /\ blanks b /\ no_blank s1 /\
    ((k = KAlt /\ r = s1 /\ statement s1 = Err) \/
     (k = KEof /\ r <> [] /\ no_blank r /\
      exists l b2, reads s1 l (b2 ++ r) /\ blanks b2 /\ (b2 = [] \/ statement r = Err))).
Proof.
  assert (Hlist : forall s1, statement_list_e s1 =
            match separated_nonempty_list multispace0 statement s1 with
            | Ok r l => EOk r l | Err => EError s1 KAlt | Abort w => EAbort w end).
  { intros s1. unfold statement_list_e, statement_e, separated_nonempty_list.
    destruct (statement s1) as [r1 a| |] eqn:H; [|reflexivity..].
    replace (length r1 =? length s1) with false
      by (symmetry; apply Nat.eqb_neq; apply statement_shorter in H; lia).
    destruct (sep_loop (S (length r1)) multispace0 statement r1) as [r' l| |] eqn:E; [reflexivity| |reflexivity].
    exfalso. revert E. generalize (S (length r1)). revert r1 H. clear.
    assert (H : forall n r1, sep_loop n multispace0 statement r1 <> Err).
    { induction n as [|n IH]; intros r1; cbn [sep_loop]; [discriminate|].
      destruct (multispace0 r1) as [s2 x2| |]; [|discriminate..].
      destruct (length s2 =? length r1); [discriminate|].
      destruct (statement s2) as [s3 a3| |]; [|discriminate..].
      destruct (length s3 =? length s2); [discriminate|]. specialize (IH s3).
      destruct (sep_loop n multispace0 statement s3); [discriminate|congruence|discriminate]. }
    intros r1 _ n E. exact (H n r1 E). }
  assert (Herr : forall s1, separated_nonempty_list multispace0 statement s1 = Err -> statement s1 = Err).
  { intros s1 H. specialize (Hlist s1). rewrite H in Hlist. unfold statement_list_e, statement_e in Hlist.
    destruct (statement s1) as [r1 a| |] eqn:E; [|reflexivity|discriminate Hlist].
    replace (length r1 =? length s1) with false in Hlist
      by (symmetry; apply Nat.eqb_neq; apply statement_shorter in E; lia).
    destruct (sep_loop _ _ _ r1); discriminate Hlist. }
  assert (Huniq : forall b s1 b' s1', blanks b -> no_blank s1 -> blanks b' -> no_blank s1' ->
            b ++ s1 = b' ++ s1' -> b = b' /\ s1 = s1').
  { intros b s1 b' s1' H1 H2 H3 H4 E. pose proof (span_blank_app_eq b s1 H1 H2) as E1.
    rewrite E, (span_blank_app_eq b' s1' H3 H4) in E1. injection E1; auto. }
  unfold file_e, statements_e. change is_multispace with is_blank.
  destruct (span_blank_split s) as (b & s1 & E & -> & Hb & Hs1). rewrite E, Hlist. split.
  - intros H. exists b, s1. split; [reflexivity|]. split; [exact Hb|]. split; [exact Hs1|].
    destruct (separated_nonempty_list multispace0 statement s1) as [r1 l| |] eqn:Hl; [| |discriminate H].
    + destruct (span_blank_split r1) as (b2 & r2 & E2 & -> & Hb2 & Hr2). rewrite E2 in H.
      destruct r2 as [|c r2]; [discriminate H|]. injection H as <- <-. right.
      split; [reflexivity|]. split; [discriminate|]. split; [exact Hr2|]. exists l, b2.
      apply list_reads in Hl as [Hl Hst]. split; [exact Hl|]. split; [exact Hb2|].
      destruct b2 as [|d b2]; [left; reflexivity|right]. destruct Hst as [Hst|Hst].
      * cbn [app no_blank] in Hst. apply andb_true_iff in Hb2 as [Hd _]. congruence.
      * apply (Hst (d :: b2)); [reflexivity|split; [discriminate|exact Hb2]|exact Hr2].
    + injection H as <- <-. left. auto.
  - intros (b' & s1' & Es & Hb' & Hs1' & H).
    destruct (Huniq b s1 b' s1' Hb Hs1 Hb' Hs1' Es) as [<- <-].
    destruct H as [(-> & -> & H)|(-> & Hne & Hr & l & b2 & H & Hb2 & Hst)].
    + unfold separated_nonempty_list. rewrite H. reflexivity.
    + rewrite (proj2 (list_reads s1 l (b2 ++ r))).
      * rewrite (span_blank_app_eq b2 r Hb2 Hr). destruct r; [congruence|reflexivity].
      * split; [exact H|]. destruct Hst as [->|Hst]; [left; exact Hr|right].
        intros b3 s' E3 [_ Hb3] Hs'. destruct (Huniq b2 r b3 s' Hb2 Hr Hb3 Hs' E3) as [_ <-]. exact Hst.
Qed.
