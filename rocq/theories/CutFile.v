(** * Cutting declarations out of files and joining them *)
From Verif Require Import Base Nom Regex Ast Good Spec Helpers Types Expr Stmt Lexers Total
  Layout Seqs Grammar Follow Sound SoundE SoundS LexProps Heads Rules Render CompleteT CompleteE
  CompleteX CompleteS Round Language Chains Exact Keywords Decls Brackets TypesExact Solution Errors Front Cut CutS.

(** [w] goes on in column 0: skipping line feeds, spaces and line comments one
    comes to a new line, whose first character is neither a space nor a hyphen nor
    a bar; or to the end of the text, after at least one line feed. *)
Definition new_line_at_0 (w : str) : Prop :=
  exists b s, trivia_run w b s /\ has_newline b = true /\ (s = [] \/ last_line b = []) /\
    ends (fun c => (c =? C "-")%N || (c =? C "|")%N) s.

(** no blank at the end, except in a line comment *)
Definition trimmed (c : str) : Prop :=
  forall c' h, c = c' ++ [h] -> is_blank h = true -> (exists d, c = L "--" ++ d) /\ has_newline c = false.

(** the text between two declarations: spaces and line feeds; the first and the
    last character are line feeds *)
Definition gap (g : str) : Prop :=
  (exists g', g = newline :: g') /\ forallb is_space_or_newline g = true /\ last_line g = [].

(** ** Cutting *)
Lemma file_one c st : no_blank c -> statement c = Ok [] st -> file c = Ok [] [st].
Proof.
  intros Hc H. apply file_reads. exists [], c, []. split; [reflexivity|]. split; [reflexivity|]. split; [exact Hc|].
  split; [constructor; exact H|reflexivity].
Qed.
Lemma cut_one c w st : no_blank (c ++ w) -> c <> [] -> (w = [] \/ exists h w', w = h :: w' /\ is_blank h = true) ->
  without_expression st = true -> statement (c ++ w) = Ok w st -> file c = Ok [] [st].
Proof.
  intros Hb Hc Hw Hp H. apply file_one; [destruct c; [congruence|exact Hb]|].
  destruct Hw as [->|Hw]; [rewrite app_nil_r in H; exact H|]. exact (plain_cut w Hw c st Hp H).
Qed.

Definition cut_out (p : str * str) (st : statement_ast) : Prop :=
  fst p <> [] /\ blanks (snd p) /\ (without_expression st = true -> file (fst p) = Ok [] [st]).

Lemma reads_cut s l r : reads s l r -> blanks r -> no_blank s ->
  exists parts : list (str * str), s = concat (map (fun p => fst p ++ snd p) parts) /\ Forall2 cut_out parts l.
Proof.
  induction 1 as [s st r H|s st b s' l r H Hb Hs' Hl IH]; intros Hr Hs.
  - destruct (proj1 all_progress _ _ _ H) as (c & Hc & ->). exists [(c, r)]. cbn. rewrite !app_nil_r. split; [reflexivity|].
    constructor; [|constructor]. split; [exact Hc|]. split; [exact Hr|]. intros Hp. apply (cut_one c r); auto.
    destruct r as [|h r]; [left; reflexivity|]. right. exists h, r. split; [reflexivity|]. apply andb_true_iff in Hr. apply Hr.
  - destruct (IH Hr Hs') as (parts & -> & HF). destruct (proj1 all_progress _ _ _ H) as (c & Hc & ->).
    exists ((c, b) :: parts). cbn [map concat fst snd]. rewrite <- !app_assoc. split; [reflexivity|].
    constructor; [|exact HF]. destruct Hb as [Hb1 Hb2]. split; [exact Hc|]. split; [exact Hb2|]. intros Hp.
    eapply cut_one; [exact Hs|exact Hc| |exact Hp|exact H]. right. destruct b as [|h b]; [congruence|].
    exists h, (b ++ concat (map (fun p => fst p ++ snd p) parts)). split; [reflexivity|]. apply andb_true_iff in Hb2. apply Hb2.
Qed.
Theorem file_cut s l : file s = Ok [] l ->
  exists b (parts : list (str * str)), s = b ++ concat (map (fun p => fst p ++ snd p) parts) /\ blanks b /\ Forall2 cut_out parts l.
Proof.
  intros H. apply file_reads in H as (b & s1 & r & -> & Hb & Hs & H & Hr).
  destruct (reads_cut _ _ _ H Hr Hs) as (parts & -> & HF). exists b, parts. auto.
Qed.

(** ** Joining *)
Lemma newline_blank : is_blank newline = true.
Proof. reflexivity. Qed.
Lemma line_comment_statement d : has_newline d = false -> statement (L "--" ++ d) = Ok [] (Comment d).
Proof.
  intros H. rewrite <- (app_nil_r (L "--" ++ d)), <- app_assoc. apply complete_statement. constructor; [|exact I].
  apply forallb_forall. intros x Hx. unfold not_newline. apply negb_true_iff, N.eqb_neq. intros ->.
  apply not_true_iff_false in H. apply H. apply existsb_exists. exists newline. split; [exact Hx|reflexivity].
Qed.
Lemma one_statement c st : file c = Ok [] [st] -> no_blank c -> trimmed c -> statement c = Ok [] st.
Proof.
  intros H Hc Ht. apply file_reads in H as (b & s1 & r & E & Hb & Hs & H & Hr).
  assert (b = []) as ->.
  { destruct b as [|x b]; [reflexivity|]. subst c. unfold no_blank in Hc. cbn [app] in Hc. apply andb_true_iff in Hb as [Hb _]. congruence. }
  cbn [app] in E. subst s1.
  assert (Hst : statement c = Ok r st). { inversion H; subst; [assumption|]. match goal with X : reads _ [] _ |- _ => inversion X end. }
  destruct r as [|x r]; [exact Hst|]. destruct (@exists_last _ (x :: r)) as (r' & h & Er); [discriminate|].
  destruct (proj1 all_progress _ _ _ Hst) as (u & _ & Eu). rewrite Er in Eu.
  destruct (Ht (u ++ r') h) as [(d & Ed) Hn].
  - rewrite Eu, app_assoc. reflexivity.
  - unfold blanks in Hr. rewrite Er, forallb_app in Hr. cbn in Hr. apply andb_true_iff in Hr as [_ Hr]. apply andb_true_iff in Hr. apply Hr.
  - rewrite Ed in Hst, Hn. rewrite line_comment_statement in Hst by exact Hn. discriminate Hst.
Qed.

Lemma reads_cons s st b s' l r : statement s = Ok (b ++ s') st -> blanks1 b -> no_blank s' -> reads s' l r -> reads s (st :: l) r.
Proof. intros. econstructor; eassumption. Qed.
Lemma spnl_blanks g : forallb is_space_or_newline g = true -> blanks g.
Proof.
  unfold blanks. rewrite !forallb_forall. intros H c Hc. specialize (H c Hc). unfold is_space_or_newline in H.
  apply orb_true_iff in H as [H|H]; apply N.eqb_eq in H; subst c; reflexivity.
Qed.

(** a declaration before a file *)
Theorem file_join c st g s l :
  file c = Ok [] [st] -> without_expression st = true -> trimmed c ->
  (exists g', g = newline :: g') -> blanks g -> new_line_at_0 (g ++ s) ->
  file s = Ok [] l -> file (c ++ g ++ s) = Ok [] (st :: l).
Proof.
  intros Hc Hp Ht Hg Hgb Hn Hs.
  destruct (span_blank_split c) as (bc & c1 & _ & -> & Hbc & Hc1).
  assert (Hc' : file c1 = Ok [] [st]).
  { apply file_reads in Hc as (b & s1 & r & E & Hb & Hs1 & H & Hr). apply file_reads. exists [], c1, r.
    split; [reflexivity|]. split; [reflexivity|]. split; [exact Hc1|]. split; [|exact Hr].
    pose proof (span_blank_app_eq b s1 Hb Hs1) as E1. pose proof (span_blank_app_eq bc c1 Hbc Hc1) as E2. rewrite E in E2.
    rewrite E1 in E2. injection E2 as _ <-. exact H. }
  assert (Ht' : trimmed c1).
  { intros c' h -> Hh. destruct (Ht (bc ++ c') h) as [(d & Ed) Hd]; [rewrite app_assoc; reflexivity|exact Hh|].
    destruct bc as [|x bc]; [split; [eauto|exact Hd]|]. cbn in Ed. injection Ed as -> _. discriminate Hbc. }
  assert (Hst : statement c1 = Ok [] st) by (apply one_statement; assumption).
  apply file_reads in Hs as (b & s1 & r & -> & Hb & Hs1 & H & Hr).
  apply file_reads. exists bc, (c1 ++ g ++ b ++ s1), r. rewrite <- !app_assoc. split; [reflexivity|]. split; [exact Hbc|].
  destruct (proj1 all_progress _ _ _ Hst) as (u & Hu & Eu). rewrite app_nil_r in Eu. subst u.
  split; [destruct c1; [congruence|exact Hc1]|]. split; [|exact Hr].
  apply (reads_cons _ st (g ++ b) s1).
  - rewrite <- app_assoc. destruct Hg as (g' & ->). apply plain_join; auto.
    + exists newline, (g' ++ b ++ s1). split; reflexivity.
    + exists (g' ++ b ++ s1). reflexivity.
  - destruct Hg as (g' & ->). split; [discriminate|]. unfold blanks. rewrite forallb_app. apply andb_true_iff. split; assumption.
  - exact Hs1.
  - exact H.
Qed.

(** many declarations *)
Lemma head_of c st : statement c = Ok [] st -> without_expression st = true ->
  (exists d, c = L "--" ++ d /\ has_newline d = false) \/
  (no_trivia c /\ ends (fun c => (c =? C "-")%N || (c =? C "|")%N) c).
Proof.
  intros H Hp. apply statement_rule_iff in H.
  assert (Hh : forall h c', c = h :: c' -> (h =? space)%N = false -> (h =? newline)%N = false -> (h =? C "-")%N = false ->
    (h =? C "|")%N = false -> no_trivia c /\ ends (fun c => (c =? C "-")%N || (c =? C "|")%N) c).
  { intros h c' -> H1 H2 H3 H4. apply N.eqb_neq in H1, H2. cbn [ends]. rewrite H3, H4. split; [|reflexivity].
    split; [exact H1|]. split; [exact H2|]. intros [H5 _]. apply N.eqb_neq in H3. contradiction. }
  destruct st as [q e|q e|q fs e|q al ex|n ty|n cs|n ty|n args e|f|a v n|x]; try discriminate Hp; cbn [statement_rule] in H.
  - right. destruct H as (t1 & t2 & t3 & s' & _ & _ & _ & _ & _ & ->). eapply Hh; reflexivity.
  - right. destruct H as (t0 & t1 & t2 & t3 & s' & _ & _ & _ & _ & _ & _ & ->). eapply Hh; reflexivity.
  - right. destruct H as (t0 & t1 & t2 & t3 & sf & t4 & t5 & s' & H). decompose [and] H. subst c. eapply Hh; reflexivity.
  - right. destruct H as (b & s1 & s2 & -> & _). eapply Hh; reflexivity.
  - right. destruct H as (b1 & b2 & s1 & b3 & t & j & s2 & -> & _). eapply Hh; reflexivity.
  - right. destruct H as (b & s1 & t1 & m & t2 & j & s2 & k & cs' & s3 & -> & _). eapply Hh; reflexivity.
  - right. destruct H as (b1 & b2 & t & j & s' & -> & _). eapply Hh; reflexivity.
  - right. destruct H as [(u & b & d & b' & -> & Hu & _) _]. destruct Hu; eapply Hh; reflexivity.
  - destruct H as [(-> & H1 & _)|(-> & _)].
    + left. exists x. rewrite app_nil_r. split; [reflexivity|]. apply not_newline_no_newline, H1.
    + right. eapply Hh; reflexivity.
Qed.

Lemma new_line_over c st g w : statement c = Ok [] st -> without_expression st = true -> gap g ->
  (w = [] \/ (new_line_at_0 w /\ exists w', w = newline :: w')) -> new_line_at_0 (g ++ c ++ w).
Proof.
  intros H Hp ((g' & Eg) & Hsp & Hl) Hw. destruct (spnl_trivia _ Hsp) as [Hg Hg'].
  assert (Hgn : has_newline g = true) by (rewrite Eg; reflexivity).
  assert (Happ : forall a b, trivia a -> trivia b -> closed a -> trivia (a ++ b)) by (intros; apply trivia_app_closed; assumption).
  destruct (head_of c st H Hp) as [(d & -> & Hd)|[Hc He]].
  - assert (Hd' : forallb not_newline d = true).
    { apply forallb_forall. intros x Hx. unfold not_newline. apply negb_true_iff, N.eqb_neq. intros ->.
      apply not_true_iff_false in Hd. apply Hd. apply existsb_exists. exists newline. split; [exact Hx|reflexivity]. }
    destruct Hw as [->|[(b & s & (-> & Hb & Hs & Hcl) & Hbn & Hcol & He) (w' & Ew)]].
    + exists (g ++ L "--" ++ d), []. split.
      * split; [rewrite !app_nil_r; reflexivity|]. split; [|split; [exact I|auto]].
        apply Happ; [exact Hg| |exact Hg']. rewrite <- (app_nil_r (L "--" ++ d)), <- app_assoc. apply trivia_comment; [exact Hd'|exact I|constructor].
      * split; [rewrite has_newline_app, Hgn; reflexivity|]. split; [left; reflexivity|exact I].
    + exists (g ++ L "--" ++ d ++ b), s.
      assert (Ll : last_line (g ++ L "--" ++ d ++ b) = last_line b) by (rewrite !last_line_app_newline by (rewrite ?has_newline_app, ?Hbn, ?orb_true_r; reflexivity); reflexivity).
      split; [|split; [rewrite has_newline_app, Hgn; reflexivity|split; [rewrite Ll; exact Hcol|exact He]]].
      split; [rewrite <- !app_assoc; reflexivity|]. split; [|split; [exact Hs|rewrite Ll; exact Hcl]].
      apply Happ; [exact Hg| |exact Hg']. apply trivia_comment; [exact Hd'| |exact Hb].
      destruct b as [|x b]; [exact I|]. injection Ew as -> _. reflexivity.
  - exists g, (c ++ w). destruct (proj1 all_progress _ _ _ H) as (u & Hu & Eu). rewrite app_nil_r in Eu. subst u.
    destruct c as [|x c]; [congruence|]. split; [|split; [exact Hgn|split; [auto|exact He]]].
    split; [reflexivity|]. split; [exact Hg|]. split; [|left; rewrite Hl; reflexivity].
    destruct Hc as (H1 & H2 & H3). split; [exact H1|]. split; [exact H2|]. intros [-> _]. discriminate He.
Qed.

(** declarations, each followed by a gap, and then a file *)
Definition declaration (p : str * str) (st : statement_ast) : Prop :=
  file (fst p) = Ok [] [st] /\ without_expression st = true /\ no_blank (fst p) /\ trimmed (fst p) /\ gap (snd p).
Definition text_of (parts : list (str * str)) : str := concat (map (fun p => fst p ++ snd p) parts).

Lemma gap_blanks g : gap g -> blanks g.
Proof. intros (_ & H & _). apply spnl_blanks, H. Qed.
Theorem file_joins parts sts s l :
  Forall2 declaration parts sts -> file s = Ok [] l ->
  (forall g, gap g -> new_line_at_0 (g ++ s)) -> file (text_of parts ++ s) = Ok [] (sts ++ l).
Proof.
  intros HF Hs Hn.
  assert (file (text_of parts ++ s) = Ok [] (sts ++ l) /\ forall g, gap g -> new_line_at_0 (g ++ text_of parts ++ s)); [|tauto].
  induction HF as [|[c g] st parts sts (H1 & H2 & H3 & H4 & H5) HF [IH1 IH2]]; [auto|].
  unfold text_of in *. cbn [map concat fst snd app] in *. rewrite <- !app_assoc. split.
  - apply file_join; auto; [apply H5|apply gap_blanks, H5].
  - intros g0 Hg0. rewrite <- ?app_assoc. apply (new_line_over c st); [apply one_statement; assumption|exact H2|exact Hg0|].
    right. split; [apply IH2, H5|]. destruct H5 as ((g' & ->) & _). eexists. reflexivity.
Qed.
Lemma new_line_texts parts sts g : Forall2 declaration parts sts -> gap g -> new_line_at_0 (g ++ text_of parts).
Proof.
  intros HF. revert g. induction HF as [|[c g] st parts sts (H1 & H2 & H3 & H4 & H5) HF IH]; intros g0 Hg0.
  - destruct Hg0 as ((g' & Eg) & Hsp & Hl). destruct (spnl_trivia _ Hsp) as [Hg Hg']. exists g0, [].
    split; [split; [reflexivity|split; [exact Hg|split; [exact I|auto]]]|]. split; [rewrite Eg; reflexivity|]. split; [auto|exact I].
  - cbn [fst snd] in *. unfold text_of. cbn [map concat fst snd]. rewrite <- app_assoc.
    apply (new_line_over c st); [apply one_statement; assumption|exact H2|exact Hg0|].
    right. split; [apply IH, H5|]. destruct H5 as ((g' & ->) & _). eexists. reflexivity.
Qed.
Theorem file_of_declarations parts sts : Forall2 declaration parts sts -> parts <> [] -> file (text_of parts) = Ok [] sts.
Proof.
  induction 1 as [|[c g] st parts sts (H1 & H2 & H3 & H4 & H5) HF IH]; [congruence|]. intros _.
  cbn [fst snd] in *. unfold text_of. cbn [map concat fst snd]. rewrite <- app_assoc.
  destruct HF as [|q st' parts sts Hq HF].
  - pose proof (one_statement _ _ H1 H3 H4) as H. pose proof (new_line_texts [] [] g (Forall2_nil _) H5) as Hn.
    cbn in Hn |- *. rewrite app_nil_r in *.
    apply file_reads. exists [], (c ++ g), g. split; [reflexivity|]. split; [reflexivity|].
    destruct (proj1 all_progress _ _ _ H) as (u & Hu & Eu). rewrite app_nil_r in Eu. subst u.
    split; [destruct c; [congruence|exact H3]|]. split; [|apply gap_blanks, H5]. constructor.
    destruct H5 as ((g' & ->) & _). apply plain_join; auto; eexists; [eexists; split|]; reflexivity.
  - apply file_join; auto; [apply H5|apply gap_blanks, H5| |apply IH; discriminate].
    apply (new_line_texts _ (st' :: sts)); [constructor; assumption|exact H5].
Qed.
