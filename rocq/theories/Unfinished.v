(** * Unfinished text at the end of a file *)
From Verif Require Import Base Nom Regex Ast Good Spec Helpers Types Expr Stmt Lexers Total Layout Seqs Grammar Follow Sound SoundE SoundS LexProps Heads Rules
  Render CompleteT CompleteE CompleteX CompleteS Round Language Chains Exact Keywords Decls Brackets TypesExact Solution Errors Front Cut CutS CutFile Trail
  TwoRuns Names Rename RenameSim RenameAll Whole Steps Indep IndepAll IndepTop Fail.

(** [head u]: how [u], which begins in column 0 and may go on in any way, begins. *)
Inductive head : str -> Prop :=
(** with one of the words [module], [port], [import], [type] *)
| head_keyword k t : In k [L "module"; L "port"; L "import"; L "type"] -> ends is_name_char t -> head (k ++ t)
(** with a block comment, whose text does not begin with a minus *)
| head_block t : ends (fun c => (c =? C "-")%N) t -> head (L "{-" ++ t)
(** with a line comment, after which there is nothing, or a line feed and another such beginning *)
| head_line d : has_newline d = false -> head (L "--" ++ d)
| head_lines d g u : has_newline d = false -> gap g -> head u -> head (L "--" ++ d ++ g ++ u)
(** with the name that is defined, names of parameters, and an equals sign or a colon *)
| head_definition n s l b c y : RName n s (concat (map (fun p : str * str => fst p ++ snd p) l) ++ b ++ c :: y) ->
    Forall (fun p => spaces1 (fst p) /\ lower_name (snd p)) l -> spaces1 b -> c = C "=" \/ c = C ":" -> ends is_op_char y -> head s
(** with a name, and there is no [>] in the text *)
| head_name n s r : RName n s r -> ~ In (C ">") s -> head s.

Lemma spaces_head b x (P : char -> bool) : spaces1 b -> P space = false -> ends P (b ++ x).
Proof. intros [Hne Hb] HP. destruct b as [|a b]; [congruence|]. apply andb_true_iff in Hb as [Hb _]. apply N.eqb_eq in Hb. subst a. exact HP. Qed.
Lemma name_argument i n r : lower_name n -> ends is_name_char r -> ends (fun x => (x =? C ".")%N) r -> term i (n ++ r) = Ok r (Variable_ [n]).
Proof.
  intros Hn Hr Hd. assert (Hv : RVar (Variable_ [n]) (n ++ r) r) by (constructor; [exact Hn|right; exact Hr]).
  change (Variable_ [n]) with (with_fields (Variable_ [n]) []). apply (name_term_iff i _ _ _ _ _ Hv). exists []. split; [constructor|]. split; [|reflexivity].
  intros t s0 x r' -> Ht _. unfold dot in Ht. subst t. discriminate Hd.
Qed.
Lemma name_arguments l z : Forall (fun p : str * str => spaces1 (fst p) /\ lower_name (snd p)) l ->
  (exists b x, z = b ++ x /\ spaces1 b) ->
  (exists b x, concat (map (fun p : str * str => fst p ++ snd p) l) ++ z = b ++ x /\ spaces1 b) /\
  items spaces1 (next_argument 0) (concat (map (fun p : str * str => fst p ++ snd p) l) ++ z) (map (fun p => Variable_ [snd p]) l) z.
Proof.
  intros Hl Hz. induction Hl as [|[b n] l [Hb Hn] _ [(b' & x & E & Hb') IH]]; [split; [exact Hz|constructor]|].
  cbn [map concat fst snd] in *. rewrite <- !app_assoc. split; [eexists b, _; split; [reflexivity|exact Hb]|].
  apply (items_cons spaces1 (next_argument 0) b (n ++ concat (map (fun p : str * str => fst p ++ snd p) l) ++ z) (Variable_ [n]) (concat (map (fun p : str * str => fst p ++ snd p) l) ++ z)); [exact Hb| |exact IH].
  unfold next_argument. rewrite E. apply name_argument; [exact Hn| |]; apply spaces_head; auto.
Qed.

Lemma plain_apart s : ends is_blank s -> ends is_op_char s -> apart s s.
Proof. intros H1 H2. split; [exact H1|]. split; [exact H1|]. split; [exact H2|]. exists []. split; [reflexivity|]. split; [constructor|left; reflexivity]. Qed.
Lemma head_start u : head u -> no_blank u /\ exists v, new_start u v.
Proof.
  induction 1 as [k t Hk Ht|t Ht|d Hd|d g u Hd Hg Hu [_ (v & IH)]|n s l b c y Hn Hl Hb Hc Hy|n s r Hn Hs].
  - split; [repeat (destruct Hk as [<-|Hk]; [reflexivity|]); destruct Hk|]. eexists. apply start_keyword; assumption.
  - split; [reflexivity|]. eexists. apply start_block, Ht.
  - split; [reflexivity|]. exists []. destruct nothing_starts as (_ & H2 & H3). split; [|auto].
    split; [reflexivity|]. split; [exact I|]. split; [exact I|]. exists (L "--" ++ d). split; [rewrite app_nil_r; reflexivity|]. split.
    + rewrite <- (app_nil_r d). apply trivia_comment; [|exact I|constructor]. apply forallb_forall. intros x Hx. unfold not_newline. apply negb_true_iff, N.eqb_neq. intros ->.
      apply not_true_iff_false in Hd. apply Hd. apply existsb_exists. exists newline. split; [exact Hx|reflexivity].
    + right. split; [reflexivity|]. change (newline :: L "--" ++ d) with ([newline] ++ L "--" ++ d).
      rewrite (last_line_app_plain [newline] (L "--" ++ d)) by exact Hd. reflexivity.
  - split; [reflexivity|]. exists v. apply start_comment; auto. apply forallb_forall. intros x Hx. unfold not_newline. apply negb_true_iff, N.eqb_neq. intros ->.
    apply not_true_iff_false in Hd. apply Hd. apply existsb_exists. exists newline. split; [exact Hx|reflexivity].
  - destruct (name_start _ _ _ Hn) as (N1 & N2 & N3). split; [exact N1|]. exists s. split; [apply plain_apart; assumption|]. split; [exact N3|].
    eapply dead_name; [exact Hn| |exact Hb|exact Hc|exact Hy]. apply name_arguments; [exact Hl|]. eauto.
  - destruct (name_start _ _ _ Hn) as (N1 & N2 & N3). split; [exact N1|]. exists s. split; [apply plain_apart; assumption|]. split; [exact N3|].
    destruct (case_f expression 0 s) as [r' a| |] eqn:E; try exact I. apply branch_iff in E as (t1 & j1 & t2 & j2 & s' & Hp & _).
    apply sound_expression in Hp as (w & -> & _). apply Hs. do 2 (apply in_or_app; right). right. left. reflexivity.
Qed.

(** ** What was read stays read *)
Lemma reads_app s l r0 : reads s l r0 -> forall b s' l' r, r0 = b ++ s' -> blanks1 b -> no_blank s' -> reads s' l' r -> reads s (l ++ l') r.
Proof.
  induction 1 as [s st r0 H|s st b0 s0 l r0 H Hb0 Hs0 Hl IH]; intros b s' l' r -> Hb Hs' Hr.
  - eapply reads_cons; eassumption.
  - eapply reads_cons; [exact H|exact Hb0|exact Hs0|]. eapply IH; eauto.
Qed.
Lemma reads_until v v0 : new_start v v0 -> no_blank v -> forall s l r, reads s l r -> forall b w, s = w ++ [newline] ->
  whole b 0 w -> blanks r -> Forall by_hand l -> exists t, blanks1 t /\ reads (w ++ newline :: v) l (t ++ v).
Proof.
  intros Hv Hb. induction 1 as [s st r H|s st t s' l r H Ht Hs' Hl IH]; intros b w -> Hw Hr Hf; inversion Hf as [|? ? Hst Hf']; subst.
  - destruct (over_statement v v0 b w r st Hv Hw Hst H) as (b2 & w2 & Hw2 & -> & H').
    exists (w2 ++ [newline]). split; [split; [destruct w2; discriminate|exact Hr]|]. constructor. rewrite <- app_assoc. exact H'.
  - destruct (over_statement v v0 b w _ st Hv Hw Hst H) as (b2 & w2 & Hw2 & E & H').
    destruct (split_two _ _ _ _ E) as [(w3 & -> & ->)|(t2 & -> & E2)].
    + destruct (IH b2 w3 eq_refl) as (t' & Ht' & IH'); [eapply drop_blanks; [apply Ht|exact Hw2]|exact Hr|exact Hf'|].
      exists t'. split; [exact Ht'|]. apply (reads_cons _ st t (w3 ++ newline :: v)); [rewrite app_assoc; exact H'|exact Ht|destruct w3; [discriminate Hs'|exact Hs']|exact IH'].
    + exfalso. symmetry in E2. apply app_eq_nil in E2 as [-> ->]. eapply reads_nil, Hl.
Qed.
Lemma piece_until c g sts s s0 : piece (c, g) sts -> new_start s s0 -> no_blank s ->
  (exists t, new_start (c ++ g ++ s) t) /\ no_blank (c ++ g ++ s) /\ exists t, blanks1 t /\ reads (c ++ g ++ s) sts (t ++ s).
Proof.
  intros (Hg & Hc & Hf & Hk) Hs Hsb. cbn [fst snd] in *.
  assert (Hne : c <> []). { intros ->. apply file_at_once in Hf as (r & Hf & _); [|exact I]. eapply reads_nil, Hf. }
  assert (Hcb : forall x, no_blank (c ++ x)) by (intros x; destruct c; [congruence|exact Hc]).
  assert (Hlg : line_end g) by (destruct Hg as ((g' & ->) & _); reflexivity). pose proof (gap_blanks g Hg) as Hbg.
  assert (Hjoin : forall st, sts = [st] -> without_expression st = true -> trimmed c -> exists t, blanks1 t /\ reads (c ++ g ++ s) sts (t ++ s)).
  { intros st -> Hp Ht. exists g. split; [split; [destruct Hg as ((g' & ->) & _); discriminate|exact Hbg]|]. constructor.
    pose proof (one_statement c st Hf Hc Ht) as Hst. pose proof (start_new_line _ _ _ Hs Hg) as Hn. destruct Hg as ((g' & ->) & _).
    apply plain_join; auto; eexists; [eexists; split|]; reflexivity. }
  destruct Hk as [(Hw & Hd & Hb)|[(st & -> & Ht & Hh)|(d & -> & Hd)]].
  - destruct (gap_split g Hg) as (g1 & -> & Hg1 & Hl1). pose proof (whole_blanks false 0 c g1 Hg1 Hl1 Hw) as Hw1.
    assert (Hr : exists r, reads ((c ++ g1) ++ [newline]) sts r /\ blanks r).
    { apply file_at_once; [rewrite <- app_assoc; apply Hcb|]. rewrite <- app_assoc, file_trail_line; assumption. }
    destruct Hr as (r & Hr & Hrb).
    assert (E : c ++ (g1 ++ [newline]) ++ s = (c ++ g1) ++ newline :: s) by (rewrite <- !app_assoc; reflexivity). split; [|split; [apply Hcb|]].
    + assert (Hst : exists st r1, statement ((c ++ g1) ++ [newline]) = Ok r1 st /\ by_hand st).
      { inversion Hr as [? st ? K|? st ? ? l0 ? K]; subst; inversion Hb; subst; eauto. }
      destruct Hst as (st & r1 & Hst & Hh). pose proof Hst as Hst0. destruct (over_statement s s0 false (c ++ g1) r1 st Hs Hw1 Hh Hst) as (b2 & w2 & _ & _ & Hst').
      rewrite E. exists ((c ++ g1) ++ newline :: s). destruct st; try destruct Hh.
      * apply statement_function_iff in Hst'. eapply start_definition; eassumption.
      * exfalso. apply statement_comment_iff, comment_iff in Hst as (x & _ & [(Ex & _)|(Ex & _)]); destruct c as [|a c]; [congruence| |congruence|].
        -- injection Ex as -> _. discriminate Hd.
        -- injection Ex as -> Ex. change (whole false 0 (C "{" :: (c ++ g1))) in Hw1. apply inv_open in Hw1; [|reflexivity]. destruct Hw1 as (_ & Hw1 & _). specialize (Hw1 eq_refl).
           destruct (c ++ g1) as [|y q]; cbn in Ex; [discriminate Ex|]. injection Ex as -> _. cbn in Hw1. discriminate Hw1.
    + rewrite E. eapply reads_until; eauto.
  - pose proof (one_statement c st Hf Hc Ht) as Hst. split; [exists (c ++ g ++ s)|split; [apply Hcb|]].
    + destruct Hh as [Hh|(d & t & -> & Hd & _)]; [eapply headed_start; eassumption|]. rewrite <- app_assoc. apply start_block.
      destruct d as [|x d]; [|exact Hd]. destruct Hg as ((g' & ->) & _). reflexivity.
    + apply (Hjoin st); auto. destruct Hh as [Hh|(d & t & _ & _ & ->)]; [|reflexivity]. destruct st; try destruct Hh; reflexivity.
  - assert (Hn : forallb not_newline d = true).
    { apply forallb_forall. intros x Hx. unfold not_newline. apply negb_true_iff, N.eqb_neq. intros ->.
      apply not_true_iff_false in Hd. apply Hd. apply existsb_exists. exists newline. split; [exact Hx|reflexivity]. }
    split; [exists s0; rewrite <- app_assoc; apply start_comment; assumption|]. split; [apply Hcb|].
    pose proof (file_one _ _ Hc (line_comment_statement d Hd)) as Hf'. rewrite Hf in Hf'. injection Hf' as ->.
    apply (Hjoin (Comment d)); auto. intros c' h _ _. split; [eauto|]. cbn [app]. exact Hd.
Qed.
Theorem pieces_until parts stss u : Forall2 piece parts stss -> parts <> [] -> head u ->
  no_blank (text_of parts ++ u) /\ exists t, blanks1 t /\ reads (text_of parts ++ u) (concat stss) (t ++ u).
Proof.
  intros HF Hne Hu. destruct (head_start u Hu) as [Hu1 (v & Hu2)].
  enough (K : (exists t, new_start (text_of parts ++ u) t) /\ no_blank (text_of parts ++ u) /\
    (parts <> [] -> exists t, blanks1 t /\ reads (text_of parts ++ u) (concat stss) (t ++ u))) by (destruct K as (_ & K1 & K2); auto).
  clear Hne. induction HF as [|[c g] sts parts stss Hp HF ((t & IH1) & IH2 & IH3)].
  - split; [exists v; exact Hu2|]. split; [exact Hu1|congruence].
  - destruct (piece_until c g sts (text_of parts ++ u) t Hp IH1 IH2) as (H1 & H2 & b & Hb & H3).
    unfold text_of in *. cbn [map concat fst snd]. rewrite <- !app_assoc. split; [exact H1|]. split; [exact H2|]. intros _.
    destruct HF as [|p l ps ls Hp' HF]; [cbn [map concat app] in *; rewrite app_nil_r; eauto|].
    destruct IH3 as (b' & Hb' & IH3); [discriminate|]. exists b'. split; [exact Hb'|]. eapply reads_app; eauto.
Qed.

(** ** The error is the one of the unfinished text alone *)
Lemma head_nonempty u : head u -> u <> [].
Proof.
  assert (Hn : forall n s r, RName n s r -> s <> []).
  { intros n s r [n' r' H _|o r' _]; [destruct (lower_name_head n' H) as (c & t & -> & _)|]; discriminate. }
  intros H. destruct H as [k t Hk|t|d|d g v|n s l b c y H1|n s r H1]; try discriminate; [|eapply Hn, H1..].
  repeat (destruct Hk as [<-|Hk]; [discriminate|]). destruct Hk.
Qed.
Lemma pieces_ok parts stss u l : Forall2 piece parts stss -> parts <> [] -> head u -> file u = Ok [] l ->
  file (text_of parts ++ u) = Ok [] (concat stss ++ l).
Proof.
  intros HF Hne Hu H. destruct (pieces_until parts stss u HF Hne Hu) as (Hn & t & Ht & Hr). destruct (head_start u Hu) as [Hub _].
  apply file_at_once in H as (r & H & Hrb); [|exact Hub]. apply file_at_once; [exact Hn|]. exists r. split; [|exact Hrb]. eapply reads_app; eauto.
Qed.
Lemma pieces_error parts stss u r k : Forall2 piece parts stss -> parts <> [] -> head u -> file_e u = EError r k ->
  file_e (text_of parts ++ u) = EError r KEof.
Proof.
  intros HF Hne Hu K. destruct (pieces_until parts stss u HF Hne Hu) as (Hn & t & Ht & Hr). destruct (head_start u Hu) as [Hub _].
  apply file_error in K as (b & s1 & E & Hb & Hs1 & K).
  assert (b = []) as ->. { destruct b as [|c b]; [reflexivity|]. exfalso. subst u. apply andb_true_iff in Hb as [Hb _]. apply not_true_iff_false in Hub. contradiction. }
  cbn [app] in E. subst s1. apply file_error. exists [], (text_of parts ++ u). split; [reflexivity|]. split; [reflexivity|]. split; [exact Hn|]. right. split; [reflexivity|].
  destruct K as [(_ & -> & K)|(_ & Hr1 & Hr2 & l' & b2 & K1 & K2 & K3)].
  - split; [apply head_nonempty, Hu|]. split; [exact Hub|]. exists (concat stss), t. split; [exact Hr|]. split; [apply Ht|]. right. exact K.
  - split; [exact Hr1|]. split; [exact Hr2|]. exists (concat stss ++ l'), b2. split; [eapply reads_app; eauto|]. auto.
Qed.
