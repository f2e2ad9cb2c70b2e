(** * Success and failure of layout and lists *)
From Verif Require Import Base Nom Regex Ast Good Spec Helpers Types Expr Stmt Lexers Total
  Layout Seqs Grammar Follow Sound SoundE SoundS LexProps Heads.

Notation sp := spaces_or_new_lines_and_indent.

(** ** Layout *)

Lemma trivia_run_intro t r : trivia t -> closed t -> no_trivia r -> trivia_run (t ++ r) t r.
Proof. intros Ht Hc Hr. repeat split; auto. Qed.
Lemma trivia_run_nil r : no_trivia r -> trivia_run r [] r.
Proof. intros H. apply (trivia_run_intro []); [constructor|reflexivity|exact H]. Qed.
Lemma lay_run R i t j r : lay R i t j -> no_trivia r -> trivia_run (t ++ r) t r.
Proof. intros (Ht & Hc & _) Hr. apply trivia_run_intro; assumption. Qed.

Lemma sp_intro ir i t j r :
  lay (ir_rel ir) i t j -> no_trivia r -> sp i ir (t ++ r) = Ok r j.
Proof.
  intros Hl Hr. apply sp_iff. exists t. split; [eapply lay_run; eassumption|].
  destruct Hl as (_ & _ & Hne & Ha & ->). auto.
Qed.
Lemma sp_ge i t j r : lay_ge i t j -> no_trivia r -> sp i IR_GTE (t ++ r) = Ok r j.
Proof. apply (sp_intro IR_GTE). Qed.
Lemma sp_gt i t j r : lay_gt i t j -> no_trivia r -> sp i IR_GT (t ++ r) = Ok r j.
Proof. apply (sp_intro IR_GT). Qed.
Lemma sp_eq i t j r : lay_eq i t j -> no_trivia r -> sp i IR_EQ (t ++ r) = Ok r j.
Proof. apply (sp_intro IR_EQ). Qed.

Lemma sp_Err i ir s t r : trivia_run s t r ->
  t = [] \/ (has_newline t = true /\ ~ ir_rel ir (width i t) i) -> sp i ir s = Err.
Proof.
  intros Hrun H. destruct (sp_run i ir s t r Hrun) as [[_ H']|[(Hne & Ha & H')|(_ & _ & H')]]; auto.
  exfalso. destruct H as [->|[Hn Hr]]; [auto|]. apply Hr, Ha, Hn.
Qed.
Lemma sp_nil i ir r : no_trivia r -> sp i ir r = Err.
Proof. intros H. apply (sp_Err i ir r [] r); [apply trivia_run_nil; exact H|auto]. Qed.

(** whatever layout does, it leaves the text or what follows its trivia *)
Lemma sp_cases i ir s t r : trivia_run s t r ->
  sp i ir s = Err \/ (t <> [] /\ sp i ir s = Ok r (width i t)).
Proof.
  intros Hrun. destruct (sp_run i ir s t r Hrun) as [[_ H']|[(Hne & Ha & H')|(_ & _ & H')]]; auto.
Qed.

Lemma opt_sp_intro i t r : olay i t -> no_trivia r -> exists o, opt_sp i (t ++ r) = Ok r o.
Proof.
  intros [->|[j Hl]] Hr; unfold opt_sp; eexists.
  - apply opt_None, sp_nil, Hr.
  - eapply opt_Some, sp_ge; eassumption.
Qed.
Lemma opt_sp_nil i r : no_trivia r -> opt_sp i r = Ok r None.
Proof. intros Hr. apply opt_None, sp_nil, Hr. Qed.
Lemma opt_sp_cases i s t r : trivia_run s t r ->
  (exists o, opt_sp i s = Ok s o) \/ (exists o, opt_sp i s = Ok r o).
Proof.
  intros Hrun. unfold opt_sp. destruct (sp_cases i IR_GTE _ _ _ Hrun) as [H|[_ H]].
  - left. eexists. apply opt_None, H.
  - right. eexists. eapply opt_Some, H.
Qed.

Lemma opt_lay_intro i t r : olay i t -> no_trivia r ->
  exists n, opt_spaces_or_new_lines_and_indent i IR_GTE (t ++ r) = Ok r n.
Proof.
  intros Ht Hr. destruct (opt_sp_intro i t r Ht Hr) as [o Ho].
  unfold opt_spaces_or_new_lines_and_indent. eexists. apply map_intro. exact Ho.
Qed.
Lemma opt_lay_cases i s t r : trivia_run s t r ->
  (exists o, opt_spaces_or_new_lines_and_indent i IR_GTE s = Ok s o) \/
  (exists o, opt_spaces_or_new_lines_and_indent i IR_GTE s = Ok r o).
Proof.
  intros H. unfold opt_spaces_or_new_lines_and_indent.
  destruct (opt_sp_cases i _ _ _ H) as [[o Ho]|[o Ho]]; [left|right]; eexists;
    apply map_intro; exact Ho.
Qed.

(** ** No trivia at the head *)

Lemma no_trivia_char c r : c <> space -> c <> newline -> c <> C "-" -> no_trivia (c :: r).
Proof. intros H1 H2 H3. split; [exact H1|]. split; [exact H2|]. intros [He _]. auto. Qed.
Lemma no_trivia_minus c r : c <> C "-" -> no_trivia (C "-" :: c :: r).
Proof. intros H. split; [discriminate|]. split; [discriminate|]. intros [_ [r' He]]. congruence. Qed.
Lemma no_trivia_arrow r : no_trivia (L "->" ++ r).
Proof. apply no_trivia_minus. discriminate. Qed.

Lemma heads_no_trivia {A} P (p : parser A) s r a :
  heads P p -> (forall c, P c = true -> c <> space /\ c <> newline /\ c <> C "-") ->
  p s = Ok r a -> no_trivia s.
Proof.
  intros Hh HP H. destruct (Hh _ _ _ H) as (c & s' & -> & Hc).
  destruct (HP c Hc) as (H1 & H2 & H3). apply no_trivia_char; assumption.
Qed.

(** the first character of non-empty trivia *)
Lemma trivia_head t : trivia t -> t <> [] ->
  exists c t', t = c :: t' /\ (c = space \/ c = newline \/ c = C "-").
Proof.
  intros H Hne. destruct H; [congruence|..]; do 2 eexists; (split; [reflexivity|]); auto.
Qed.
Lemma lay_head R i t j : lay R i t j ->
  exists c t', t = c :: t' /\ (c = space \/ c = newline \/ c = C "-").
Proof. intros (Ht & _ & Hne & _). apply trivia_head; assumption. Qed.

(** [P] holds of none of the first characters of trivia, nor of [c] *)
Lemma ends_olay P i t c r : olay i t ->
  P space = false -> P newline = false -> P (C "-") = false -> P c = false ->
  ends P (t ++ c :: r).
Proof.
  intros [->|[j Hl]] H1 H2 H3 H4; [exact H4|].
  destruct (lay_head _ _ _ _ Hl) as (d & t' & -> & [->|[->| ->]]); assumption.
Qed.
Lemma ends_lay P R i t j r : lay R i t j ->
  P space = false -> P newline = false -> P (C "-") = false -> ends P (t ++ r).
Proof.
  intros Hl H1 H2 H3.
  destruct (lay_head _ _ _ _ Hl) as (d & t' & -> & [->|[->| ->]]); assumption.
Qed.

(** ** Lists *)

Definition eats {A} (p : parser A) : Prop := forall s r a, p s = Ok r a -> length r < length s.

Lemma ok_eats {A} (p : parser A) : (forall n, ok 1 n p p) -> eats p.
Proof. intros H s r a Ha. pose proof (ok_short 1 p s r a (H _) Ha). lia. Qed.
Lemma eats_length {A} (p : parser A) s r a : eats p -> p s = Ok r a -> length r <> length s.
Proof. intros He H. apply He in H. lia. Qed.

Lemma eats_le {A} (p : parser A) : eats p -> forall s r a, p s = Ok r a -> length r <= length s.
Proof. intros He s r a H. apply He in H. lia. Qed.

Lemma seps_cons {A B} (sep : parser B) (p : parser A) s s2 x s3 a l r :
  eats sep -> eats p -> sep s = Ok s2 x -> p s2 = Ok s3 a -> seps sep p s3 l r ->
  seps sep p s (a :: l) r.
Proof.
  intros H1 H2 Hs Hp Hl. eapply seps_more; eauto using eats_length.
Qed.
Lemma sep_list {A B} (sep : parser B) (p : parser A) s s1 a l r :
  eats sep -> eats p -> p s = Ok s1 a -> seps sep p s1 l r -> separated_list sep p s = Ok r (a :: l).
Proof. intros H1 H2 Hp Hl. eapply separated_list_intro; eauto using eats_length, eats_le. Qed.
Lemma sep_nonempty {A B} (sep : parser B) (p : parser A) s s1 a l r :
  eats sep -> eats p -> p s = Ok s1 a -> seps sep p s1 l r ->
  separated_nonempty_list sep p s = Ok r (a :: l).
Proof. intros H1 H2 Hp Hl. eapply separated_nonempty_list_intro; eauto using eats_length, eats_le. Qed.
Lemma sep_list_nil {A B} (sep : parser B) (p : parser A) s :
  p s = Err -> separated_list sep p s = Ok s [].
Proof. unfold separated_list. intros ->. reflexivity. Qed.
Lemma sep_stop_Err {A B} (sep : parser B) (p : parser A) s : sep s = Err -> sep_stop sep p s.
Proof. unfold sep_stop. intros ->. exact I. Qed.
Lemma sep_stop_next {A B} (sep : parser B) (p : parser A) s s' x :
  sep s = Ok s' x -> p s' = Err -> sep_stop sep p s.
Proof. unfold sep_stop. intros -> ->. auto. Qed.
Lemma manys_cons {A} (p : parser A) s s2 a l r :
  eats p -> p s = Ok s2 a -> manys p s2 l r -> manys p s (a :: l) r.
Proof. intros He Hp Hl. eapply manys_more; eauto using eats_length. Qed.
Lemma many0_ok {A} (p : parser A) s l r : eats p -> manys p s l r -> many0 p s = Ok r l.
Proof. intros He H. apply many0_intro; [apply eats_le, He|exact H]. Qed.
Lemma many_stop_Err {A} (p : parser A) s : p s = Err -> many_stop p s.
Proof. unfold many_stop. intros ->. exact I. Qed.

(** ** Commas *)

Lemma eats_comma i : eats (comma_sep i).
Proof. apply ok_eats. intros; oks. Qed.

Lemma comma_intro i t1 t2 s : olay i t1 -> olay i t2 -> no_trivia s ->
  comma_sep i (t1 ++ L "," ++ t2 ++ s) = Ok s (C ",").
Proof.
  intros H1 H2 Hs. destruct (opt_sp_intro i t1 (L "," ++ t2 ++ s) H1) as [o1 E1].
  { apply no_trivia_char; discriminate. }
  destruct (opt_sp_intro i t2 s H2 Hs) as [o2 E2].
  eapply delimited_intro; [exact E1|apply char_intro|exact E2].
Qed.

Definition not_char (c : char) (s : str) : Prop := ends (fun d => (d =? c)%N) s.

Lemma opt_sp_char_Err i s t r c : trivia_run s t r -> not_char c s -> not_char c r ->
  forall {A} (f : char -> parser A), (opt_sp i ;;; x <- char_ c ;; f x) s = Err.
Proof.
  intros Hrun H1 H2 A f. destruct (opt_sp_cases i _ _ _ Hrun) as [[o Ho]|[o Ho]];
    (eapply bind_Err2; [exact Ho|]); apply bind_Err1, char_Err; assumption.
Qed.

Lemma comma_Err i s t r : trivia_run s t r -> not_char (C ",") s -> not_char (C ",") r ->
  comma_sep i s = Err.
Proof. intros Hrun H1 H2. eapply (opt_sp_char_Err i s t r); eassumption. Qed.

Lemma comma_stop {A} i (p : parser A) t c r : olay i t -> no_trivia (c :: r) -> c <> C "," ->
  sep_stop (comma_sep i) p (t ++ c :: r).
Proof.
  intros Ht Hr Hc. apply sep_stop_Err.
  destruct (opt_sp_intro i t _ Ht Hr) as [o Ho]. unfold comma_sep, delimited.
  eapply bind_Err2; [exact Ho|]. apply bind_Err1, char_Err. cbn. apply N.eqb_neq, Hc.
Qed.

(** ** closing: optional layout, then a character *)
Lemma close_intro i t c r : olay i t -> no_trivia (c :: r) ->
  terminated (opt_sp i) (char_ c) (t ++ c :: r) =
  match opt_sp i (t ++ c :: r) with Ok _ o => Ok r o | _ => Err end.
Proof.
  intros Ht Hr. destruct (opt_sp_intro i t _ Ht Hr) as [o Ho]. rewrite Ho.
  eapply terminated_intro; [exact Ho|apply char_intro].
Qed.
Lemma close_ok i t c r : olay i t -> no_trivia (c :: r) ->
  exists o, terminated (opt_sp i) (char_ c) (t ++ c :: r) = Ok r o.
Proof.
  intros Ht Hr. destruct (opt_sp_intro i t _ Ht Hr) as [o Ho]. exists o.
  eapply terminated_intro; [exact Ho|apply char_intro].
Qed.
Lemma open_ok i c t r : olay i t -> no_trivia r ->
  exists o, preceded (char_ c) (opt_sp i) (c :: t ++ r) = Ok r o.
Proof.
  intros Ht Hr. destruct (opt_sp_intro i t _ Ht Hr) as [o Ho]. exists o.
  eapply preceded_intro; [apply char_intro|exact Ho].
Qed.

(** ** Blanks *)

Lemma multispace0_intro b r : blanks b -> ends is_blank r -> multispace0 (b ++ r) = Ok r b.
Proof.
  intros Hb Hr. change (multispace0 (b ++ r)) with (let '(a, x) := span is_blank (b ++ r) in Ok x a).
  rewrite (span_all is_blank b r Hb Hr). reflexivity.
Qed.
Lemma multispace_intro b r : blanks1 b -> ends is_blank r -> multispace (b ++ r) = Ok r b.
Proof.
  intros [Hne Hb] Hr. unfold multispace, take_while1.
  change is_multispace with is_blank. rewrite (span_all is_blank b r Hb Hr).
  destruct b; [congruence|reflexivity].
Qed.
Lemma space1_intro b r : tabs1 b -> ends is_space_or_tab r -> space1 (b ++ r) = Ok r b.
Proof.
  intros [Hne Hb] Hr. unfold space1, take_while1.
  assert (He : forall c, Nom.is_space c = is_space_or_tab c).
  { intros c. unfold Nom.is_space, is_space_or_tab, mem_char. simpl. rewrite orb_false_r. reflexivity. }
  assert (Hs : forall s, span Nom.is_space s = span is_space_or_tab s).
  { induction s as [|c s IH]; [reflexivity|]. simpl. rewrite He, IH. reflexivity. }
  rewrite Hs, (span_all is_space_or_tab b r Hb Hr).
  destruct b; [congruence|reflexivity].
Qed.
