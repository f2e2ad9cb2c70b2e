(** * The words of an accepted text *)
From Verif Require Import Base Ast Spec Grammar Leaves.

(** A word: an underscore, a numeral, or a letter followed by letters, digits and underscores *)
Definition word_shape (w : str) : Prop :=
  w = L "_" \/ digits1 w \/
  (exists c t, w = c :: t /\ is_lower c || is_upper c = true /\ forallb is_name_char t = true).

Definition contains (u s : str) : Prop := exists a b, s = a ++ u ++ b.

Lemma words_from_all u w : forallb is_name_char w = true -> words_from u w = match u ++ w with [] => [] | _ => [u ++ w] end.
Proof.
  revert u. induction w as [|c w IH]; intros u H; cbn in H |- *.
  - rewrite app_nil_r. reflexivity.
  - apply andb_true_iff in H as [H1 H2]. rewrite H1, IH by exact H2. rewrite <- app_assoc. reflexivity.
Qed.
Lemma words_one w : w <> [] -> forallb is_name_char w = true -> words w = [w].
Proof. intros Hw H. unfold words. rewrite words_from_all by exact H. destruct w; [congruence|reflexivity]. Qed.
Lemma words_none w : forallb (fun c => negb (is_name_char c)) w = true -> words w = [].
Proof.
  induction w as [|c w IH]; [reflexivity|]. cbn [forallb]. intros [H1 H2]%andb_true_iff. apply negb_true_iff in H1.
  rewrite words_skip by exact H1. apply IH, H2.
Qed.
Lemma words_sound w s : In w (words s) -> w <> [] /\ forallb is_name_char w = true.
Proof.
  unfold words. assert (K : forall u, forallb is_name_char u = true -> In w (words_from u s) -> w <> [] /\ forallb is_name_char w = true).
  { induction s as [|c s IH]; intros u Hu.
    - destruct u; cbn; [tauto|]. intros [<-|[]]. split; [discriminate|exact Hu].
    - cbn [words_from]. destruct (is_name_char c) eqn:E.
      + apply IH. rewrite forallb_app, Hu. cbn. rewrite E. reflexivity.
      + rewrite in_app_iff. intros [H|H]; [|apply (IH [] eq_refl H)]. destruct u; cbn in H; [tauto|]. destruct H as [<-|[]]. split; [discriminate|exact Hu]. }
  apply K. reflexivity.
Qed.

Lemma forallb_impl {A} (P Q : A -> bool) l : (forall x, P x = true -> Q x = true) -> forallb P l = true -> forallb Q l = true.
Proof. intros H. induction l as [|x l IH]; cbn; [auto|]. intros [H1 H2]%andb_true_iff. rewrite H by exact H1. auto. Qed.
Lemma dec_name c : is_dec c = true -> is_name_char c = true.
Proof. unfold is_name_char. intros ->. rewrite !orb_true_r. reflexivity. Qed.
Lemma lower_name_char c : is_lower c = true -> is_name_char c = true.
Proof. unfold is_name_char. intros ->. reflexivity. Qed.
Lemma upper_name_char c : is_upper c = true -> is_name_char c = true.
Proof. unfold is_name_char. intros ->. rewrite !orb_true_r. reflexivity. Qed.
Lemma tyvar_name_char c : is_tyvar_char c = true -> is_name_char c = true.
Proof.
  unfold is_tyvar_char, is_name_char, is_dec, between. rewrite !orb_true_iff. intros [[H|H]|H]; auto.
  left. right. apply andb_true_iff in H as [H1 H2]. apply andb_true_iff. split; [|exact H2].
  apply N.leb_le in H1. apply N.leb_le. lia.
Qed.
Lemma op_not_name c : is_op_char c = true -> is_name_char c = false.
Proof.
  unfold is_op_char, mem_char. intros H. apply existsb_exists in H as (x & Hx & E).
  apply N.eqb_eq in E. subst x. repeat (destruct Hx as [<-|Hx]; [reflexivity|]). destruct Hx.
Qed.

Lemma dec_not_letter c : is_dec c = true -> is_lower c || is_upper c || (c =? C "_")%N = false.
Proof.
  unfold is_dec, is_lower, is_upper, between. intros [H1 H2]%andb_true_iff. apply N.leb_le in H1, H2.
  rewrite !orb_false_iff, !andb_false_iff, !N.leb_gt, N.eqb_neq. lia.
Qed.
Lemma one_word c t : is_lower c || is_upper c = true -> forallb is_name_char t = true -> Forall word_shape (words (c :: t)).
Proof.
  intros Hc Ht. rewrite words_one; [|discriminate|].
  - constructor; [|constructor]. right; right. exists c, t. auto.
  - cbn. rewrite Ht, andb_true_r. apply orb_true_iff in Hc as [H|H]; [apply lower_name_char, H|apply upper_name_char, H].
Qed.
Lemma no_words (P : char -> bool) w : (forall c, P c = true -> is_name_char c = false) -> forallb P w = true -> Forall word_shape (words w).
Proof. intros H Hw. rewrite words_none; [constructor|]. revert Hw. apply forallb_impl. intros x Hx. rewrite H by exact Hx. reflexivity. Qed.
Lemma digit_word d : digits1 d -> Forall word_shape (words d).
Proof.
  intros H. rewrite words_one; [constructor; [right; left; exact H|constructor]|apply H|].
  destruct H as [_ H]. revert H. apply forallb_impl, dec_name.
Qed.
Lemma lower_words n : lower_name n -> Forall word_shape (words n).
Proof.
  intros [->|[(c & t & -> & H1 & H2) _]]; [constructor; [left; reflexivity|constructor]|].
  apply one_word; [rewrite H1; reflexivity|exact H2].
Qed.
Lemma operator_words n : operator_name n -> Forall word_shape (words n).
Proof. intros (_ & H & _). exact (no_words _ _ op_not_name H). Qed.
Lemma name_words n : name_shape n -> Forall word_shape (words n).
Proof.
  intros [H|[(c & t & -> & H1 & H2)|[(c & t & -> & H1 & H2)|[H|[[->|[H _]]|[_ H]]]]]].
  - apply lower_words, H.
  - apply one_word; [rewrite H1; apply orb_true_r|exact H2].
  - apply one_word; [rewrite H1; reflexivity|revert H2; apply forallb_impl, tyvar_name_char].
  - apply operator_words, H.
  - apply one_word; reflexivity.
  - apply operator_words, H.
  - revert H. apply no_words. intros c E%N.eqb_eq. subst. reflexivity.
Qed.
Lemma signed_words sg s : sign_text sg -> words (sg ++ s) = words s.
Proof. intros [->|[->| ->]]; [reflexivity|apply words_skip; reflexivity|apply words_skip; reflexivity]. Qed.
Lemma number_words s : integer_text s \/ float_text s -> Forall word_shape (words s).
Proof.
  intros [(sg & d & -> & H1 & H2)|(sg & d & e & -> & H1 & H2 & H3)]; rewrite signed_words by exact H1; [apply digit_word, H2|].
  change (d ++ L "." ++ e) with (d ++ C "." :: e). rewrite words_close by reflexivity. apply Forall_app. split; apply digit_word; assumption.
Qed.
Lemma key_words k : In k keys -> Forall word_shape (words k).
Proof.
  intros H. repeat (destruct H as [<-|H]; [first [apply one_word; reflexivity | rewrite words_none by reflexivity; constructor]|]). destruct H.
Qed.
Lemma spelled_words x w : spelled x w -> ~ In quote w -> ~ In squote w -> ~ contains (L "--") w -> ~ contains (L "{-") w ->
  Forall word_shape (words w).
Proof.
  intros H H1 H2 H3 H4; destruct H.
  - apply key_words; assumption.
  - apply name_words; assumption.
  - apply lower_words; assumption.
  - apply number_words; assumption.
  - exfalso. apply H1. left. reflexivity.
  - exfalso. apply H1. left. reflexivity.
  - exfalso. apply H2. left. reflexivity.
  - apply digit_word; assumption.
  - exfalso. apply H3. exists [], c. reflexivity.
  - exfalso. apply H4. exists [], (c ++ L "-}"). reflexivity.
Qed.

Lemma contains_l u v s : ~ contains u (v ++ s) -> ~ contains u v.
Proof. intros H (a & b & ->). apply H. exists a, (b ++ s). rewrite <- !app_assoc. reflexivity. Qed.
Lemma contains_r u v s : ~ contains u (v ++ s) -> ~ contains u s.
Proof. intros H (a & b & ->). apply H. exists (v ++ a), b. rewrite <- !app_assoc. reflexivity. Qed.
Theorem written_shapes l s : written l s -> ~ In quote s -> ~ In squote s -> ~ contains (L "--") s -> ~ contains (L "{-") s ->
  Forall word_shape (words s).
Proof.
  induction 1 as [|x w l s Hx Ha _ IH|g l s Hg _ IH|c l s _ _ _ _|n l s Hn Ha _ IH]; intros H1 H2 H3 H4.
  - constructor.
  - rewrite in_app_iff in H1, H2. rewrite words_app by exact Ha. apply Forall_app. split.
    + eapply spelled_words; eauto using contains_l.
    + apply IH; eauto using contains_r.
  - rewrite in_app_iff in H1, H2. assert (K : words (g ++ s) = words s).
    { destruct Hg as [c Hc| |]; [|reflexivity|reflexivity]. apply words_skip, blank_not_name, Hc. }
    rewrite K. apply IH; eauto using contains_r.
  - exfalso. apply H3. exists [], (c ++ s). reflexivity.
  - rewrite in_app_iff in H1, H2. rewrite words_app by exact Ha. apply Forall_app. split; [apply lower_words, Hn|].
    apply IH; eauto using contains_r.
Qed.

(** a word in the middle of a text *)
Lemma words_middle a w b : is_name_char (last a space) = false -> w <> [] -> forallb is_name_char w = true -> ends is_name_char b ->
  In w (words (a ++ w ++ b)).
Proof.
  intros Ha Hw H Hb. rewrite words_app by (intros E; congruence). rewrite words_app by (intros _; exact Hb).
  rewrite (words_one w) by assumption. apply in_or_app. right. apply in_or_app. left. left. reflexivity.
Qed.
Fixpoint name_prefix (s : str) : str :=
  match s with [] => [] | c :: s => if is_name_char c then c :: name_prefix s else [] end.
Lemma name_prefix_ok s : exists r, s = name_prefix s ++ r /\ forallb is_name_char (name_prefix s) = true /\ ends is_name_char r.
Proof.
  induction s as [|c s (r & E & H1 & H2)]; [exists []; repeat split|]. cbn. destruct (is_name_char c) eqn:Ec.
  - exists r. cbn. rewrite Ec. repeat split; auto. f_equal. exact E.
  - exists (c :: s). repeat split. exact Ec.
Qed.
