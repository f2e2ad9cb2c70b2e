(** * Where a definition ends, seen from the text alone

    [whole b d w]: read from left to right, [w] has all its strings, character
    literals and comments complete, and closes [d] more brackets than it opens,
    where [let] counts as an opening and [in] as a closing bracket.  It does not
    end in an operator symbol or in one of the words [as], [if], [then], [else],
    [case], [of], [in].  Nothing here refers to the parser. *)
From Verif Require Import Base Spec.

(** The rest of a text is idle if it holds blanks and comments only. *)
Inductive idle : str -> Prop :=
| idle_nil : idle []
| idle_blank c w : is_blank c = true -> idle w -> idle (c :: w)
| idle_comment c w : forallb not_newline c = true -> line_end w -> idle w -> idle (L "--" ++ c ++ w).

Definition is_open (c : char) : bool := mem_char c (L "([{").
Definition is_close (c : char) : bool := mem_char c (L ")]}").
Definition is_letter (c : char) : bool := is_lower c || is_upper c.
(** blanks, commas and all that is no token of the language *)
Definition is_other (c : char) : bool :=
  negb (is_name_char c || is_op_char c || is_open c || is_close c || (c =? quote)%N || (c =? squote)%N).
Definition dashes (w : str) : Prop := exists w', w = L "--" ++ w'.

(** the words that can occur in an expression *)
Definition inner_words : list str := [L "as"; L "if"; L "then"; L "else"; L "case"; L "of"].
(** A digit or an underscore is not followed by a reserved word that ends the name. *)
Definition fine (n : str) : Prop := forall a c x, n = a ++ c :: x -> In x reserved_words -> is_letter c = true.

(** A string or a character literal, quotes included, before [w] *)
Inductive string_token (w : str) : str -> Prop :=
| token_multi c : no_quote c -> string_token w ([quote; quote; quote] ++ c ++ [quote; quote; quote])
| token_single c : string_content c -> (c = [] -> ends (fun x => (x =? quote)%N) w) ->
    string_token w (quote :: c ++ [quote]).
Inductive char_token : str -> Prop :=
| token_char t c : char_content t c -> char_token (squote :: t ++ [squote]).

(** Between a colon and the next [=], where a type may stand, there is no [let] and
    no [in]: [b] says that we are there. *)
Definition after_op (b : bool) (c : char) (w : str) : bool :=
  if (c =? C "=")%N then false
  else if (c =? C ":")%N then match w with [] => true | x :: _ => if is_op_char x then b else true end
  else b.

Inductive whole : bool -> nat -> str -> Prop :=
| whole_end b : whole b 0 []
| whole_word b d n w : n <> [] -> forallb is_name_char n = true -> ends is_name_char w ->
    ~ In n reserved_words -> fine n -> whole b d w -> whole b d (n ++ w)
| whole_keyword b d n w : In n inner_words -> ends is_name_char w -> ~ idle w -> whole b d w -> whole b d (n ++ w)
| whole_let d w : ends is_name_char w -> whole false (S d) w -> whole false d (L "let" ++ w)
| whole_in d w : ends is_name_char w -> ~ idle w -> whole false d w -> whole false (S d) (L "in" ++ w)
| whole_operator b d c w : is_op_char c = true -> ~ idle w -> ~ dashes (c :: w) -> ~ dashes w ->
    whole (after_op b c w) d w -> whole b d (c :: w)
| whole_open b d c w : is_open c = true -> (c = C "(" -> ~ dashes w) -> (c = C "{" -> ends (fun x => (x =? C "-")%N) w) ->
    whole b (S d) w -> whole b d (c :: w)
| whole_close b d c w : is_close c = true -> whole b d w -> whole b (S d) (c :: w)
| whole_string b d t w : string_token w t -> whole b d w -> whole b d (t ++ w)
| whole_char b d t w : char_token t -> whole b d w -> whole b d (t ++ w)
| whole_comment b d c w : forallb not_newline c = true -> line_end w -> whole b d w -> whole b d (L "--" ++ c ++ w)
| whole_other b d c w : is_other c = true -> whole b d w -> whole b d (c :: w).

(** ** Classes of characters *)
Definition class (c : char) : nat :=
  if is_name_char c then 1 else if is_op_char c then 2 else if is_open c then 3 else if is_close c then 4
  else if (c =? quote)%N then 5 else if (c =? squote)%N then 6 else 7.
Lemma mem_class l k : forallb (fun c => class c =? k) l = true -> forall c, mem_char c l = true -> class c = k.
Proof.
  intros H c Hc. apply mem_char_In in Hc. rewrite forallb_forall in H. apply Nat.eqb_eq, H, Hc.
Qed.
Lemma class_name c : is_name_char c = true -> class c = 1.
Proof. unfold class. intros ->. reflexivity. Qed.
Lemma class_op c : is_op_char c = true -> class c = 2.
Proof. apply mem_class. reflexivity. Qed.
Lemma class_open c : is_open c = true -> class c = 3.
Proof. apply mem_class. reflexivity. Qed.
Lemma class_close c : is_close c = true -> class c = 4.
Proof. apply mem_class. reflexivity. Qed.
Lemma class_blank c : is_blank c = true -> class c = 7.
Proof. apply mem_class. reflexivity. Qed.
Lemma class_other c : is_other c = true -> class c = 7.
Proof.
  unfold is_other, class. intros H. apply negb_true_iff in H. repeat rewrite orb_false_iff in H.
  destruct H as (((((-> & ->) & ->) & ->) & ->) & ->). reflexivity.
Qed.
Lemma other_class c : class c = 7 -> is_other c = true.
Proof.
  unfold is_other, class. destruct (is_name_char c); [discriminate|]. destruct (is_op_char c); [discriminate|].
  destruct (is_open c); [discriminate|]. destruct (is_close c); [discriminate|]. destruct (c =? quote)%N; [discriminate|].
  destruct (c =? squote)%N; [discriminate|]. reflexivity.
Qed.
Lemma reserved_name n : In n reserved_words -> n <> [] /\ forallb is_name_char n = true.
Proof. intros H. repeat (destruct H as [<-|H]; [split; [discriminate|reflexivity]|]). destruct H. Qed.
Lemma inner_reserved n : In n inner_words -> In n reserved_words.
Proof. intros H. repeat (destruct H as [<-|H]; [cbn; tauto|]). destruct H. Qed.

(** ** What the first character says *)
Lemma token_head w t : string_token w t -> exists t', t = quote :: t'.
Proof. intros [c _|c _ _]; eexists; reflexivity. Qed.
Lemma literal_head t : char_token t -> exists t', t = squote :: t'.
Proof. intros [x c _]; eexists; reflexivity. Qed.

Ltac other_class :=
  match goal with
  | H : class ?c = ?k |- _ =>
    exfalso;
    first [ match goal with H2 : is_op_char c = true |- _ => apply class_op in H2; congruence end
          | match goal with H2 : is_open c = true |- _ => apply class_open in H2; congruence end
          | match goal with H2 : is_close c = true |- _ => apply class_close in H2; congruence end
          | match goal with H2 : is_other c = true |- _ => apply class_other in H2; congruence end
          | match goal with H2 : is_name_char c = true |- _ => apply class_name in H2; congruence end
          | discriminate H]
  end.
Definition word_case (b : bool) (d : nat) (n w : str) : Prop :=
  (~ In n reserved_words /\ fine n /\ whole b d w) \/ (In n inner_words /\ ~ idle w /\ whole b d w) \/
  (n = L "let" /\ b = false /\ whole false (S d) w) \/
  (n = L "in" /\ b = false /\ exists d', d = S d' /\ ~ idle w /\ whole false d' w).
Lemma split_head (n w : str) c s : n ++ w = c :: s -> n <> [] -> exists n', n = c :: n' /\ s = n' ++ w.
Proof. destruct n as [|x n]; [congruence|]. cbn. intros [= -> <-] _. eauto. Qed.
Lemma name_head n w c s : n ++ w = c :: s -> n <> [] -> forallb is_name_char n = true -> is_name_char c = true.
Proof. intros E Hn H. destruct (split_head _ _ _ _ E Hn) as (n' & -> & _). cbn in H. apply andb_true_iff in H as [H _]. exact H. Qed.
Lemma inv_name b d c s : class c = 1 -> whole b d (c :: s) ->
  exists n w, c :: s = n ++ w /\ n <> [] /\ forallb is_name_char n = true /\ ends is_name_char w /\ word_case b d n w.
Proof.
  intros Hc H. inversion H as [?|b0 d0 n w H1 H2 H3 H4 H5 H6 Eb Ed E|b0 d0 n w H1 H2 H3 H4 Eb Ed E|d0 w H1 H2 Eb Ed E|d0 w H1 H2 H3 Eb Ed E
    | | | |b0 d0 t w H1 H2 Eb Ed E|b0 d0 t w H1 H2 Eb Ed E|b0 d0 t w H1 H2 H3 Eb Ed E|]; subst; try other_class.
  - exists n, w. unfold word_case. auto 8.
  - exists n, w. destruct (reserved_name n (inner_reserved n H1)). unfold word_case.
    repeat (split; [auto; fail|]). auto.
  - exists (L "let"), w. split; [reflexivity|]. split; [discriminate|]. split; [reflexivity|]. split; [exact H1|]. right. right. left. auto.
  - exists (L "in"), w. split; [reflexivity|]. split; [discriminate|]. split; [reflexivity|]. split; [exact H1|]. right. right. right. eauto 8.
  - destruct (token_head _ _ H1) as (t' & ->). injection E as <- _. discriminate Hc.
  - destruct (literal_head _ H1) as (t' & ->). injection E as <- _. discriminate Hc.
Qed.
Ltac word_absurd :=
  match goal with
  | E : ?n ++ ?w = ?c :: ?s, H : forallb is_name_char ?n = true, H0 : ?n <> [] |- _ =>
      pose proof (class_name _ (name_head _ _ _ _ E H0 H)); congruence
  end.
Ltac inv_whole H :=
  let b0 := fresh "b0" in let d0 := fresh "d0" in let n := fresh "n" in let w0 := fresh "w0" in let E := fresh "E" in let Eb := fresh "Eb" in let Ed := fresh "Ed" in
  let H1 := fresh "G1" in let H2 := fresh "G2" in let H3 := fresh "G3" in let H4 := fresh "G4" in let H5 := fresh "G5" in let H6 := fresh "G6" in
  inversion H as [b0|b0 d0 n w0 H1 H2 H3 H4 H5 H6 Eb Ed E|b0 d0 n w0 H1 H2 H3 H4 Eb Ed E|d0 w0 H1 H2 Eb Ed E|d0 w0 H1 H2 H3 Eb Ed E
    |b0 d0 n w0 H1 H2 H3 H4 H5 Eb Ed E|b0 d0 n w0 H1 H2 H3 H4 Eb Ed E|b0 d0 n w0 H1 H2 Eb Ed E|b0 d0 n w0 H1 H2 Eb Ed E|b0 d0 n w0 H1 H2 Eb Ed E|b0 d0 n w0 H1 H2 H3 Eb Ed E|b0 d0 n w0 H1 H2 Eb Ed E];
  subst; try other_class; try word_absurd;
  try (destruct (reserved_name n (inner_reserved n H1)); word_absurd);
  try (destruct (token_head _ _ H1) as (? & ->); injection E as <- _; match goal with K : class _ = _ |- _ => discriminate K end);
  try (destruct (literal_head _ H1) as (? & ->); injection E as <- _; match goal with K : class _ = _ |- _ => discriminate K end).
Lemma inv_op b d c s : class c = 2 -> whole b d (c :: s) ->
  (~ idle s /\ ~ dashes (c :: s) /\ ~ dashes s /\ whole (after_op b c s) d s) \/
  (exists x w, c :: s = L "--" ++ x ++ w /\ forallb not_newline x = true /\ line_end w /\ whole b d w).
Proof.
  intros Hc H. inv_whole H; [left; auto|]. right. exists n, w0. auto.
Qed.
Lemma inv_open b d c s : class c = 3 -> whole b d (c :: s) ->
  (c = C "(" -> ~ dashes s) /\ (c = C "{" -> ends (fun x => (x =? C "-")%N) s) /\ whole b (S d) s.
Proof. intros Hc H. inv_whole H. auto. Qed.
Lemma inv_close b d c s : class c = 4 -> whole b d (c :: s) -> exists d', d = S d' /\ whole b d' s.
Proof. intros Hc H. inv_whole H. eauto. Qed.
Lemma inv_quote b d s : whole b d (quote :: s) -> exists t w, quote :: s = t ++ w /\ string_token w t /\ whole b d w.
Proof.
  intros H. assert (Hc : class quote = 5) by reflexivity. inv_whole H; [eauto|].
  destruct (literal_head _ G1) as (? & ->). discriminate E.
Qed.
Lemma inv_squote b d s : whole b d (squote :: s) -> exists t w, squote :: s = t ++ w /\ char_token t /\ whole b d w.
Proof.
  intros H. assert (Hc : class squote = 6) by reflexivity. inv_whole H; [|eauto].
  destruct (token_head _ _ G1) as (? & ->). discriminate E.
Qed.
Lemma inv_other b d c s : class c = 7 -> whole b d (c :: s) -> whole b d s.
Proof. intros Hc H. inv_whole H. assumption. Qed.
Lemma inv_nil b d : whole b d [] -> d = 0.
Proof.
  intros H. inversion H as [b0|b0 d0 n w H1 H2 H3 H4 H5 H6 Eb Ed E|b0 d0 n w H1 H2 H3 H4 Eb Ed E| | | | | |b0 d0 t w H1 H2 Eb Ed E|b0 d0 t w H1 H2 Eb Ed E| |];
    subst; try reflexivity; exfalso; apply app_eq_nil in E as [-> ->].
  - apply H1. reflexivity.
  - destruct (reserved_name _ (inner_reserved _ H1)). cbn in *; congruence.
  - destruct (token_head _ _ H1) as (? & ?). discriminate.
  - destruct (literal_head _ H1) as (? & ?). discriminate.
Qed.

(** ** What is left after a token is whole again *)
Lemma name_suffix a x : forallb is_name_char (a ++ x) = true -> forallb is_name_char x = true.
Proof. rewrite forallb_app, andb_true_iff. tauto. Qed.
Lemma fine_suffix a x : fine (a ++ x) -> fine x.
Proof. intros H a' c y E. apply (H (a ++ a') c y). rewrite E, <- app_assoc. reflexivity. Qed.
Lemma run_unique (P : char -> bool) n w n' w' : n ++ w = n' ++ w' -> forallb P n = true -> ends P w -> forallb P n' = true -> ends P w' -> n = n' /\ w = w'.
Proof.
  revert n'. induction n as [|c n IH]; intros n' E H1 H2 H3 H4.
  - destruct n' as [|c' n']; [auto|]. cbn in E. subst w. cbn in H2, H3. rewrite H2 in H3. discriminate.
  - cbn in H1. apply andb_true_iff in H1 as [Hc H1]. destruct n' as [|c' n'].
    + cbn in E. subst w'. cbn in H4. congruence.
    + injection E as -> E. cbn in H3. apply andb_true_iff in H3 as [_ H3]. destruct (IH n' E H1 H2 H3 H4) as [-> ->]. auto.
Qed.
(** a complete name *)
Lemma drop_name b d n w : n <> [] -> forallb is_name_char n = true -> ends is_name_char w -> whole b d (n ++ w) -> word_case b d n w.
Proof.
  intros Hne Hn Hw H. destruct n as [|c n]; [congruence|]. assert (Hc : class c = 1) by (apply class_name; cbn in Hn; apply andb_true_iff in Hn; tauto).
  destruct (inv_name b d c (n ++ w) Hc H) as (n' & w' & E & Hne' & Hn' & Hw' & Hcase).
  destruct (run_unique is_name_char (c :: n) w n' w' E Hn Hw Hn' Hw') as [-> ->]. exact Hcase.
Qed.
Lemma drop_word b d n w : n <> [] -> forallb is_name_char n = true -> ends is_name_char w -> n <> L "let" -> n <> L "in" -> whole b d (n ++ w) -> whole b d w.
Proof. intros H1 H2 H3 H4 H5 H. destruct (drop_name b d n w H1 H2 H3 H) as [(_ & _ & H')|[(_ & _ & H')|[(-> & _)|(-> & _)]]]; congruence. Qed.
(** the first part of a name, if what is left is no reserved word *)
Lemma on_name_split s : (exists c s', s = c :: s' /\ is_name_char c = true) -> exists n w, s = n ++ w /\ n <> [] /\ forallb is_name_char n = true /\ ends is_name_char w.
Proof.
  intros (c & s' & -> & Hc). revert c Hc. induction s' as [|c' s' IH]; intros c Hc.
  - exists [c], []. cbn. rewrite Hc. repeat split. discriminate.
  - destruct (is_name_char c') eqn:E.
    + destruct (IH c' E) as (n & w & E' & H1 & H2 & H3). exists (c :: n), w. rewrite E'. cbn. rewrite Hc. repeat split; auto. discriminate.
    + exists [c], (c' :: s'). cbn. rewrite Hc. repeat split; auto. discriminate.
Qed.
Lemma drop_part b d a x w : a <> [] -> x <> [] -> forallb is_name_char (a ++ x) = true -> ends is_name_char w ->
  ~ In x reserved_words -> ~ In (a ++ x) reserved_words -> whole b d (a ++ x ++ w) -> whole b d (x ++ w).
Proof.
  intros Ha Hx Hn Hw Hr Hr' H. rewrite app_assoc in H. apply drop_name in H; [|destruct a; [congruence|discriminate]|exact Hn|exact Hw].
  destruct H as [(_ & Hf & H)|[(Hin & _ & H)|[(E & _)|(E & _)]]].
  - apply whole_word; auto; [eapply name_suffix; exact Hn|eapply fine_suffix; exact Hf].
  - apply inner_reserved in Hin. contradiction.
  - exfalso. apply Hr'. rewrite E. cbn. tauto.
  - exfalso. apply Hr'. rewrite E. cbn. tauto.
Qed.
(** digits and the underscore: what follows is no reserved word *)
Lemma drop_digits b d a w : a <> [] -> forallb (fun c => is_dec c || (c =? C "_")%N) a = true -> whole b d (a ++ w) -> whole b d w.
Proof.
  intros Ha Hd H.
  assert (Hn : forallb is_name_char a = true).
  { rewrite forallb_forall in *. intros c Hc. specialize (Hd c Hc). unfold is_name_char. apply orb_true_iff in Hd as [->| ->]; rewrite ?orb_true_r; reflexivity. }
  assert (Hl : forall c, In c a -> is_letter c = false).
  { intros c Hc. rewrite forallb_forall in Hd. specialize (Hd c Hc). unfold is_letter, is_lower, is_upper, is_dec, between in *.
    apply orb_true_iff in Hd as [Hd|Hd]; [apply andb_true_iff in Hd as [H1 H2]; apply N.leb_le in H1, H2|apply N.eqb_eq in Hd; subst; reflexivity].
    apply orb_false_iff. split; apply andb_false_iff; left; apply N.leb_gt; cbn in *; lia. }
  assert (Hres : forall x, In (a ++ x) reserved_words -> False).
  { intros x Hx. destruct a as [|c a]; [congruence|]. specialize (Hl c (or_introl eq_refl)).
    repeat (destruct Hx as [Hx|Hx]; [injection Hx as Hx _; subst c; discriminate Hl|]). destruct Hx. }
  destruct w as [|c w].
  - apply drop_word in H; auto; try exact I; intros E; apply (Hres []); rewrite app_nil_r, E; cbn; tauto.
  - destruct (is_name_char c) eqn:Ec.
    + destruct (on_name_split (c :: w)) as (n & w' & E & H1 & H2 & H3); [eauto|]. rewrite E in *.
      assert (Hf : fine (a ++ n) /\ ~ In (a ++ n) reserved_words).
      { rewrite app_assoc in H. apply drop_name in H; [|destruct a; [congruence|discriminate]|rewrite forallb_app, Hn, H2; reflexivity|exact H3].
        destruct H as [(Hr & Hf & H)|[(Hin & _ & H)|[(E0 & _)|(E0 & _)]]]; [auto|exfalso..].
        - apply inner_reserved in Hin. eauto.
        - apply (Hres n). rewrite E0. cbn. tauto.
        - apply (Hres n). rewrite E0. cbn. tauto. }
      destruct Hf as [Hf Hr]. apply (drop_part b d a n w'); auto; [rewrite forallb_app, Hn, H2; reflexivity|].
      intros Hin. destruct (exists_last Ha) as (a' & z & ->). specialize (Hl z). rewrite Hf with (a := a') (x := n) in Hl.
      * specialize (Hl ltac:(apply in_or_app; right; left; reflexivity)). discriminate.
      * rewrite <- app_assoc. reflexivity.
      * exact Hin.
    + apply drop_word in H; auto; intros E; apply (Hres []); rewrite app_nil_r, E; cbn; tauto.
Qed.
(** a run of operator symbols that does not begin with two dashes *)
Lemma drop_ops o : forall b d w, forallb is_op_char o = true -> ~ dashes (o ++ w) -> whole b d (o ++ w) ->
  exists b', whole b' d w /\ (o <> [] -> ~ idle w /\ ~ dashes w).
Proof.
  induction o as [|c o IH]; intros b d w Ho Hd H; [exists b; split; [exact H|congruence]|].
  cbn in Ho. apply andb_true_iff in Ho as [Hc Ho]. apply inv_op in H; [|apply class_op, Hc].
  destruct H as [(H1 & H2 & H3 & H4)|(x & w' & E & _)]; [|exfalso; apply Hd; exists (x ++ w'); exact E].
  destruct (IH _ d w Ho H3 H4) as (b' & H5 & H6). exists b'. split; [exact H5|]. intros _.
  destruct o as [|c' o]; [auto|]. apply H6. discriminate.
Qed.
