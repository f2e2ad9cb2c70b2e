(** * Blank space at the end of a text

    Appending blanks to a text does not change how any parser of the crate
    reads it, except that they lengthen a line comment at the very end.  The parsers
    for blank space itself are the exception: at the end of the text they see
    other blanks; but then nothing follows that could be parsed. *)
From Verif Require Import Base Nom Regex Ast Good Spec Helpers Types Expr Stmt Lexers Total
  Layout Seqs Grammar Follow Sound SoundE SoundS LexProps Heads Rules CompleteT Front.

(** ** Texts without anything but blanks and line comments *)

Inductive idle : str -> Prop :=
| idle_nil : idle []
| idle_blank c s : is_blank c = true -> idle s -> idle (c :: s)
| idle_comment c s : forallb not_newline c = true -> line_end s -> idle s ->
    idle (L "--" ++ c ++ s).

Lemma idle_cases s : idle s ->
  s = [] \/ (exists c s', s = c :: s' /\ is_blank c = true) \/ (exists s', s = L "--" ++ s').
Proof. intros [|c s' Hc _|c s' _ _ _]; eauto 6. Qed.

Lemma blanks_idle b : blanks b -> idle b.
Proof.
  unfold blanks. induction b as [|c b IH]; cbn [forallb]; [constructor|].
  intros H. apply andb_true_iff in H as [Hc Hb]. constructor; auto.
Qed.

Lemma trivia_idle t : trivia t -> idle t.
Proof. induction 1; constructor; auto; reflexivity. Qed.

(** what follows the blanks at the head of an idle text *)
Lemma idle_span f s a b : (forall c, f c = true -> is_blank c = true) ->
  idle s -> span f s = (a, b) -> idle b.
Proof.
  intros Hf Hs. revert a b. induction Hs as [|c s Hc Hs IH|c s Hc Hl Hs IH]; intros a b.
  - intros [= <- <-]. constructor.
  - cbn [span]. destruct (f c); [|intros [= <- <-]; constructor; auto].
    destruct (span f s) as [a' b']. intros [= <- <-]. eapply IH. reflexivity.
  - cbn [app span]. destruct (f (C "-")) eqn:Hd; [apply Hf in Hd; discriminate|].
    intros [= <- <-]. apply (idle_comment c s); auto.
Qed.

Lemma idle_run s : idle s -> exists t r, trivia_run s t r /\ idle r.
Proof.
  induction 1 as [|c s Hc Hs (t & r & Hr & Hi)|c s Hc Hl Hs (t & r & Hr & Hi)].
  - exists [], []. split; [|constructor]. apply trivia_run_nil. exact I.
  - destruct (N.eqb_spec c space) as [->|H1]; [|destruct (N.eqb_spec c newline) as [->|H2]].
    + exists (space :: t), r. split; [|exact Hi]. destruct Hr as (-> & Ht & Hn & Hc').
      split; [reflexivity|]. split; [constructor; exact Ht|]. split; [exact Hn|].
      destruct Hc' as [Hc'|Hc']; [left|right; exact Hc'].
      change (space :: t) with ([space] ++ t). destruct (has_newline t) eqn:Hnl.
      * rewrite last_line_app_newline by exact Hnl. exact Hc'.
      * rewrite last_line_no_newline in Hc' by exact Hnl.
        rewrite last_line_no_newline by exact Hnl. simpl. exact Hc'.
    + exists (newline :: t), r. split; [|exact Hi]. destruct Hr as (-> & Ht & Hn & Hc').
      split; [reflexivity|]. split; [constructor; exact Ht|]. split; [exact Hn|].
      destruct Hc' as [Hc'|Hc']; [left|right; exact Hc'].
      cbn [last_line]. destruct (has_newline t) eqn:Hnl; [exact Hc'|].
      rewrite last_line_no_newline in Hc' by exact Hnl. exact Hc'.
    + exists [], (c :: s). split; [|constructor; assumption]. apply trivia_run_nil.
      apply no_trivia_char; auto. intros ->. discriminate.
  - destruct s as [|d s].
    + exists (L "--" ++ c), []. split; [|constructor]. rewrite app_nil_r.
      split; [rewrite app_nil_r; reflexivity|]. split; [|split; [exact I|right; reflexivity]].
      pose proof (trivia_comment c [] Hc I trivia_nil) as H. rewrite app_nil_r in H. exact H.
    + simpl in Hl. subst d. destruct Hr as (He & Ht & Hn & Hc').
      destruct t as [|d t].
      { simpl in He. subst r. exfalso. destruct Hn as (_ & H & _). congruence. }
      injection He as <- He. exists (L "--" ++ c ++ newline :: t), r. split; [|exact Hi].
      split; [rewrite He; cbn [app]; rewrite <- app_assoc; reflexivity|].
      split; [apply trivia_comment; [exact Hc|reflexivity|exact Ht]|]. split; [exact Hn|].
      destruct Hc' as [Hc'|Hc']; [left|right; exact Hc'].
      rewrite !app_assoc, last_line_app_newline; [exact Hc'|reflexivity].
Qed.

Lemma idle_rest s t r : idle s -> trivia_run s t r -> idle r.
Proof.
  intros Hs Hr. destruct (idle_run s Hs) as (t' & r' & Hr' & Hi).
  destruct (trivia_run_unique _ _ _ _ _ Hr Hr') as [_ ->]. exact Hi.
Qed.

(** ** Parsers that cannot start on an idle text *)

Definition fails {A} (p : parser A) : Prop := forall s r a, idle s -> p s <> Ok r a.
(** what is left of an idle text is idle *)
Definition dead {A} (x : res A) : Prop := forall r a, x = Ok r a -> idle r.
Definition keeps {A} (p : parser A) : Prop := forall s, idle s -> dead (p s).

Lemma fails_keeps {A} (p : parser A) : fails p -> keeps p.
Proof. intros H s Hs r a Hp. exfalso. eapply H; eauto. Qed.

Lemma fails_heads {A} P (p : parser A) : heads P p ->
  (forall c, is_blank c = true -> P c = false) -> P (C "-") = false -> fails p.
Proof.
  intros Hh H1 H2 s r a Hs Hp. apply Hh in Hp as (c & s' & -> & Hc).
  destruct (idle_cases _ Hs) as [?|[(d & ? & [= <- <-] & Hd)|(? & [= -> _])]]; [discriminate| |congruence].
  rewrite H1 in Hc by exact Hd. discriminate.
Qed.

Lemma fails_bind {A B} (p : parser A) (k : A -> parser B) : fails p -> fails (bind p k).
Proof. intros H s r a Hs Hb. apply bind_Ok in Hb as (s' & b & Hb & _). eapply H; eauto. Qed.
Lemma fails_bind2 {A B} (p : parser A) (k : A -> parser B) :
  keeps p -> (forall a, fails (k a)) -> fails (bind p k).
Proof.
  intros Hp Hk s r a Hs Hb. apply bind_Ok in Hb as (s' & b & Hb & Hr).
  eapply Hk; [|exact Hr]. eapply Hp; eauto.
Qed.
Lemma keeps_bind {A B} (p : parser A) (k : A -> parser B) :
  keeps p -> (forall a, keeps (k a)) -> keeps (bind p k).
Proof.
  intros Hp Hk s Hs r a Hb. apply bind_Ok in Hb as (s' & b & Hb & Hr).
  eapply Hk; [|exact Hr]. eapply Hp; eauto.
Qed.
Lemma keeps_ret {A} (a : A) : keeps (ret a).
Proof. intros s Hs r b [= <- <-]. exact Hs. Qed.
Lemma fails_map {A B} (f : A -> B) p : fails p -> fails (map_ f p).
Proof. intros H s r a Hs Hb. apply map_Ok in Hb as (b & Hb & _). eapply H; eauto. Qed.
Lemma keeps_map {A B} (f : A -> B) p : keeps p -> keeps (map_ f p).
Proof. intros H s Hs r a Hb. apply map_Ok in Hb as (b & Hb & _). eapply H; eauto. Qed.
Lemma fails_map_res {A B} (f : A -> option B) p : fails p -> fails (map_res f p).
Proof. intros H s r a Hs Hb. apply map_res_Ok in Hb as (b & Hb & _). eapply H; eauto. Qed.
Lemma keeps_map_res {A B} (f : A -> option B) p : keeps p -> keeps (map_res f p).
Proof. intros H s Hs r a Hb. apply map_res_Ok in Hb as (b & Hb & _). eapply H; eauto. Qed.
Lemma fails_alt {A} (p q : parser A) : fails p -> fails q -> fails (p <|> q).
Proof. intros H1 H2 s r a Hs Hb. apply alt_Ok in Hb as [Hb|[_ Hb]]; [eapply H1|eapply H2]; eauto. Qed.
Lemma keeps_opt {A} (p : parser A) : keeps p -> keeps (opt p).
Proof.
  intros H s Hs r a. unfold opt. destruct (p s) as [r' a'| |] eqn:Hp; intros [= <- <-]; auto.
  eapply H; eauto.
Qed.
Lemma fails_delimited {A B D} (p : parser A) (q : parser B) (t : parser D) :
  fails p -> fails (delimited p q t).
Proof. apply fails_bind. Qed.
Lemma fails_preceded {A B} (p : parser A) (q : parser B) : fails p -> fails (preceded p q).
Proof. apply fails_bind. Qed.
Lemma fails_sep1 {A B} (sep : parser B) (p : parser A) :
  fails p -> fails (separated_nonempty_list sep p).
Proof.
  intros H s r a Hs Hb. apply separated_nonempty_list_Ok in Hb as (x & l & s1 & _ & Hx & _).
  eapply H; eauto.
Qed.
Lemma sep0_idle {A B} (sep : parser B) (p : parser A) s r l :
  fails p -> idle s -> separated_list sep p s = Ok r l -> r = s /\ l = [].
Proof.
  intros H Hs. unfold separated_list. destruct (p s) as [r' a| |] eqn:Hp.
  - exfalso. eapply H; eauto.
  - intros [= <- <-]. auto.
  - discriminate.
Qed.
Lemma keeps_sep0 {A B} (sep : parser B) (p : parser A) : fails p -> keeps (separated_list sep p).
Proof. intros H s Hs r l Hb. apply sep0_idle in Hb as [-> _]; auto. Qed.
Lemma fails_char c : is_blank c = false -> c <> C "-" -> fails (char_ c).
Proof.
  intros H1 H2. apply (fails_heads _ _ (heads_char c)).
  - intros d Hd. apply N.eqb_neq. intros ->. congruence.
  - apply N.eqb_neq. congruence.
Qed.
Lemma fails_tag c t : is_blank c = false -> c <> C "-" -> fails (tag (c :: t)).
Proof.
  intros H1 H2. apply (fails_heads _ _ (heads_tag c t)).
  - intros d Hd. apply N.eqb_neq. intros ->. congruence.
  - apply N.eqb_neq. congruence.
Qed.
Lemma fails_arrow : fails (tag (L "->")).
Proof.
  intros s r a Hs H. apply tag_Ok in H as [-> _].
  destruct (idle_cases _ Hs) as [?|[(d & ? & [= <- _] & Hd)|(? & [=])]]; discriminate.
Qed.

Ltac head := let c := fresh "c" in let H := fresh "H" in
  first [reflexivity | intros c H; unfold name0, var0 in *; chr].
Lemma fails_lo_name : fails lo_name.
Proof. apply (fails_heads _ _ heads_lo_name); head. Qed.
Lemma fails_up_name : fails up_name.
Proof. apply (fails_heads _ _ heads_up_name); head. Qed.
Lemma fails_type_variable : fails type_variable.
Proof. apply (fails_heads _ _ heads_type_variable); head. Qed.
Lemma fails_digit : fails digit.
Proof. apply (fails_heads _ _ heads_digit); head. Qed.
Lemma fails_variable : fails variable.
Proof. apply (fails_heads _ _ heads_variable); head. Qed.
Lemma fails_string : fails string_.
Proof. apply (fails_heads _ _ heads_string); head. Qed.
Lemma fails_character : fails character.
Proof. apply (fails_heads _ _ heads_character); head. Qed.
Lemma number_idle sg d r : sign_text sg -> digits1 d -> idle (sg ++ d ++ r) -> False.
Proof.
  intros Hsg Hd Hi. apply digits1_head in Hd as (c & t & -> & Hc).
  destruct Hsg as [-> |[-> | ->]]; cbn [app] in Hi;
    destruct (idle_cases _ Hi) as [?|[(x & ? & [= <- _] & Hx)|(? & He)]]; try discriminate.
  - clear - Hc Hx. chr.
  - injection He as -> _. discriminate.
  - injection He as -> _. discriminate.
Qed.
Lemma fails_integer : fails integer.
Proof.
  intros s r a Hs H. apply integer_iff in H.
  destruct H as (n & H). decompose [and ex] H. subst.
  match goal with H : integer_text _ |- _ => destruct H as (sg & d & -> & Hsg & Hd) end.
  rewrite <- app_assoc in Hs. eapply number_idle; eauto.
Qed.
Lemma fails_float : fails float.
Proof.
  intros s r a Hs H. apply float_iff in H. destruct H as (n & H). decompose [and ex] H. subst.
  match goal with H : float_text _ |- _ => destruct H as (sg & d & e & -> & Hsg & Hd & _) end.
  rewrite <- app_assoc in Hs. rewrite <- app_assoc in Hs. eapply number_idle; eauto.
Qed.

(** ** Reading a text and the same text followed by blanks *)

Section Blanks.
Variable w : str.
Hypothesis Hw : blanks w.

(** no condition on the text is needed *)
Definition safe (s : str) : Prop := True.
Lemma safe_suffix u r : safe (u ++ r) -> safe r.
Proof. trivial. Qed.

Lemma blank_head c w' : w = c :: w' -> is_blank c = true.
Proof. intros H. unfold blanks in Hw. rewrite H in Hw. simpl in Hw. apply andb_true_iff in Hw as [? _]. assumption. Qed.

Lemma w_cases : w = [] \/ exists d w', w = d :: w' /\ is_blank d = true.
Proof.
  generalize blank_head. destruct w as [|d w']; intros H; [auto|right]. exists d, w'.
  split; [reflexivity|]. apply (H d w'). reflexivity.
Qed.

(** the blanks up to the end of the line *)
Lemma w_line : exists w0 w1, w = w0 ++ w1 /\ forallb not_newline w0 = true /\ line_end w1 /\ blanks w1.
Proof.
  destruct (span not_newline w) as [w0 w1] eqn:H. apply span_longest in H as (He & H0 & H1).
  exists w0, w1. split; [exact He|]. split; [exact H0|]. split.
  - destruct w1 as [|c w1]; [exact I|]. cbn [ends] in H1. unfold not_newline in H1.
    destruct (N.eqb_spec c newline) as [->|_]; [reflexivity|discriminate].
  - pose proof Hw as Hb. unfold blanks in *. rewrite He, forallb_app in Hb.
    apply andb_true_iff in Hb as [_ Hb]. exact Hb.
Qed.

Lemma idle_w s : idle s -> safe s -> idle (s ++ w).
Proof.
  intros H _. induction H as [|c s Hc Hs IH|c s Hc Hl Hs IH].
  - apply blanks_idle. exact Hw.
  - constructor; [exact Hc|]. exact IH.
  - destruct s as [|d s].
    + rewrite app_nil_r. destruct w_line as (w0 & w1 & -> & H0 & H1 & H2). rewrite <- app_assoc.
      rewrite (app_assoc c). apply idle_comment; [rewrite forallb_app, Hc; exact H0|exact H1|].
      apply blanks_idle. exact H2.
    + rewrite <- !app_assoc. apply idle_comment; [exact Hc|exact Hl|exact IH].
Qed.

(** [y], the answer on [s ++ w], is the answer [x] on [s] with [w] left over.
    Answers that stop the parse altogether are not looked at: they do not occur. *)
Definition same {A} (s : str) (x y : res A) : Prop :=
  match x, y with
  | Ok r a, Ok r' a' => r' = r ++ w /\ a' = a /\ exists u, s = u ++ r
  | Err, Err => True
  | Abort _, _ => True
  | _, Abort _ => True
  | _, _ => False
  end.

Definition sim {A} (p : parser A) : Prop := forall s, safe s -> same s (p s) (p (s ++ w)).
(** blank space: the same, or nothing but idle text *)
Definition layp {A} (p : parser A) : Prop :=
  keeps p /\ forall s, safe s -> idle s \/ same s (p s) (p (s ++ w)).
(** the same, or what is left is idle in both cases *)
Definition simD {A} (p : parser A) : Prop :=
  forall s, safe s -> same s (p s) (p (s ++ w)) \/ (dead (p s) /\ dead (p (s ++ w))).
(** the same, or both succeed and what is left is idle in both cases *)
Definition simT {A} (p : parser A) : Prop :=
  forall s, safe s -> same s (p s) (p (s ++ w)) \/
    (dead (p s) /\ dead (p (s ++ w)) /\ p s <> Err /\ p (s ++ w) <> Err).

Lemma layp_simD {A} (p : parser A) : layp p -> simD p.
Proof.
  intros [Hk H] s Hs. destruct (H s Hs) as [Hi|Hn]; [right|left; exact Hn].
  split; [apply Hk; exact Hi|]. apply Hk, idle_w; assumption.
Qed.
Lemma sim_simD {A} (p : parser A) : sim p -> simD p.
Proof. intros H s Hs. left. auto. Qed.
Lemma sim_simT {A} (p : parser A) : sim p -> simT p.
Proof. intros H s Hs. left. auto. Qed.
Lemma simT_simD {A} (p : parser A) : simT p -> simD p.
Proof. intros H s Hs. destruct (H s Hs) as [H'|(H1 & H2 & _)]; auto. Qed.

Lemma same_suffix {A} s (x y : res A) u : same s x y -> same (u ++ s) x y.
Proof.
  destruct x as [r a| |]; destruct y as [r' a'| |]; simpl; auto.
  intros (-> & -> & v & ->). repeat split. exists (u ++ v). rewrite <- app_assoc. reflexivity.
Qed.

Lemma sim_ret {A} (a : A) : sim (ret a).
Proof. intros s _. simpl. repeat split. exists []. reflexivity. Qed.

(* on two texts without success *)
Lemma same_no_ok {A} s (x y : res A) :
  (forall r a, x <> Ok r a) -> (forall r a, y <> Ok r a) -> same s x y.
Proof.
  intros Hx Hy. destruct x as [r a| |]; [exfalso; eapply Hx; eauto| |exact I].
  destruct y as [r a| |]; [exfalso; eapply Hy; eauto|exact I|exact I].
Qed.

Lemma sim_bind {A B} (p : parser A) (k : A -> parser B) :
  sim p -> (forall a, sim (k a)) -> sim (bind p k).
Proof.
  intros Hp Hk s Hs. specialize (Hp s Hs). unfold bind.
  destruct (p s) as [r a| |]; destruct (p (s ++ w)) as [r' a'| |]; simpl in Hp; try exact I;
    try contradiction.
  - destruct Hp as (-> & -> & u & ->). apply same_suffix. apply Hk. eapply safe_suffix; eauto.
  - destruct (k a r); exact I.
Qed.
Lemma sim_bindD {A B} (p : parser A) (k : A -> parser B) :
  simD p -> (forall a, sim (k a)) -> (forall a, fails (k a)) -> sim (bind p k).
Proof.
  intros Hp Hk Hf s Hs. destruct (Hp s Hs) as [Hn|[H1 H2]].
  - unfold bind.
    destruct (p s) as [r a| |]; destruct (p (s ++ w)) as [r' a'| |]; simpl in Hn; try exact I;
      try contradiction.
    + destruct Hn as (-> & -> & u & ->). apply same_suffix. apply Hk. eapply safe_suffix; eauto.
    + destruct (k a r); exact I.
  - apply same_no_ok; intros r a H; apply bind_Ok in H as (s' & b & Hb & Hr);
      (eapply Hf; [|exact Hr]); [eapply H1|eapply H2]; eauto.
Qed.
Lemma simD_bind {A B} (p : parser A) (k : A -> parser B) :
  sim p -> (forall a, simD (k a)) -> simD (bind p k).
Proof.
  intros Hp Hk s Hs. specialize (Hp s Hs). unfold bind.
  destruct (p s) as [r a| |]; destruct (p (s ++ w)) as [r' a'| |]; simpl in Hp; try (left; exact I);
    try contradiction.
  - destruct Hp as (-> & -> & u & ->). destruct (Hk a r) as [H|H]; [eapply safe_suffix; eauto| |right; exact H].
    left. apply same_suffix. exact H.
  - left. destruct (k a r); exact I.
Qed.
Lemma simD_bindD {A B} (p : parser A) (k : A -> parser B) :
  simD p -> (forall a, simD (k a)) -> (forall a, keeps (k a)) -> simD (bind p k).
Proof.
  intros Hp Hk Hf s Hs. destruct (Hp s Hs) as [Hn|[H1 H2]].
  - unfold bind.
    destruct (p s) as [r a| |]; destruct (p (s ++ w)) as [r' a'| |]; simpl in Hn; try (left; exact I);
      try contradiction.
    + destruct Hn as (-> & -> & u & ->).
      destruct (Hk a r) as [H|H]; [eapply safe_suffix; eauto| |right; exact H].
      left. apply same_suffix. exact H.
    + left. destruct (k a r); exact I.
  - right. split; intros r a H; apply bind_Ok in H as (s' & b & Hb & Hr);
      (eapply Hf; [|exact Hr]); [eapply H1|eapply H2]; eauto.
Qed.
Lemma simT_bind {A B} (p : parser A) (k : A -> parser B) :
  sim p -> (forall a, simT (k a)) -> simT (bind p k).
Proof.
  intros Hp Hk s Hs. specialize (Hp s Hs). unfold bind.
  destruct (p s) as [r a| |]; destruct (p (s ++ w)) as [r' a'| |]; simpl in Hp; try (left; exact I);
    try contradiction.
  - destruct Hp as (-> & -> & u & ->). destruct (Hk a r) as [H|H]; [eapply safe_suffix; eauto| |right; exact H].
    left. apply same_suffix. exact H.
  - left. destruct (k a r); exact I.
Qed.
Lemma simT_bindD {A B} (p : parser A) (k : A -> parser B) :
  simD p -> (forall a, simT (k a)) -> (forall a, fails (k a)) -> simT (bind p k).
Proof.
  intros Hp Hk Hf s Hs. destruct (Hp s Hs) as [Hn|[H1 H2]].
  - unfold bind.
    destruct (p s) as [r a| |]; destruct (p (s ++ w)) as [r' a'| |]; simpl in Hn; try (left; exact I);
      try contradiction.
    + destruct Hn as (-> & -> & u & ->).
      destruct (Hk a r) as [H|H]; [eapply safe_suffix; eauto| |right; exact H].
      left. apply same_suffix. exact H.
    + left. destruct (k a r); exact I.
  - left. apply same_no_ok; intros r a H; apply bind_Ok in H as (s' & b & Hb & Hr);
      (eapply Hf; [|exact Hr]); [eapply H1|eapply H2]; eauto.
Qed.

Lemma same_map {A B} (f : A -> B) p s : same s (p s) (p (s ++ w)) ->
  same s (map_ f p s) (map_ f p (s ++ w)).
Proof.
  unfold map_. destruct (p s) as [r a| |]; destruct (p (s ++ w)) as [r' a'| |]; simpl; auto.
  intros (-> & -> & H). auto.
Qed.
Lemma dead_map {A B} (f : A -> B) p s : dead (p s) -> dead (map_ f p s).
Proof. intros H r a Hb. apply map_Ok in Hb as (b & Hb & _). eapply H; eauto. Qed.
Lemma sim_map {A B} (f : A -> B) p : sim p -> sim (map_ f p).
Proof. intros Hp s Hs. apply same_map. auto. Qed.
Lemma simD_map {A B} (f : A -> B) p : simD p -> simD (map_ f p).
Proof. intros Hp s Hs. destruct (Hp s Hs) as [H|[H1 H2]]; [left; apply same_map; exact H|right; split; apply dead_map; assumption]. Qed.
Lemma layp_map {A B} (f : A -> B) p : layp p -> layp (map_ f p).
Proof.
  intros [Hk H]. split; [apply keeps_map; exact Hk|]. intros s Hs.
  destruct (H s Hs); [auto|right; apply same_map; assumption].
Qed.
Lemma sim_map_res {A B} (f : A -> option B) p : sim p -> sim (map_res f p).
Proof.
  intros Hp s Hs. specialize (Hp s Hs). unfold map_res.
  destruct (p s) as [r a| |]; destruct (p (s ++ w)) as [r' a'| |]; simpl in *; try tauto.
  - destruct Hp as (-> & -> & H). destruct (f a); simpl; auto.
  - destruct (f a); exact I.
Qed.
Lemma layp_map_res {A B} (f : A -> option B) p : layp p -> layp (map_res f p).
Proof.
  intros [Hk Hp]. split; [apply keeps_map_res; exact Hk|]. intros s Hs.
  destruct (Hp s Hs) as [H|H]; [auto|right]. unfold map_res.
  destruct (p s) as [r a| |]; destruct (p (s ++ w)) as [r' a'| |]; simpl in *; try tauto.
  - destruct H as (-> & -> & H). destruct (f a); simpl; auto.
  - destruct (f a); exact I.
Qed.
Lemma sim_alt {A} (p q : parser A) : sim p -> sim q -> sim (p <|> q).
Proof.
  intros Hp Hq s Hs. specialize (Hp s Hs). specialize (Hq s Hs). unfold alt.
  destruct (p s) as [r a| |]; destruct (p (s ++ w)) as [r' a'| |]; simpl in *; try tauto.
  destruct (q s) as [r a| |]; exact I.
Qed.
Lemma same_opt {A} (p : parser A) s : same s (p s) (p (s ++ w)) ->
  same s (opt p s) (opt p (s ++ w)).
Proof.
  unfold opt. destruct (p s) as [r a| |]; destruct (p (s ++ w)) as [r' a'| |]; simpl; try tauto.
  - intros (-> & -> & H). auto.
  - intros _. repeat split. exists []. reflexivity.
Qed.
Lemma sim_opt {A} (p : parser A) : sim p -> sim (opt p).
Proof. intros Hp s Hs. apply same_opt. auto. Qed.
Lemma layp_opt {A} (p : parser A) : layp p -> layp (opt p).
Proof.
  intros [Hk H]. split; [apply keeps_opt; exact Hk|]. intros s Hs.
  destruct (H s Hs); [auto|right; apply same_opt; assumption].
Qed.

(** repetition *)
Lemma sim_many0 {A} (p : parser A) : sim p -> sim (many0 p).
Proof.
  intros Hp s Hs. unfold many0. generalize (S (length s)) (S (length (s ++ w))). intros n m.
  revert m s Hs. induction n as [|n IH]; intros m s Hs; [exact I|]. destruct m as [|m].
  { cbn [many0_loop]. destruct (p s) as [r a| |]; try exact I. destruct (length r =? length s); [exact I|].
    destruct (many0_loop n p r); exact I. }
  cbn [many0_loop]. specialize (Hp s Hs).
  destruct (p s) as [r a| |]; destruct (p (s ++ w)) as [r' a'| |]; simpl in Hp; try contradiction; try exact I.
  - destruct Hp as (-> & -> & u & He). rewrite !app_length.
    destruct (Nat.eqb_spec (length r) (length s)) as [Hl|Hl].
    + rewrite (proj2 (Nat.eqb_eq _ _)) by lia. simpl. repeat split. exists []. reflexivity.
    + rewrite (proj2 (Nat.eqb_neq _ _)) by lia.
      assert (Hr : safe r) by (eapply safe_suffix; rewrite <- He; exact Hs).
      specialize (IH m r Hr).
      destruct (many0_loop n p r) as [r1 l1| |]; destruct (many0_loop m p (r ++ w)) as [r2 l2| |];
        simpl in *; try tauto.
      destruct IH as (-> & -> & v & ->). repeat split. exists (u ++ v). rewrite <- app_assoc. exact He.
  - destruct (length r =? length s); [exact I|]. destruct (many0_loop n p r); exact I.
  - simpl. repeat split. exists []. reflexivity.
Qed.

Lemma sim_many1_loop {A} (p : parser A) : sim p -> forall n m s, safe s ->
  same s (many1_loop n p s) (many1_loop m p (s ++ w)).
Proof.
  intros Hp. induction n as [|n IH]; intros m s Hs; [exact I|]. destruct m as [|m].
  { cbn [many1_loop]. destruct (p s) as [r a| |]; try exact I. destruct (length r =? length s); [exact I|].
    destruct (many1_loop n p r); exact I. }
  cbn [many1_loop]. specialize (Hp s Hs).
  destruct (p s) as [r a| |]; destruct (p (s ++ w)) as [r' a'| |]; simpl in Hp; try contradiction; try exact I.
  - destruct Hp as (-> & -> & u & He). rewrite !app_length.
    destruct (Nat.eqb_spec (length r) (length s)) as [Hl|Hl].
    + rewrite (proj2 (Nat.eqb_eq _ _)) by lia. simpl. repeat split. exists []. reflexivity.
    + rewrite (proj2 (Nat.eqb_neq _ _)) by lia.
      assert (Hr : safe r) by (eapply safe_suffix; rewrite <- He; exact Hs).
      specialize (IH m r Hr).
      destruct (many1_loop n p r) as [r1 l1| |]; destruct (many1_loop m p (r ++ w)) as [r2 l2| |];
        simpl in *; try tauto.
      destruct IH as (-> & -> & v & ->). repeat split. exists (u ++ v). rewrite <- app_assoc. exact He.
  - destruct (length r =? length s); [exact I|]. destruct (many1_loop n p r); exact I.
  - simpl. repeat split. exists []. reflexivity.
Qed.
Lemma sim_many1 {A} (p : parser A) : sim p -> sim (many1 p).
Proof.
  intros Hp s Hs. pose proof (Hp s Hs) as H. unfold many1.
  destruct (p s) as [r a| |]; destruct (p (s ++ w)) as [r' a'| |]; simpl in H; try contradiction; try exact I.
  - destruct H as (-> & -> & u & He).
    assert (Hr : safe r) by (eapply safe_suffix; rewrite <- He; exact Hs).
    pose proof (sim_many1_loop p Hp (S (length r)) (S (length (r ++ w))) r Hr) as H.
    destruct (many1_loop (S (length r)) p r) as [r1 l1| |];
      destruct (many1_loop (S (length (r ++ w))) p (r ++ w)) as [r2 l2| |];
        simpl in *; try tauto.
    destruct H as (-> & -> & v & ->). repeat split. exists (u ++ v). rewrite <- app_assoc. exact He.
  - destruct (many1_loop (S (length r)) p r); exact I.
Qed.

(** The loop over separated elements.  Where the separators differ, no element
    follows. *)
Definition stops {A B} (sep : parser B) (p : parser A) (s : str) : Prop :=
  forall s2 x, sep s = Ok s2 x -> forall r a, p s2 <> Ok r a.

Definition tail {A} s (x y : res A) : Prop :=
  same s x y \/ (dead x /\ dead y /\ x <> Err /\ y <> Err).

Lemma simD_stops {A B} (sep : parser B) (p : parser A) : simD sep -> fails p ->
  forall s, safe s -> same s (sep s) (sep (s ++ w)) \/ (stops sep p s /\ stops sep p (s ++ w)).
Proof.
  intros Hsep Hp s Hs. destruct (Hsep s Hs) as [H|[H1 H2]]; [left; exact H|right].
  split; intros s2 x Hx r a; apply Hp; [eapply H1|eapply H2]; eauto.
Qed.

Lemma stops_loop {A B} (sep : parser B) (p : parser A) n s : stops sep p s ->
  sep_loop n sep p s = Ok s [] \/ exists why, sep_loop n sep p s = Abort why.
Proof.
  intros H. destruct n as [|n]; [right; eexists; reflexivity|]. cbn [sep_loop].
  destruct (sep s) as [s2 x| |] eqn:Hx; [|auto|eauto].
  destruct (length s2 =? length s); [auto|].
  destruct (p s2) as [s3 a| |] eqn:Hp; [|auto|eauto]. exfalso. eapply H; eauto.
Qed.

Lemma sim_sep_loop {A B} (sep : parser B) (p : parser A) :
  (forall s, safe s -> same s (sep s) (sep (s ++ w)) \/ (stops sep p s /\ stops sep p (s ++ w))) ->
  sim p ->
  forall n m s, safe s -> same s (sep_loop n sep p s) (sep_loop m sep p (s ++ w)).
Proof.
  intros Hsep Hp. induction n as [|n IH]; intros m s Hs; [exact I|].
  destruct (Hsep s Hs) as [H|[H1 H2]].
  2:{ destruct (stops_loop sep p (S n) s H1) as [->|[? ->]]; [|exact I].
      destruct (stops_loop sep p m (s ++ w) H2) as [->|[? ->]]; [|exact I].
      simpl. repeat split. exists []. reflexivity. }
  destruct m as [|m].
  { change (sep_loop 0 sep p (s ++ w)) with (@Abort (list A) OutOfFuel).
    destruct (sep_loop (S n) sep p s); exact I. }
  assert (Hstop : same s (Ok s (@nil A)) (Ok (s ++ w) [])).
  { simpl. repeat split. exists []. reflexivity. }
  cbn [sep_loop].
  destruct (sep s) as [s2 x| |]; destruct (sep (s ++ w)) as [s2' x'| |]; simpl in H;
    try contradiction; try exact I; try exact Hstop.
  2:{ match goal with |- same s ?x _ => destruct x; exact I end. }
  destruct H as (-> & -> & u & He).
  assert (Hs2 : safe s2) by (eapply safe_suffix; rewrite <- He; exact Hs).
  rewrite !app_length. destruct (Nat.eqb_spec (length s2) (length s)) as [Hl|Hl].
  { rewrite (proj2 (Nat.eqb_eq _ _)) by lia. exact Hstop. }
  rewrite (proj2 (Nat.eqb_neq _ _)) by lia. specialize (Hp s2 Hs2).
  destruct (p s2) as [s3 a| |]; destruct (p (s2 ++ w)) as [s3' a'| |]; simpl in Hp;
    try contradiction; try exact I; try exact Hstop.
  2:{ match goal with |- same s ?x _ => destruct x; exact I end. }
  destruct Hp as (-> & -> & v & He2).
  assert (Hs3 : safe s3) by (eapply safe_suffix; rewrite <- He2; exact Hs2).
  rewrite !app_length. destruct (Nat.eqb_spec (length s3) (length s2)) as [Hl2|Hl2].
  { rewrite (proj2 (Nat.eqb_eq _ _)) by lia. exact Hstop. }
  rewrite (proj2 (Nat.eqb_neq _ _)) by lia. specialize (IH m s3 Hs3).
  destruct (sep_loop n sep p s3) as [r1 l1| |]; destruct (sep_loop m sep p (s3 ++ w)) as [r2 l2| |];
    simpl in IH |- *; try tauto.
  destruct IH as (-> & -> & z & ->). repeat split. exists (u ++ v ++ z).
  rewrite <- !app_assoc, <- He2. exact He.
Qed.

Lemma sim_sep1 {A B} (sep : parser B) (p : parser A) :
  (forall s, safe s -> same s (sep s) (sep (s ++ w)) \/ (stops sep p s /\ stops sep p (s ++ w))) ->
  sim p -> sim (separated_nonempty_list sep p).
Proof.
  intros Hsep Hp s Hs. pose proof (Hp s Hs) as H. unfold separated_nonempty_list.
  destruct (p s) as [r a| |]; destruct (p (s ++ w)) as [r' a'| |]; simpl in H; try contradiction; try exact I.
  2:{ match goal with |- same s ?x _ => destruct x; exact I end. }
  destruct H as (-> & -> & u & He). rewrite !app_length.
  destruct (Nat.eqb_spec (length r) (length s)) as [Hl|Hl].
  { rewrite (proj2 (Nat.eqb_eq _ _)) by lia. exact I. }
  rewrite (proj2 (Nat.eqb_neq _ _)) by lia.
  assert (Hr : safe r) by (eapply safe_suffix; rewrite <- He; exact Hs).
  pose proof (sim_sep_loop sep p Hsep Hp (S (length r)) (S (length r + length w)) r Hr) as H.
  destruct (sep_loop (S (length r)) sep p r) as [r1 l1| |];
    destruct (sep_loop (S (length r + length w)) sep p (r ++ w)) as [r2 l2| |]; simpl in *; try tauto.
  destruct H as (-> & -> & v & ->). repeat split. exists (u ++ v). rewrite <- app_assoc. exact He.
Qed.
Lemma sim_sep0 {A B} (sep : parser B) (p : parser A) :
  (forall s, safe s -> same s (sep s) (sep (s ++ w)) \/ (stops sep p s /\ stops sep p (s ++ w))) ->
  sim p -> sim (separated_list sep p).
Proof.
  intros Hsep Hp s Hs. pose proof (Hp s Hs) as H. pose proof (sim_sep1 sep p Hsep Hp s Hs) as H1.
  unfold separated_nonempty_list in H1. unfold separated_list.
  destruct (p s) as [r a| |]; destruct (p (s ++ w)) as [r' a'| |]; simpl in H; try contradiction;
    try exact I; try exact H1.
  simpl. repeat split. exists []. reflexivity.
Qed.

(** elements that end with blanks *)
Lemma simT_sep0 {A B} (sep : parser B) (p : parser A) :
  sim sep -> fails sep -> simT p -> fails p -> eats p ->
  simT (separated_list sep p).
Proof.
  intros Hsep Hfs Hp Hfp Hep.
  assert (Hloop : forall n m s, safe s ->
            tail s (sep_loop n sep p s) (sep_loop m sep p (s ++ w))).
  { induction n as [|n IH]; intros m s Hs; [left; exact I|].
    assert (Hstop : same s (Ok s (@nil A)) (Ok (s ++ w) [])).
    { simpl. repeat split. exists []. reflexivity. }
    destruct m as [|m].
    { left. change (sep_loop 0 sep p (s ++ w)) with (@Abort (list A) OutOfFuel).
      destruct (sep_loop (S n) sep p s); exact I. }
    cbn [sep_loop]. specialize (Hsep s Hs).
    destruct (sep s) as [s2 x| |]; destruct (sep (s ++ w)) as [s2' x'| |]; simpl in Hsep;
      try contradiction; try (left; exact I); try (left; exact Hstop).
    2:{ left. match goal with |- same s ?x _ => destruct x; exact I end. }
    destruct Hsep as (-> & -> & u & He).
    assert (Hs2 : safe s2) by (eapply safe_suffix; rewrite <- He; exact Hs).
    rewrite !app_length. destruct (Nat.eqb_spec (length s2) (length s)) as [Hl|Hl].
    { rewrite (proj2 (Nat.eqb_eq _ _)) by lia. left. exact Hstop. }
    rewrite (proj2 (Nat.eqb_neq _ _)) by lia.
    destruct (Hp s2 Hs2) as [H|(H1 & H2 & H3 & H4)].
    - destruct (p s2) as [s3 a| |]; destruct (p (s2 ++ w)) as [s3' a'| |]; simpl in H;
        try contradiction; try (left; exact I); try (left; exact Hstop).
      2:{ left. match goal with |- same s ?x _ => destruct x; exact I end. }
      destruct H as (-> & -> & v & He2).
      assert (Hs3 : safe s3) by (eapply safe_suffix; rewrite <- He2; exact Hs2).
      rewrite !app_length. destruct (Nat.eqb_spec (length s3) (length s2)) as [Hl2|Hl2].
      { rewrite (proj2 (Nat.eqb_eq _ _)) by lia. left. exact Hstop. }
      rewrite (proj2 (Nat.eqb_neq _ _)) by lia.
      destruct (IH m s3 Hs3) as [IH'|(I1 & I2 & I3 & I4)].
      + left. destruct (sep_loop n sep p s3) as [r1 l1| |];
          destruct (sep_loop m sep p (s3 ++ w)) as [r2 l2| |]; simpl in IH' |- *; try tauto.
        destruct IH' as (-> & -> & z & ->). repeat split. exists (u ++ v ++ z).
        rewrite <- !app_assoc, <- He2. exact He.
      + destruct (sep_loop n sep p s3) as [r1 l1| |]; [|congruence|left; exact I].
        destruct (sep_loop m sep p (s3 ++ w)) as [r2 l2| |]; [|congruence|left; exact I].
        right. split; [|split]; [intros ? ? [= <- _]; eapply I1; eauto|intros ? ? [= <- _]; eapply I2; eauto|].
        split; discriminate.
    - destruct (p s2) as [s3 a| |] eqn:E1; [|congruence|left; exact I].
      destruct (p (s2 ++ w)) as [s3' a'| |] eqn:E2; [|congruence|].
      2:{ left. match goal with |- same s ?x _ => destruct x; exact I end. }
      rewrite (proj2 (Nat.eqb_neq _ _)) by (eapply eats_length; eauto).
      rewrite <- app_length, (proj2 (Nat.eqb_neq _ _)) by (eapply eats_length; eauto).
      assert (Hi1 : idle s3) by (eapply H1; eauto). assert (Hi2 : idle s3') by (eapply H2; eauto).
      assert (Hst : forall z, idle z -> stops sep p z).
      { intros z Hz z2 x2 Hx2. exfalso. eapply Hfs; eauto. }
      destruct (stops_loop sep p n s3 (Hst _ Hi1)) as [->|[? ->]]; [|left; exact I].
      destruct (stops_loop sep p m s3' (Hst _ Hi2)) as [->|[? ->]]; [|left; exact I].
      right. split; [|split]; [intros ? ? [= <- _]; exact Hi1|intros ? ? [= <- _]; exact Hi2|].
      split; discriminate. }
  intros s Hs. unfold separated_list. destruct (Hp s Hs) as [H|(H1 & H2 & H3 & H4)].
  - destruct (p s) as [r a| |]; destruct (p (s ++ w)) as [r' a'| |]; simpl in H; try contradiction;
      try (left; exact I).
    2:{ left. match goal with |- same s ?x _ => destruct x; exact I end. }
    2:{ left. simpl. repeat split. exists []. reflexivity. }
    destruct H as (-> & -> & u & He). rewrite !app_length.
    destruct (Nat.eqb_spec (length r) (length s)) as [Hl|Hl].
    { rewrite (proj2 (Nat.eqb_eq _ _)) by lia. left. exact I. }
    rewrite (proj2 (Nat.eqb_neq _ _)) by lia.
    assert (Hr : safe r) by (eapply safe_suffix; rewrite <- He; exact Hs).
    destruct (Hloop (S (length r)) (S (length r + length w)) r Hr) as [H|(I1 & I2 & I3 & I4)].
    + left. destruct (sep_loop (S (length r)) sep p r) as [r1 l1| |];
        destruct (sep_loop (S (length r + length w)) sep p (r ++ w)) as [r2 l2| |]; simpl in *; try tauto.
      destruct H as (-> & -> & v & ->). repeat split. exists (u ++ v). rewrite <- app_assoc. exact He.
    + destruct (sep_loop (S (length r)) sep p r) as [r1 l1| |]; [|congruence|left; exact I].
      destruct (sep_loop (S (length r + length w)) sep p (r ++ w)) as [r2 l2| |]; [|congruence|left; exact I].
      right. split; [|split]; [intros ? ? [= <- _]; eapply I1; eauto|intros ? ? [= <- _]; eapply I2; eauto|].
      split; discriminate.
  - destruct (p s) as [s3 a| |] eqn:E1; [|congruence|left; exact I].
    destruct (p (s ++ w)) as [s3' a'| |] eqn:E2; [|congruence|].
    2:{ left. match goal with |- same s ?x _ => destruct x; exact I end. }
    rewrite (proj2 (Nat.eqb_neq _ _)) by (eapply eats_length; eauto).
    rewrite (proj2 (Nat.eqb_neq _ _)) by (eapply eats_length; eauto).
    assert (Hi1 : idle s3) by (eapply H1; eauto). assert (Hi2 : idle s3') by (eapply H2; eauto).
    assert (Hst : forall z, idle z -> stops sep p z).
    { intros z Hz z2 x2 Hx2. exfalso. eapply Hfs; eauto. }
    destruct (stops_loop sep p (S (length s3)) s3 (Hst _ Hi1)) as [->|[? ->]]; [|left; exact I].
    destruct (stops_loop sep p (S (length s3')) s3' (Hst _ Hi2)) as [->|[? ->]]; [|left; exact I].
    right. split; [|split]; [intros ? ? [= <- _]; exact Hi1|intros ? ? [= <- _]; exact Hi2|].
    split; discriminate.
Qed.

(** ** Tokens *)

Lemma strip_w t s : forallb (fun c => negb (is_blank c)) t = true ->
  strip t (s ++ w) = match strip t s with Some r => Some (r ++ w) | None => None end.
Proof.
  revert s. induction t as [|c t IH]; intros s Ht; [reflexivity|].
  simpl in Ht. apply andb_true_iff in Ht as [Hc Ht]. destruct s as [|d s].
  - cbn [app strip]. destruct w_cases as [Ew|(d & w' & Ew & Hd)]; rewrite Ew; [reflexivity|].
    destruct (N.eqb_spec c d) as [->|_]; [|reflexivity].
    rewrite Hd in Hc. discriminate.
  - cbn [app strip]. destruct (c =? d)%N; [|reflexivity]. apply IH. exact Ht.
Qed.
Lemma strip_suffix t s r : strip t s = Some r -> exists u, s = u ++ r.
Proof. intros H. apply strip_app in H. eauto. Qed.

Lemma sim_tag t : forallb (fun c => negb (is_blank c)) t = true -> sim (tag t).
Proof.
  intros Ht s _. unfold tag, need_more, at_eof. rewrite strip_w by exact Ht.
  destruct (strip t s) as [r|] eqn:Hs; simpl; [|exact I]. repeat split. eapply strip_suffix; eauto.
Qed.
Lemma sim_char c : is_blank c = false -> sim (char_ c).
Proof.
  intros Hc s _. unfold char_, need_more, at_eof. destruct s as [|d s]; cbn [app].
  - destruct w_cases as [Ew|(d & w' & Ew & Hd)]; rewrite Ew; [exact I|].
    destruct (N.eqb_spec d c) as [->|_]; [|exact I]. rewrite Hd in Hc. discriminate.
  - destruct (d =? c)%N; [|exact I]. simpl. repeat split. exists [d]. reflexivity.
Qed.

Lemma span_w f s : (forall c, is_blank c = true -> f c = false) ->
  span f (s ++ w) = let '(a, b) := span f s in (a, b ++ w).
Proof.
  intros Hf. induction s as [|c s IH]; cbn [app span].
  - destruct w_cases as [Ew|(d & w' & Ew & Hd)]; rewrite Ew; [reflexivity|]. cbn [span].
    rewrite Hf by exact Hd. reflexivity.
  - destruct (f c); [|reflexivity]. rewrite IH. destruct (span f s); reflexivity.
Qed.
Lemma span_suffix f s a b : span f s = (a, b) -> exists u, s = u ++ b.
Proof. intros H. apply span_longest in H as (-> & _). eauto. Qed.

Lemma same_intro {A} s r (a : A) : (exists u, s = u ++ r) -> same s (Ok r a) (Ok (r ++ w) a).
Proof. intros H. simpl. auto. Qed.

Lemma sim_take_while1 f : (forall c, is_blank c = true -> f c = false) -> sim (take_while1 f).
Proof.
  intros Hf s _. unfold take_while1. rewrite span_w by exact Hf.
  destruct (span f s) as [a b] eqn:Hs. destruct a; [exact I|].
  apply same_intro. eapply span_suffix; eauto.
Qed.
Lemma sim_digit : sim digit.
Proof. apply sim_take_while1. change is_digit with is_dec. intros; chr. Qed.

Lemma sim_up_name : sim up_name.
Proof.
  intros s _. rewrite !up_name_eq. destruct s as [|c s]; cbn [app].
  - destruct w_cases as [Ew|(d & w' & Ew & H)]; rewrite Ew; [exact I|].
    destruct (is_upper d) eqn:Hu; [exfalso; chr|exact I].
  - destruct (is_upper c); [|exact I]. rewrite span_w by (intros; chr).
    destruct (span is_name_char s) as [a b] eqn:Hs. apply same_intro.
    apply span_suffix in Hs as [u ->]. exists (c :: u). reflexivity.
Qed.
Lemma sim_type_variable : sim type_variable.
Proof.
  intros s _. rewrite !type_variable_eq. destruct s as [|c s]; cbn [app].
  - destruct w_cases as [Ew|(d & w' & Ew & H)]; rewrite Ew; [exact I|].
    destruct (is_lower d) eqn:Hu; [exfalso; chr|exact I].
  - destruct (is_lower c); [|exact I]. rewrite span_w by (intros; chr).
    destruct (span is_tyvar_char s) as [a b] eqn:Hs. apply same_intro.
    apply span_suffix in Hs as [u ->]. exists (c :: u). reflexivity.
Qed.
Lemma sim_lo_name : sim lo_name.
Proof.
  intros s _. rewrite !lo_name_eq. destruct s as [|c s]; cbn [app].
  - destruct w_cases as [Ew|(d & w' & Ew & H)]; rewrite Ew; [exact I|].
    destruct (N.eqb_spec d (C "_")) as [->|_]; [discriminate|].
    destruct (is_lower d) eqn:Hu; [exfalso; chr|exact I].
  - destruct (c =? C "_")%N; [apply same_intro; exists [c]; reflexivity|].
    destruct (is_lower c); [|exact I]. rewrite span_w by (intros; chr).
    destruct (span is_name_char s) as [a b] eqn:Hs.
    destruct (mem_str (c :: a) reserved_words); [exact I|]. apply same_intro.
    apply span_suffix in Hs as [u ->]. exists (c :: u). reflexivity.
Qed.
Lemma sim_operator : sim operator.
Proof.
  intros s _. rewrite !operator_eq, span_w by (intros; chr).
  destruct (span is_op_char s) as [a b] eqn:Hs. destruct a as [|x a]; [exact I|].
  destruct (mem_str (x :: a) reserved_operators); [exact I|]. apply same_intro.
  eapply span_suffix; eauto.
Qed.

(** from an exact description: a closing character is not a blank *)
Lemma split_close x c r' s : is_blank c = false -> s ++ w = x ++ c :: r' ->
  exists r, r' = r ++ w /\ s = x ++ c :: r.
Proof.
  intros Hc. revert x. induction s as [|d s IH]; intros x He.
  - exfalso. cbn [app] in He. unfold blanks in Hw. rewrite He, forallb_app in Hw.
    cbn [forallb] in Hw. rewrite Hc in Hw. rewrite andb_false_r in Hw. discriminate.
  - destruct x as [|y x].
    + injection He as -> <-. exists s. auto.
    + injection He as -> He. apply IH in He as (r & -> & ->). exists r. auto.
Qed.

Lemma sim_multi_string : sim multi_string.
Proof.
  intros s _. assert (Ht : forall z, multi_string z <> Abort Panic -> True) by trivial.
  destruct (multi_string s) as [r c| |] eqn:H1.
  - apply multi_string_iff in H1 as [-> Hc].
    replace (multi_string _) with (Ok (r ++ w) c).
    + apply same_intro. exists (quotes3 ++ c ++ quotes3). rewrite <- !app_assoc. reflexivity.
    + symmetry. apply multi_string_iff. rewrite <- !app_assoc. auto.
  - destruct (multi_string (s ++ w)) as [r c| |] eqn:H2; [|exact I|exact I].
    apply multi_string_iff in H2 as [He Hc]. exfalso.
    replace (quotes3 ++ c ++ quotes3 ++ r) with ((quotes3 ++ c ++ [quote; quote]) ++ quote :: r) in He
      by (rewrite <- !app_assoc; reflexivity).
    apply split_close in He as (r0 & -> & ->); [|reflexivity].
    assert (Hx : multi_string ((quotes3 ++ c ++ [quote; quote]) ++ quote :: r0) = Ok r0 c).
    { apply multi_string_iff. rewrite <- !app_assoc. auto. }
    rewrite Hx in H1. discriminate.
  - exact I.
Qed.
Lemma sim_single_string : sim single_string.
Proof.
  intros s _. destruct (single_string s) as [r c| |] eqn:H1.
  - apply single_string_iff in H1 as [-> Hc].
    replace (single_string _) with (Ok (r ++ w) c).
    + apply same_intro. exists (quote :: c ++ [quote]). cbn [app]. rewrite <- !app_assoc. reflexivity.
    + symmetry. apply single_string_iff. cbn [app]. rewrite <- !app_assoc. auto.
  - destruct (single_string (s ++ w)) as [r c| |] eqn:H2; [|exact I|exact I].
    apply single_string_iff in H2 as [He Hc]. exfalso.
    change (quote :: c ++ quote :: r) with ((quote :: c) ++ quote :: r) in He.
    apply split_close in He as (r0 & -> & ->); [|reflexivity].
    assert (Hx : single_string ((quote :: c) ++ quote :: r0) = Ok r0 c).
    { apply single_string_iff. auto. }
    rewrite Hx in H1. discriminate.
  - exact I.
Qed.
Lemma sim_character : sim character.
Proof.
  intros s _. destruct (character s) as [r e| |] eqn:H1.
  - apply character_iff in H1 as (x & c & -> & -> & Hc).
    replace (character _) with (Ok (r ++ w) (Character c)).
    + apply same_intro. exists (squote :: x ++ [squote]). cbn [app]. rewrite <- !app_assoc. reflexivity.
    + symmetry. apply character_iff. cbn [app]. rewrite <- !app_assoc. exists x, c. auto.
  - destruct (character (s ++ w)) as [r e| |] eqn:H2; [|exact I|exact I].
    apply character_iff in H2 as (x & c & -> & He & Hc). exfalso.
    change (squote :: x ++ squote :: r) with ((squote :: x) ++ squote :: r) in He.
    apply split_close in He as (r0 & -> & ->); [|reflexivity].
    assert (Hx : character ((squote :: x) ++ squote :: r0) = Ok r0 (Character c)).
    { apply character_iff. exists x, c. auto. }
    rewrite Hx in H1. discriminate.
  - exact I.
Qed.

(** a comment that runs to the end of the text is lengthened by the blanks *)
Definition longer (x y : res statement_ast) : Prop :=
  exists c w0 w1, w = w0 ++ w1 /\ forallb not_newline w0 = true /\ line_end w1 /\
    x = Ok [] (Comment c) /\ y = Ok w1 (Comment (c ++ w0)).

Lemma comment_w s : same s (comment s) (comment (s ++ w)) \/ longer (comment s) (comment (s ++ w)).
Proof.
  destruct (comment s) as [r e| |] eqn:H1.
  - apply comment_iff in H1 as (c & -> & H). destruct H as [(-> & Hc & Hr)|[-> Hc]].
    + destruct r as [|d r].
      * right. destruct w_line as (w0 & w1 & He & H0 & H2 & _). exists c, w0, w1.
        repeat split; auto. apply comment_iff. exists (c ++ w0). split; [reflexivity|]. left.
        rewrite He, app_nil_r, <- !app_assoc. split; [reflexivity|].
        rewrite forallb_app, Hc. auto.
      * left. replace (comment _) with (Ok ((d :: r) ++ w) (Comment c)).
        { apply same_intro. exists (L "--" ++ c). rewrite <- app_assoc. reflexivity. }
        symmetry. apply comment_iff. exists c. split; [reflexivity|]. left.
        rewrite <- !app_assoc. auto.
    + left. replace (comment _) with (Ok (r ++ w) (Comment c)).
      { apply same_intro. exists (L "{-" ++ c ++ L "-}"). rewrite <- !app_assoc. reflexivity. }
      symmetry. apply comment_iff. exists c. split; [reflexivity|]. right.
      split; [rewrite <- !app_assoc; reflexivity|exact Hc].
  - left. destruct (comment (s ++ w)) as [r e| |] eqn:H2; [|exact I|exact I].
    apply comment_iff in H2 as (c & -> & H). exfalso. destruct H as [(He & Hc & Hr)|[He Hc]].
    + change (L "--" ++ c ++ r) with ([C "-"] ++ C "-" :: (c ++ r)) in He.
      apply split_close in He as (r0 & He & ->); [|reflexivity].
      assert (Hx : exists r1 c1, single_line_comment (L "--" ++ r0) = Ok r1 c1).
      { rewrite single_line_comment_eq. cbn [app strip]. rewrite !N.eqb_refl.
        destruct (span not_newline r0); eauto. }
      destruct Hx as (r1 & c1 & Hx). apply single_line_comment_iff in Hx.
      assert (Hy : comment ([C "-"] ++ C "-" :: r0) = Ok r1 (Comment c1)).
      { apply comment_iff. exists c1. auto. }
      rewrite Hy in H1. discriminate.
    + replace (L "{-" ++ c ++ L "-}" ++ r) with ((L "{-" ++ c ++ L "-") ++ C "}" :: r) in He
        by (rewrite <- !app_assoc; reflexivity).
      apply split_close in He as (r0 & -> & ->); [|reflexivity].
      assert (Hx : comment ((L "{-" ++ c ++ L "-") ++ C "}" :: r0) = Ok r0 (Comment c)).
      { apply comment_iff. exists c. split; [reflexivity|]. right. split; [|exact Hc].
        rewrite <- !app_assoc. reflexivity. }
      rewrite Hx in H1. discriminate.
  - left. exact I.
Qed.

(** ** Blank space *)

Lemma span_blank_w f s a b : (forall c, f c = true -> is_blank c = true) ->
  span f s = (a, b) -> idle s \/ span f (s ++ w) = (a, b ++ w).
Proof.
  intros Hf Hs. pose proof Hs as Hs'. apply span_longest in Hs' as (He & Ha & Hb).
  destruct b as [|c b].
  - left. rewrite app_nil_r in He. subst s. apply blanks_idle. unfold blanks.
    rewrite forallb_forall in Ha |- *. auto.
  - right. subst s. rewrite <- app_assoc. apply span_longest. repeat split; auto.
Qed.

Lemma layp_take_while1 f : (forall c, f c = true -> is_blank c = true) -> layp (take_while1 f).
Proof.
  intros Hf. split.
  - intros s Hs r a. unfold take_while1. destruct (span f s) as [x y] eqn:Hx. destruct x; [discriminate|].
    intros [= <- <-]. eapply idle_span; eauto.
  - intros s Hs. destruct (span f s) as [a b] eqn:Hx.
    destruct (span_blank_w f s a b Hf Hx) as [H|H]; [auto|right].
    unfold take_while1. rewrite H, Hx. destruct a; [exact I|]. apply same_intro. eapply span_suffix; eauto.
Qed.
Lemma layp_multispace0 : layp multispace0.
Proof.
  split.
  - intros s Hs r a. rewrite multispace0_eq. destruct (span is_blank s) as [x y] eqn:Hx.
    intros [= <- <-]. eapply idle_span; eauto.
  - intros s Hs. destruct (span is_blank s) as [a b] eqn:Hx.
    destruct (span_blank_w is_blank s a b (fun c H => H) Hx) as [H|H]; [auto|right].
    rewrite !multispace0_eq, H, Hx. apply same_intro. eapply span_suffix; eauto.
Qed.
Lemma layp_multispace : layp multispace.
Proof. apply layp_take_while1. intros c Hc. exact Hc. Qed.
Lemma layp_space1 : layp space1.
Proof. apply layp_take_while1. intros c Hc. unfold is_space in Hc. chr. Qed.
Lemma layp_spaces : layp spaces.
Proof. apply layp_take_while1. intros c Hc. chr. Qed.
Lemma layp_spaces_and_newlines : layp spaces_and_newlines.
Proof. apply layp_take_while1. intros c Hc. chr. Qed.

Lemma layp_sp i ir : layp (sp i ir).
Proof.
  split.
  - intros s Hs r n H. apply sp_iff in H as (t & Hr & _). eapply idle_rest; eauto.
  - intros s Hs. destruct (trivia_run_exists s) as (t & r & Hr).
    destruct r as [|c r].
    + left. destruct Hr as (-> & Ht & _). rewrite app_nil_r. apply trivia_idle. exact Ht.
    + right. assert (Hr' : trivia_run (s ++ w) t ((c :: r) ++ w)).
      { destruct Hr as (-> & Ht & Hn & Hc). split; [rewrite <- app_assoc; reflexivity|].
        split; [exact Ht|]. split.
        - destruct Hn as (H1 & H2 & H3). cbn [app]. split; [exact H1|]. split; [exact H2|].
          intros [-> (r'' & He)]. apply H3. split; [reflexivity|]. destruct r as [|d r].
          + exfalso. cbn [app] in He. pose proof (blank_head _ _ He). discriminate.
          + injection He as -> _. eauto.
        - left. destruct Hc as [Hc|Hc]; [exact Hc|discriminate]. }
      destruct (sp_run i ir s t _ Hr) as [[H1 ->]|[(H1 & H2 & ->)|(H1 & H2 & ->)]];
      destruct (sp_run i ir _ t _ Hr') as [[H3 ->]|[(H3 & H4 & ->)|(H3 & H4 & ->)]];
        try congruence; try exact I; try tauto.
      apply same_intro. destruct Hr as (-> & _). eauto.
Qed.
Lemma layp_opt_sp i : layp (opt_sp i).
Proof. apply layp_opt, layp_sp. Qed.
Lemma layp_opt_lay i ir : layp (opt_spaces_or_new_lines_and_indent i ir).
Proof. apply layp_map, layp_opt, layp_sp. Qed.
Lemma layp_same_indent i : layp (new_line_and_same_indent i).
Proof.
  unfold new_line_and_same_indent. apply layp_map_res. split.
  - intros s Hs r n H. apply bind_Ok in H as (s' & c & H1 & H2). apply char_Ok in H1 as [-> _].
    apply map_Ok in H2 as (b & H2 & _). rewrite spaces0_eq in H2.
    inversion Hs as [|? ? ? Hs'|]; subst. destruct (span is_sp s') as [x y] eqn:Hx.
    injection H2 as <- <-. eapply (idle_span is_sp); [|exact Hs'|exact Hx]. intros d Hd. unfold is_sp in Hd. chr.
  - intros s Hs. destruct s as [|c s]; [left; constructor|]. cbn [app].
    unfold preceded, bind, char_. destruct (N.eqb_spec c 10%N) as [->|_]; [|right; exact I].
    unfold map_. rewrite !spaces0_eq. destruct (span is_sp s) as [a b] eqn:Hx.
    assert (Hsp : forall c, is_sp c = true -> is_blank c = true) by (intros d Hd; unfold is_sp in Hd; chr).
    destruct (span_blank_w is_sp s a b Hsp Hx) as [H|H].
    + left. constructor; [reflexivity|exact H].
    + right. rewrite H. apply same_intro. apply span_suffix in Hx as [u ->]. exists (10%N :: u). reflexivity.
Qed.

(** a comma with a space: the space may be missing at the end *)
Lemma simD_comma_space : simD (tag (L ", ")).
Proof.
  intros s Hs. unfold tag, need_more, at_eof.
  destruct s as [|c [|d s]].
  - right. split; intros r a; [discriminate|]. cbn [app].
    destruct w_cases as [Ew|(x & y & Ew & H)]; rewrite Ew; [discriminate|]. cbn [strip].
    destruct (N.eqb_spec (C ",") x) as [<-|_]; [|discriminate]. discriminate.
  - right. split; intros r a.
    + cbn [strip]. destruct (C "," =? c)%N; discriminate.
    + cbn [app strip]. destruct (C "," =? c)%N; [|discriminate].
      destruct w_cases as [Ew|(x & y & Ew & H)]; rewrite Ew; [discriminate|].
      destruct (C " " =? x)%N; [|discriminate]. intros [= <- <-]. apply blanks_idle.
      pose proof Hw as Hw'. unfold blanks in *. rewrite Ew in Hw'. simpl in Hw'.
      apply andb_true_iff in Hw' as [_ Hw']. exact Hw'.
  - left. cbn [app strip]. destruct (C "," =? c)%N; [|exact I]. destruct (C " " =? d)%N; [|exact I].
    apply same_intro. exists [c; d]. reflexivity.
Qed.
Lemma fails_comma_space : fails (tag (L ", ")).
Proof. apply fails_tag; [reflexivity|discriminate]. Qed.

(** ** The parsers of the crate *)

Lemma sim_layp {A B} (p : parser A) (k : A -> parser B) :
  layp p -> (forall a, sim (k a)) -> fails (bind p k) -> sim (bind p k).
Proof.
  intros [_ Hp] Hk Hf s Hs. destruct (Hp s Hs) as [Hi|Hn].
  - apply same_no_ok; intros r a; apply Hf; [exact Hi|apply idle_w; assumption].
  - unfold bind.
    destruct (p s) as [r a| |]; destruct (p (s ++ w)) as [r' a'| |]; simpl in Hn; try exact I;
      try contradiction.
    + destruct Hn as (-> & -> & u & ->). apply same_suffix. apply Hk. eapply safe_suffix; eauto.
    + destruct (k a r); exact I.
Qed.

Lemma simT_blank_end {A} (a : A) : simT (multispace0 ;;; ret a).
Proof.
  intros s Hs. destruct layp_multispace0 as [Hk H]. destruct (H s Hs) as [Hi|Hn].
  - right. pose proof (idle_w s Hi Hs) as Hi'.
    assert (Hd : forall z, idle z -> dead ((multispace0 ;;; ret a) z)).
    { intros z Hz r b Hb. apply bind_Ok in Hb as (z' & x & Hx & [= <- <-]). eapply Hk; eauto. }
    split; [auto|]. split; [auto|]. unfold bind. rewrite !multispace0_eq.
    destruct (span is_blank s), (span is_blank (s ++ w)). split; discriminate.
  - left. unfold bind. destruct (multispace0 s) as [r x| |]; destruct (multispace0 (s ++ w)) as [r' x'| |];
      simpl in *; tauto.
Qed.

Lemma fails_sp_operator i : fails (sp i IR_GTE ;;; operator_or_as).
Proof.
  intros s r a Hs H. apply bind_Ok in H as (s' & n & H1 & H2).
  apply sp_iff in H1 as (t & Hr & _). pose proof (idle_rest _ _ _ Hs Hr) as Hi.
  destruct Hr as (_ & _ & Hn & _). apply map_Ok in H2 as (o & H2 & _).
  apply alt_Ok in H2 as [H2|[_ H2]].
  - revert H2. apply (fails_tag (C "a") [C "s"]); [reflexivity|discriminate|exact Hi].
  - apply idle_cases in Hi as [->|[(c & z & -> & Hc)|(z & ->)]].
    + discriminate.
    + rewrite operator_eq in H2. cbn [span] in H2.
      assert (Ho : is_op_char c = false) by chr. rewrite Ho in H2. discriminate.
    + destruct Hn as (_ & _ & Hn). apply Hn. split; [reflexivity|]. exists z. reflexivity.
Qed.
Lemma fails_operator_exp (E : N -> parser expr) i : fails (operator_exp_f E i).
Proof.
  intros s r a Hs H. apply bind_Ok in H as (s1 & n & H1 & H2).
  apply bind_Ok in H2 as (s2 & o & H2 & _).
  apply (fails_sp_operator i s s2 o Hs). unfold bind. rewrite H1. exact H2.
Qed.

Create HintDb traildb.
Hint Resolve layp_multispace0 layp_multispace layp_space1 layp_spaces layp_spaces_and_newlines
  layp_sp layp_opt_sp layp_opt_lay layp_same_indent : traildb.
Hint Resolve sim_digit sim_up_name sim_type_variable sim_lo_name sim_operator
  sim_multi_string sim_single_string sim_character : traildb.
Hint Resolve fails_lo_name fails_up_name fails_type_variable fails_digit fails_variable
  fails_string fails_character fails_integer fails_float fails_arrow fails_comma_space
  fails_operator_exp : traildb.

Ltac base := solve [auto with traildb].
Ltac expose := unfold delimited, preceded, terminated, separated_pair, value.

Ltac fl :=
  expose;
  lazymatch goal with
  | |- fails (bind ?p ?k) =>
      first [ apply fails_bind; solve [fl] | apply fails_bind2; [solve [kp] | intros; fl] | base ]
  | |- fails (map_ _ _) => apply fails_map; fl
  | |- fails (map_res _ _) => apply fails_map_res; fl
  | |- fails (alt _ _) => apply fails_alt; fl
  | |- fails (separated_nonempty_list _ _) => apply fails_sep1; fl
  | |- fails (char_ _) => apply fails_char; [reflexivity|discriminate]
  | |- fails (tag _) => first [base | apply fails_tag; [reflexivity|discriminate]]
  | |- _ => base
  end
with kp :=
  expose;
  lazymatch goal with
  | |- keeps (ret _) => apply keeps_ret
  | |- keeps (opt _) => apply keeps_opt; kp
  | |- keeps (map_ _ _) => apply keeps_map; kp
  | |- keeps (separated_list _ _) => apply keeps_sep0; fl
  | |- keeps (bind ?p ?k) =>
      first [ apply fails_keeps; solve [fl] | apply keeps_bind; [kp | intros; kp] ]
  | |- keeps ?p =>
      first [ base
            | match goal with |- _ => let H := fresh in assert (H : layp p) by base; exact (proj1 H) end
            | apply fails_keeps; fl ]
  end.

Ltac sm :=
  expose;
  lazymatch goal with
  | |- sim (bind ?p ?k) =>
      first [ base
            | apply sim_bind; [solve [sm] | intros; sm]
            | apply sim_bindD; [solve [smD] | intros; sm | intros; fl] ]
  | |- sim (ret _) => apply sim_ret
  | |- sim (map_ _ _) => apply sim_map; sm
  | |- sim (map_res _ _) => apply sim_map_res; sm
  | |- sim (alt _ _) => apply sim_alt; sm
  | |- sim (opt _) => apply sim_opt; sm
  | |- sim (many0 _) => apply sim_many0; sm
  | |- sim (many1 _) => apply sim_many1; sm
  | |- sim (separated_nonempty_list _ _) =>
      apply sim_sep1; [apply simD_stops; [solve [smD] | solve [fl]] | sm]
  | |- sim (separated_list _ _) =>
      first [base | apply sim_sep0; [apply simD_stops; [solve [smD] | solve [fl]] | sm]]
  | |- sim (char_ _) => apply sim_char; reflexivity
  | |- sim (tag _) => apply sim_tag; reflexivity
  | |- _ => base
  end
with smD :=
  expose;
  lazymatch goal with
  | |- simD (bind ?p ?k) =>
      first [ apply simD_bind; [solve [sm] | intros; smD]
            | apply simD_bindD; [solve [smD] | intros; smD | intros; kp] ]
  | |- simD (opt ?p) => first [apply layp_simD; base | apply layp_simD, layp_opt; base | apply sim_simD; sm]
  | |- simD _ => first [base | apply layp_simD; base | apply simT_simD; base | apply sim_simD; sm]
  end.

Lemma simD_comma_sep i : simD (comma_sep i).
Proof. unfold comma_sep. smD. Qed.
Lemma fails_comma_sep i : fails (comma_sep i).
Proof. unfold comma_sep. fl. Qed.
Lemma sim_type_constant : sim type_constant.
Proof. unfold type_constant. sm. Qed.
Lemma fails_type_constant : fails type_constant.
Proof. unfold type_constant. fl. Qed.
Hint Resolve sim_type_constant fails_type_constant fails_comma_sep simD_comma_sep : traildb.

(** types *)
Section TrailT.
Variable T : N -> parser type_ast.
Hypothesis HTs : forall i, sim (T i).
Hypothesis HTf : forall i, fails (T i).
Hint Resolve HTs HTf : traildb.

Lemma sim_annotation_f i : sim (type_annotation_f T i).
Proof. unfold type_annotation_f. sm. Qed.
Lemma fails_annotation_f i : fails (type_annotation_f T i).
Proof. unfold type_annotation_f. fl. Qed.
Hint Resolve sim_annotation_f fails_annotation_f : traildb.
Lemma sim_type_tuple_f i : sim (type_tuple_f T i).
Proof. unfold type_tuple_f. sm. Qed.
Lemma fails_type_tuple_f i : fails (type_tuple_f T i).
Proof. unfold type_tuple_f. fl. Qed.
Lemma sim_pair_f i : sim (type_record_pair_f T i).
Proof. unfold type_record_pair_f. sm. Qed.
Lemma fails_pair_f i : fails (type_record_pair_f T i).
Proof. unfold type_record_pair_f. fl. Qed.
Hint Resolve sim_pair_f fails_pair_f : traildb.
Lemma sim_pairs_f i : sim (type_record_pairs_f T i).
Proof. unfold type_record_pairs_f. sm. Qed.
Lemma keeps_pairs_f i : keeps (type_record_pairs_f T i).
Proof. unfold type_record_pairs_f. kp. Qed.
Hint Resolve sim_pairs_f keeps_pairs_f : traildb.
Lemma sim_record_constructor_f i : sim (type_record_constructor_f T i).
Proof.
  unfold type_record_constructor_f. sm.
Qed.
Lemma fails_record_constructor_f i : fails (type_record_constructor_f T i).
Proof. unfold type_record_constructor_f. fl. Qed.
Lemma sim_type_record_f i : sim (type_record_f T i).
Proof. unfold type_record_f. sm. Qed.
Lemma fails_type_record_f i : fails (type_record_f T i).
Proof. unfold type_record_f. fl. Qed.
Lemma sim_type_parens_f i : sim (type_parens_f T i).
Proof. unfold type_parens_f. sm. Qed.
Lemma fails_type_parens_f i : fails (type_parens_f T i).
Proof. unfold type_parens_f. fl. Qed.
Hint Resolve sim_type_tuple_f fails_type_tuple_f sim_record_constructor_f fails_record_constructor_f
  sim_type_record_f fails_type_record_f sim_type_parens_f fails_type_parens_f : traildb.
Lemma sim_type_parameter_f i : sim (type_parameter_f T i).
Proof. unfold type_parameter_f. sm. Qed.
Lemma fails_type_parameter_f i : fails (type_parameter_f T i).
Proof. unfold type_parameter_f. fl. Qed.
Hint Resolve sim_type_parameter_f fails_type_parameter_f : traildb.
Lemma sim_type_constructor_f i : sim (type_constructor_f T i).
Proof. unfold type_constructor_f. sm. Qed.
Lemma fails_type_constructor_f i : fails (type_constructor_f T i).
Proof. unfold type_constructor_f. fl. Qed.
Hint Resolve sim_type_constructor_f fails_type_constructor_f : traildb.
Lemma sim_type_f i : sim (type_f T i).
Proof. unfold type_f. sm. Qed.
Lemma fails_type_f i : fails (type_f T i).
Proof. unfold type_f. fl. Qed.
End TrailT.

(** the recursion: below each length *)
Definition upto {A} (n : nat) (p : N -> parser A) (i : N) : parser A :=
  fun s => if length s <? n then p i s else Abort OutOfFuel.
Lemma upto_fails {A} n (p : N -> parser A) i : fails (p i) -> fails (upto n p i).
Proof. intros H s r a Hs. unfold upto. destruct (length s <? n); [apply H; exact Hs|discriminate]. Qed.
Lemma upto_ok {A} n (p : N -> parser A) i : ok 1 n (p i) (p i) -> ok 1 n (upto n p i) (p i).
Proof.
  intros H s Hs. unfold upto. rewrite (proj2 (Nat.ltb_lt _ _) Hs). apply H. exact Hs.
Qed.
Lemma upto_eats {A} n (p : N -> parser A) i : eats (p i) -> eats (upto n p i).
Proof. intros H s r a. unfold upto. destruct (length s <? n); [apply H|discriminate]. Qed.
Lemma upto_sim {A} (p : N -> parser A) i : (forall n, sim (upto n p i)) -> sim (p i).
Proof.
  intros H s Hs. specialize (H (S (length (s ++ w))) s Hs). unfold upto in H.
  rewrite !(proj2 (Nat.ltb_lt _ _)) in H by (rewrite ?app_length; lia). exact H.
Qed.
Lemma upto_step {A} (f : (N -> parser A) -> N -> parser A) (p : N -> parser A) n i :
  (forall j s, p j s = f p j s) ->
  ok 1 (S n) (f (upto n p) i) (f p i) -> sim (f (upto n p) i) -> sim (upto (S n) p i).
Proof.
  intros Heq Hok Hs s Hsafe. unfold upto at 1 2.
  destruct (length s <? S n) eqn:H1; [|exact I].
  destruct (length (s ++ w) <? S n) eqn:H2; [|destruct (p i s); exact I].
  apply Nat.ltb_lt in H1, H2. rewrite !Heq.
  rewrite <- (proj1 (Hok s H1)), <- (proj1 (Hok _ H2)). apply Hs. exact Hsafe.
Qed.

Lemma fails_type i : fails (type_ i).
Proof.
  apply (fails_heads _ _ (heads_type i)); [|reflexivity]. unfold type0. intros; chr.
Qed.
Lemma sim_type i : sim (type_ i).
Proof.
  apply upto_sim. intros n. revert i. induction n as [|n IH]; intros i.
  - intros s Hs. exact I.
  - apply (upto_step type_f); [apply type_eq| |].
    + apply ok_type_f. intros j. apply upto_ok, ok_type.
    + apply sim_type_f; [exact IH|]. intros j. apply upto_fails, fails_type.
Qed.
Hint Resolve fails_type sim_type : traildb.
Lemma sim_type_annotation i : sim (type_annotation i).
Proof. apply sim_annotation_f; auto with traildb. Qed.
Lemma fails_type_annotation i : fails (type_annotation i).
Proof. apply fails_annotation_f; auto with traildb. Qed.
Lemma sim_type_constructor i : sim (type_constructor i).
Proof. apply sim_type_constructor_f; auto with traildb. Qed.
Lemma fails_type_constructor i : fails (type_constructor i).
Proof. apply fails_type_constructor_f; auto with traildb. Qed.
Hint Resolve sim_type_annotation fails_type_annotation sim_type_constructor fails_type_constructor : traildb.

(** expressions *)
Lemma sim_is_a_comma : sim (is_a (L ",")).
Proof. apply sim_take_while1. intros c Hc. destruct (N.eqb_spec c (C ",")) as [->|H]; [discriminate|]. chr. Qed.
Hint Resolve sim_is_a_comma : traildb.
Lemma sim_variable : sim variable.
Proof. unfold variable, lower_case, upper_with_dots, op. sm. Qed.
Hint Resolve sim_variable : traildb.
Lemma sim_access : sim access.
Proof. unfold access. sm. Qed.
Lemma fails_access : fails access.
Proof. unfold access. fl. Qed.
Lemma sim_access_function : sim access_function.
Proof. unfold access_function. sm. Qed.
Lemma fails_access_function : fails access_function.
Proof. unfold access_function. fl. Qed.
Lemma sim_string : sim string_.
Proof. unfold string_. sm. Qed.
Lemma sim_sign : sim sign.
Proof. unfold sign. sm. Qed.
Hint Resolve sim_sign : traildb.
Lemma sim_float : sim float.
Proof. unfold float. sm. Qed.
Lemma sim_integer : sim integer.
Proof. unfold integer. sm. Qed.
Hint Resolve sim_access fails_access sim_access_function fails_access_function sim_string
  sim_float sim_integer : traildb.
Lemma sim_operator_or_as : sim operator_or_as.
Proof. unfold operator_or_as. sm. Qed.
Lemma sim_binding_name : sim binding_name.
Proof. unfold binding_name. sm. Qed.
Lemma fails_binding_name : fails binding_name.
Proof. unfold binding_name. fl. Qed.
Hint Resolve sim_operator_or_as sim_binding_name fails_binding_name : traildb.
Lemma sim_function_signature i : sim (function_signature i).
Proof. unfold function_signature. sm. Qed.
Lemma fails_function_signature i : fails (function_signature i).
Proof. unfold function_signature. fl. Qed.
Hint Resolve sim_function_signature fails_function_signature : traildb.

Lemma simT_simplified_field : simT simplified_field.
Proof.
  unfold simplified_field. apply simT_bindD; [smD| |intros; fl]. intros _.
  apply simT_bind; [sm|]. intros name. apply simT_blank_end.
Qed.
Lemma fails_simplified_field : fails simplified_field.
Proof. unfold simplified_field. fl. Qed.
Lemma eats_simplified_field : eats simplified_field.
Proof. apply ok_eats. intros n. apply ok_simplified_field. Qed.
Lemma sim_simplified_record : sim simplified_record.
Proof.
  unfold simplified_record. apply sim_map. expose. apply sim_bind; [sm|]. intros _.
  apply sim_bindD; [|intros; sm|intros; fl].
  apply simT_simD, simT_sep0; [sm|fl|apply simT_simplified_field|apply fails_simplified_field|apply eats_simplified_field].
Qed.
Lemma fails_simplified_record : fails simplified_record.
Proof. unfold simplified_record. fl. Qed.
Hint Resolve sim_simplified_record fails_simplified_record : traildb.

Section TrailE.
Variable E : N -> parser expr.
Hypothesis HEs : forall i, sim (E i).
Hypothesis HEf : forall i, fails (E i).
Hypothesis HEe : forall i, eats (E i).
Hint Resolve HEs HEf : traildb.

Lemma sim_tuple_f i : sim (tuple_f E i).
Proof.
  unfold tuple_f. apply sim_map. unfold delimited at 1. apply sim_bind; [sm|]. intros _.
  apply sim_bindD; [|intros; sm|intros; fl].
  apply simT_simD, simT_sep0; [sm|fl| |expose; fl|].
  - expose. apply simT_bindD; [smD| |intros; fl]. intros _.
    apply simT_bind; [sm|]. intros e. apply simT_blank_end.
  - intros s r a H. apply delimited_Ok in H as (s1 & x & s2 & y & H1 & H2 & H3).
    rewrite multispace0_eq in H1, H3. destruct (span is_blank s) as [u v] eqn:Hu.
    destruct (span is_blank s2) as [u' v'] eqn:Hu'. injection H1 as <- _. injection H3 as <- _.
    apply span_longest in Hu as (-> & _), Hu' as (-> & _). apply HEe in H2.
    rewrite app_length in *. lia.
Qed.
Lemma fails_tuple_f i : fails (tuple_f E i).
Proof. unfold tuple_f. fl. Qed.
Lemma sim_list_f i : sim (list_f E i).
Proof. unfold list_f. sm. Qed.
Lemma fails_list_f i : fails (list_f E i).
Proof. unfold list_f. fl. Qed.
Lemma sim_record_field_f i : sim (record_field_f E i).
Proof. unfold record_field_f. sm. Qed.
Lemma fails_record_field_f i : fails (record_field_f E i).
Proof. unfold record_field_f. fl. Qed.
Hint Resolve sim_record_field_f fails_record_field_f : traildb.
Lemma sim_record_f i : sim (record_f E i).
Proof. unfold record_f. sm. Qed.
Lemma fails_record_f i : fails (record_f E i).
Proof. unfold record_f. fl. Qed.
Lemma sim_update_field_f i : sim (update_field_f E i).
Proof. unfold update_field_f. sm. Qed.
Lemma fails_update_field_f i : fails (update_field_f E i).
Proof. unfold update_field_f. fl. Qed.
Hint Resolve sim_update_field_f fails_update_field_f : traildb.
Lemma sim_record_update_f i : sim (record_update_f E i).
Proof. unfold record_update_f. sm. Qed.
Lemma fails_record_update_f i : fails (record_update_f E i).
Proof. unfold record_update_f. fl. Qed.
Lemma sim_parens_f i : sim (parens_f E i).
Proof. unfold parens_f. sm. Qed.
Lemma fails_parens_f i : fails (parens_f E i).
Proof. unfold parens_f. fl. Qed.
Hint Resolve sim_tuple_f fails_tuple_f sim_list_f fails_list_f sim_record_f fails_record_f
  sim_record_update_f fails_record_update_f sim_parens_f fails_parens_f : traildb.
Lemma sim_term_f i : sim (term_f E i).
Proof. unfold term_f. sm. Qed.
Lemma fails_term_f i : fails (term_f E i).
Proof. unfold term_f. fl. Qed.
Hint Resolve sim_term_f fails_term_f : traildb.
Lemma sim_lambda_f i : sim (lambda_f E i).
Proof. unfold lambda_f. sm. Qed.
Lemma fails_lambda_f i : fails (lambda_f E i).
Proof. unfold lambda_f. fl. Qed.
Lemma sim_application_f i : sim (application_or_var_f E i).
Proof. unfold application_or_var_f. sm. Qed.
Lemma fails_application_f i : fails (application_or_var_f E i).
Proof.
  intros s r a Hs H. apply map_res_Ok in H as (l & H & Hl).
  apply sep0_idle in H as [_ ->]; [discriminate|apply fails_term_f|exact Hs].
Qed.
Hint Resolve sim_lambda_f fails_lambda_f sim_application_f fails_application_f : traildb.
Lemma sim_definition_f i : sim (function_definition_f E i).
Proof. unfold function_definition_f. sm. Qed.
Lemma fails_definition_f i : fails (function_definition_f E i).
Proof. unfold function_definition_f. fl. Qed.
Hint Resolve sim_definition_f fails_definition_f : traildb.

Lemma heads_term_f i : heads (fun c => negb (c =? C ":")%N) (term_f E i).
Proof.
  unfold term_f. repeat (lazymatch goal with |- heads _ (alt _ _) => apply heads_alt end);
    eapply heads_weaken;
    [|apply heads_access| |apply heads_variable| |apply heads_access_function| |apply heads_string|
     |apply heads_float| |apply heads_integer| |apply heads_character| |apply heads_parens|
     |apply heads_list| |apply heads_tuple| |apply heads_update| |apply heads_record| |apply heads_names];
    intros c Hc; cbv beta in *; destruct (N.eqb_spec c (C ":")) as [->|_]; try reflexivity;
    (discriminate || chr).
Qed.
Lemma signature_no_definition i s r g r' d :
  function_signature i s = Ok r g -> function_definition_f E i s <> Ok r' d.
Proof.
  intros H1 H2. unfold function_signature in H1. unfold function_definition_f in H2.
  apply bind_Ok in H1 as (s1 & n & H1 & H3). apply bind_Ok in H2 as (s1' & n' & H2 & H4).
  rewrite H1 in H2. injection H2 as <- <-.
  apply bind_Ok in H3 as (s2 & x & H3 & H5). apply bind_Ok in H5 as (s3 & y & H5 & _).
  apply char_Ok in H5 as [-> _].
  apply bind_Ok in H4 as (s4 & args & H4 & H6). apply many0_Ok in H4.
  inversion H4 as [? Hst|? z t l ? Hz Hl Hm]; subst.
  - apply bind_Ok in H6 as (s5 & x' & H6 & H7). rewrite H3 in H6. injection H6 as <- <-.
    apply bind_Ok in H7 as (s6 & y' & H7 & _). apply char_Ok in H7 as [[=] _].
  - apply bind_Ok in Hz as (s5 & x' & H7 & H8). rewrite H3 in H7. injection H7 as <- <-.
    apply heads_term_f in H8 as (c & ? & [= <- _] & Hc). discriminate.
Qed.

Lemma sim_function_f i : sim (function_f E i).
Proof.
  intros s Hs.
  assert (Hn : simD (terminated (function_signature i) (new_line_and_same_indent i))) by smD.
  unfold function_f. set (k := fun g => bind (function_definition_f E i) _).
  assert (Hk : forall g, sim (k g)) by (intros g; unfold k; sm).
  assert (Hkf : forall g, fails (k g)) by (intros g; unfold k; fl).
  destruct (Hn s Hs) as [H|[H1 H2]].
  - apply same_opt in H. unfold bind.
    destruct (opt _ s) as [r a| |]; destruct (opt _ (s ++ w)) as [r' a'| |]; simpl in H; try contradiction;
      try exact I.
    + destruct H as (-> & -> & u & ->). apply same_suffix. apply Hk. eapply safe_suffix; eauto.
    + destruct (k a r); exact I.
  - assert (Hok : forall z, function_signature i z = Err \/ exists r g, function_signature i z = Ok r g).
    { intros z. destruct (ok_function_signature (S (length z)) i z (le_n _)) as [_ Ho].
      destruct (function_signature i z); [eauto|auto|contradiction]. }
    pose proof (sim_function_signature i s Hs) as Hsig.
    destruct (Hok s) as [He|(r & g & He)].
    + destruct (Hok (s ++ w)) as [He'|(r' & g' & He')]; rewrite He, He' in Hsig; [|contradiction].
      assert (Ho : forall z, function_signature i z = Err ->
                opt (terminated (function_signature i) (new_line_and_same_indent i)) z = Ok z None).
      { intros z Hz. unfold opt, terminated, bind. rewrite Hz. reflexivity. }
      unfold bind. rewrite (Ho _ He), (Ho _ He'). apply Hk. exact Hs.
    + destruct (Hok (s ++ w)) as [He'|(r' & g' & He')]; [rewrite He, He' in Hsig; contradiction|].
      assert (Hno : forall z r g, function_signature i z = Ok r g ->
                dead (terminated (function_signature i) (new_line_and_same_indent i) z) ->
                forall r a, bind (opt (terminated (function_signature i) (new_line_and_same_indent i))) k z
                            <> Ok r a).
      { intros z r0 g0 Hz Hd r1 a1 H. apply bind_Ok in H as (z' & o & Ho & H).
        unfold opt in Ho.
        destruct (terminated (function_signature i) (new_line_and_same_indent i) z) as [z1 x| |] eqn:Ht;
          [|injection Ho as <- <-|discriminate].
        - injection Ho as <- <-. eapply Hkf; [|exact H]. eapply Hd. reflexivity.
        - unfold k in H. apply bind_Ok in H as (z2 & d & H & _).
          eapply signature_no_definition; eauto. }
      apply same_no_ok; intros r1 a1; eapply Hno; eauto.
Qed.
Lemma fails_function_f i : fails (function_f E i).
Proof.
  intros s r a Hs H. unfold function_f in H. apply bind_Ok in H as (s' & o & Ho & H).
  apply bind_Ok in H as (s2 & d & H & _). eapply fails_definition_f; [|exact H].
  unfold opt in Ho.
  destruct (terminated (function_signature i) (new_line_and_same_indent i) s) as [z1 x| |] eqn:Ht;
    [|injection Ho as <- <-; exact Hs|discriminate].
  exfalso. revert Ht. assert (Hf : fails (terminated (function_signature i) (new_line_and_same_indent i))) by fl.
  apply Hf. exact Hs.
Qed.
Hint Resolve sim_function_f fails_function_f : traildb.

Lemma sim_target_f i : sim (let_binding_target_f E i).
Proof. unfold let_binding_target_f. sm. Qed.
Lemma fails_target_f i : fails (let_binding_target_f E i).
Proof. unfold let_binding_target_f. fl. Qed.
Hint Resolve sim_target_f fails_target_f : traildb.
Lemma sim_let_binding_f i : sim (let_binding_f E i).
Proof. unfold let_binding_f. sm. Qed.
Lemma fails_let_binding_f i : fails (let_binding_f E i).
Proof. unfold let_binding_f. fl. Qed.
Hint Resolve sim_let_binding_f fails_let_binding_f : traildb.
Lemma sim_let_bindings_f i : sim (let_bindings_f E i).
Proof. unfold let_bindings_f. sm. Qed.
Lemma fails_let_bindings_f i : fails (let_bindings_f E i).
Proof. unfold let_bindings_f. fl. Qed.
Hint Resolve sim_let_bindings_f fails_let_bindings_f : traildb.
Lemma sim_let_f i : sim (let_expression_f E i).
Proof. unfold let_expression_f. sm. Qed.
Lemma sim_case_f i : sim (case_f E i).
Proof. unfold case_f. sm. Qed.
Lemma fails_case_f i : fails (case_f E i).
Proof. unfold case_f. fl. Qed.
Hint Resolve sim_case_f fails_case_f : traildb.
Lemma sim_cases_f i : sim (cases_f E i).
Proof. unfold cases_f. sm. Qed.
Lemma fails_cases_f i : fails (cases_f E i).
Proof. unfold cases_f. fl. Qed.
Hint Resolve sim_cases_f fails_cases_f : traildb.
Lemma sim_case_expression_f i : sim (case_expression_f E i).
Proof. unfold case_expression_f. sm. Qed.
Lemma sim_if_f i : sim (if_expression_f E i).
Proof. unfold if_expression_f. sm. Qed.
Lemma sim_operator_exp_f i : sim (operator_exp_f E i).
Proof.
  unfold operator_exp_f. apply sim_layp; [base|intros; sm|]. apply (fails_operator_exp E i).
Qed.
Hint Resolve sim_operator_exp_f : traildb.
Lemma sim_binary_f i : sim (binary_f E i).
Proof. unfold binary_f. sm. Qed.
Hint Resolve sim_let_f sim_case_expression_f sim_if_f sim_binary_f : traildb.
Lemma sim_expression_f i : sim (expression_f E i).
Proof. unfold expression_f. sm. Qed.
Lemma fails_expression_f i : fails (expression_f E i).
Proof. unfold expression_f, binary_f, let_expression_f, case_expression_f, if_expression_f. fl. Qed.
End TrailE.

Lemma fails_expression i : fails (expression i).
Proof.
  intros s r a Hs. rewrite expression_eq. apply fails_expression_f. exact Hs.
Qed.
Lemma eats_expression i : eats (expression i).
Proof. apply ok_eats. intros n. apply ok_expression. Qed.
Lemma sim_expression i : sim (expression i).
Proof.
  apply upto_sim. intros n. revert i. induction n as [|n IH]; intros i.
  - intros s Hs. exact I.
  - apply (upto_step expression_f); [apply expression_eq| |].
    + apply ok_expression_f. intros j. apply upto_ok, ok_expression.
    + apply sim_expression_f; [exact IH| |].
      * intros j. apply upto_fails, fails_expression.
      * intros j. apply upto_eats, eats_expression.
Qed.
Hint Resolve fails_expression sim_expression eats_expression : traildb.
Lemma sim_function i : sim (function i).
Proof. apply sim_function_f; auto with traildb. Qed.
Hint Resolve sim_function : traildb.

(** statements *)
Lemma sim_all_export : sim all_export.
Proof. unfold all_export. sm. Qed.
Lemma fails_all_export : fails all_export.
Proof. unfold all_export. fl. Qed.
Lemma sim_function_export : sim function_export.
Proof. unfold function_export, function_name. sm. Qed.
Lemma fails_function_export : fails function_export.
Proof. unfold function_export, function_name. fl. Qed.
Lemma sim_constructor_subset : sim constructor_subset_exports.
Proof. apply sim_map, sim_sep1; [apply simD_stops; [apply simD_comma_space|fl]|sm]. Qed.
Hint Resolve sim_all_export fails_all_export sim_function_export fails_function_export
  sim_constructor_subset : traildb.
Lemma sim_constructor_exports : sim constructor_exports.
Proof. unfold constructor_exports. sm. Qed.
Hint Resolve sim_constructor_exports : traildb.
Lemma sim_type_export : sim type_export.
Proof. unfold type_export. sm. Qed.
Lemma fails_type_export : fails type_export.
Proof. unfold type_export. fl. Qed.
Hint Resolve sim_type_export fails_type_export : traildb.
Lemma sim_subset_export : sim subset_export.
Proof. unfold subset_export. sm. Qed.
Lemma fails_subset_export : fails subset_export.
Proof. unfold subset_export. fl. Qed.
Hint Resolve sim_subset_export fails_subset_export : traildb.
Lemma sim_exports : sim exports.
Proof. unfold exports. sm. Qed.
Lemma fails_exports : fails exports.
Proof. unfold exports. fl. Qed.
Lemma sim_module_name : sim module_name.
Proof. unfold module_name. sm. Qed.
Lemma fails_module_name : fails module_name.
Proof. unfold module_name. fl. Qed.
Lemma layp_sp_gt0 : layp sp_gt0.
Proof. apply layp_sp. Qed.
Hint Resolve sim_exports fails_exports sim_module_name fails_module_name layp_sp_gt0 : traildb.

Lemma sim_port_module : sim port_module_declaration.
Proof. unfold port_module_declaration. sm. Qed.
Lemma sim_effect_field : sim effect_field.
Proof. unfold effect_field. sm. Qed.
Lemma fails_effect_field : fails effect_field.
Proof. unfold effect_field. fl. Qed.
Hint Resolve sim_effect_field fails_effect_field : traildb.
Lemma sim_effect_fields : sim (separated_list (tag (L ", ")) effect_field).
Proof. apply sim_sep0; [apply simD_stops; [apply simD_comma_space|fl]|sm]. Qed.
Hint Resolve sim_effect_fields : traildb.
Lemma sim_effect_module : sim effect_module_declaration.
Proof. unfold effect_module_declaration. sm. Qed.
Lemma sim_module : sim module_declaration.
Proof. unfold module_declaration. sm. Qed.
Lemma sim_import : sim import_statement.
Proof. unfold import_statement. sm. Qed.
Lemma sim_alias : sim type_alias_declaration.
Proof. unfold type_alias_declaration. sm. Qed.
Lemma sim_type_declaration i : sim (type_declaration i).
Proof. unfold type_declaration. sm. Qed.
Lemma sim_port_type : sim port_type_declaration.
Proof. unfold port_type_declaration. sm. Qed.
Lemma sim_port : sim port_declaration.
Proof. unfold port_declaration. sm. Qed.
Lemma sim_spaces {B} (k : str -> parser B) : (forall a, sim (k a)) ->
  (forall a b, blanks b -> forall r x, k a b <> Ok r x) -> sim (bind spaces k).
Proof.
  intros Hk Hf s Hs. set (f := fun c => mem_char c [32%N]).
  destruct (span f s) as [a b] eqn:Hx. pose proof Hx as Hx'.
  apply span_longest in Hx' as (He & Ha & Hb).
  assert (Hbl : forall c, f c = true -> is_blank c = true) by (unfold f; intros; chr).
  assert (Ha' : blanks a) by (unfold blanks; rewrite forallb_forall in *; auto).
  destruct b as [|c b].
  - assert (Hno : forall z, blanks z -> forall r x, bind spaces k z <> Ok r x).
    { intros z Hz r x H. apply bind_Ok in H as (z' & y & H1 & H2). eapply Hf; [|exact H2].
      apply spaces_iff in H1. destruct H1 as (-> & _). unfold blanks in *.
      rewrite forallb_app in Hz. apply andb_true_iff in Hz as [_ Hz]. exact Hz. }
    rewrite app_nil_r in He. subst a. apply same_no_ok; apply Hno; [exact Ha'|].
    unfold blanks in *. rewrite forallb_app, Ha'. exact Hw.
  - assert (H : span f (s ++ w) = (a, (c :: b) ++ w)).
    { subst s. rewrite <- app_assoc. apply span_longest. repeat split; auto. }
    unfold bind. change spaces with (take_while1 f). unfold take_while1. rewrite H, Hx.
    destruct a; [exact I|]. rewrite He. apply same_suffix, Hk. rewrite He in Hs. eapply safe_suffix; eauto.
Qed.
Lemma sim_infix : sim infix_declaration.
Proof.
  unfold infix_declaration. apply sim_bind; [sm|]. intros a. apply sim_bindD; [smD| |intros; fl].
  intros _. apply sim_bind; [sm|]. intros v. apply sim_spaces; [intros _; sm|].
  intros x b Hb r y H. apply bind_Ok in H as (s' & n & H & _). apply alt_Ok in H as [H|[_ H]].
  - revert H. apply fails_lo_name, blanks_idle. exact Hb.
  - apply heads_operator in H as (c & z & -> & Hc). unfold blanks in Hb. cbn [forallb] in Hb.
    apply andb_true_iff in Hb as [Hb _]. chr.
Qed.
Hint Resolve sim_port_module sim_effect_module sim_module sim_import sim_alias sim_type_declaration
  sim_port_type sim_port sim_infix : traildb.
(** everything but comments *)
Definition declaration : parser statement_ast :=
  port_module_declaration
  <|> effect_module_declaration
  <|> module_declaration
  <|> import_statement
  <|> type_alias_declaration
  <|> type_declaration 0
  <|> port_type_declaration
  <|> port_declaration
  <|> map_ Function_ (function 0)
  <|> infix_declaration.
Lemma statement_declaration s : statement s = (declaration <|> comment) s.
Proof.
  unfold statement, declaration, alt.
  repeat match goal with |- context [match ?p s with _ => _ end] => destruct (p s); try reflexivity end.
Qed.
Lemma sim_declaration : sim declaration.
Proof. unfold declaration. sm. Qed.
Lemma statement_w s : same s (statement s) (statement (s ++ w)) \/ longer (statement s) (statement (s ++ w)).
Proof.
  rewrite !statement_declaration. unfold alt. pose proof (sim_declaration s I) as H.
  destruct (declaration s) as [r a| |]; destruct (declaration (s ++ w)) as [r' a'| |]; simpl in H;
    try contradiction; try (left; exact I); try (left; exact H).
  - apply comment_w.
  - left. destruct (comment s); exact I.
Qed.

(** between statements *)
Lemma blank_separator s : safe s ->
  same s (multispace0 s) (multispace0 (s ++ w)) \/
  (stops multispace0 statement s /\ stops multispace0 statement (s ++ w)).
Proof.
  intros Hs. destruct (span is_blank s) as [a b] eqn:Hx. pose proof Hx as Hx'.
  apply span_longest in Hx' as (He & Ha & Hb). destruct b as [|c b].
  - right. rewrite app_nil_r in He. subst a.
    assert (Hst : forall z, blanks z -> stops multispace0 statement z).
    { intros z Hz s2 x H r st. rewrite multispace0_eq, <- (app_nil_r z), (span_all is_blank z []) in H
        by (assumption || exact I). injection H as <- <-. intros H'. apply sound_statement in H' as (u & He & HG).
      apply GStmt_head in HG as (c' & u' & -> & Hc'). discriminate. }
    split; apply Hst; [exact Ha|]. unfold blanks in *. rewrite forallb_app, Ha. exact Hw.
  - left. rewrite !multispace0_eq. rewrite Hx.
    assert (H : span is_blank (s ++ w) = (a, (c :: b) ++ w)).
    { subst s. rewrite <- app_assoc. apply span_longest. repeat split; auto. }
    rewrite H. apply same_intro. exists a. exact He.
Qed.

Definition longer_list (x y : res (list statement_ast)) : Prop :=
  exists l c w0 w1, w = w0 ++ w1 /\ forallb not_newline w0 = true /\ line_end w1 /\
    x = Ok [] (l ++ [Comment c]) /\ y = Ok w1 (l ++ [Comment (c ++ w0)]).

Lemma blank_stop z n : blanks z -> sep_loop n multispace0 statement z = Ok z [] \/
  exists why, sep_loop n multispace0 statement z = Abort why.
Proof.
  intros Hz. apply stops_loop. intros s2 x H r st.
  rewrite multispace0_eq, <- (app_nil_r z), (span_all is_blank z []) in H by (assumption || exact I).
  injection H as <- <-. intros H'. apply sound_statement in H' as (u & He & HG).
  apply GStmt_head in HG as (c' & u' & -> & Hc'). discriminate.
Qed.
Lemma longer_cons a x y : longer_list x y ->
  longer_list (match x with Ok r l => Ok r (a :: l) | Err => Err | Abort why => Abort why end)
              (match y with Ok r l => Ok r (a :: l) | Err => Err | Abort why => Abort why end).
Proof.
  intros (l & c & w0 & w1 & H1 & H2 & H3 & -> & ->). exists (a :: l), c, w0, w1. repeat split; auto.
Qed.
(* answers of the loop after a comment that reaches the end of the text *)
Lemma longer_loop x y n m : longer x y ->
  forall r a r' a', x = Ok r a -> y = Ok r' a' ->
  (exists why, sep_loop n multispace0 statement r = Abort why) \/
  (exists why, sep_loop m multispace0 statement r' = Abort why) \/
  longer_list (match sep_loop n multispace0 statement r with
               | Ok r l => Ok r (a :: l) | Err => Err | Abort why => Abort why end)
              (match sep_loop m multispace0 statement r' with
               | Ok r l => Ok r (a' :: l) | Err => Err | Abort why => Abort why end).
Proof.
  intros (c & w0 & w1 & H1 & H2 & H3 & -> & ->) r a r' a' [= <- <-] [= <- <-].
  destruct (blank_stop [] n eq_refl) as [->|H]; [|left; exact H].
  assert (Hb : blanks w1).
  { pose proof Hw as Hb. unfold blanks in *. rewrite H1, forallb_app in Hb.
    apply andb_true_iff in Hb as [_ Hb]. exact Hb. }
  destruct (blank_stop w1 m Hb) as [->|H]; [|right; left; exact H].
  right. right. exists [], c, w0, w1. repeat split; auto.
Qed.

Lemma statement_loop_w : forall n m s,
  same s (sep_loop n multispace0 statement s) (sep_loop m multispace0 statement (s ++ w)) \/
  longer_list (sep_loop n multispace0 statement s) (sep_loop m multispace0 statement (s ++ w)).
Proof.
  induction n as [|n IH]; intros m s; [left; exact I|].
  destruct (blank_separator s I) as [H|[H1 H2]].
  2:{ left. destruct (stops_loop _ _ (S n) s H1) as [->|[? ->]]; [|exact I].
      destruct (stops_loop _ _ m (s ++ w) H2) as [->|[? ->]]; [|exact I].
      apply same_intro. exists []. reflexivity. }
  destruct m as [|m].
  { left. change (sep_loop 0 multispace0 statement (s ++ w)) with (@Abort (list statement_ast) OutOfFuel).
    destruct (sep_loop (S n) multispace0 statement s); exact I. }
  assert (Hstop : same s (Ok s (@nil statement_ast)) (Ok (s ++ w) [])).
  { apply same_intro. exists []. reflexivity. }
  cbn [sep_loop].
  destruct (multispace0 s) as [s2 x| |]; destruct (multispace0 (s ++ w)) as [s2' x'| |]; simpl in H;
    try contradiction; try (left; exact I); try (left; exact Hstop).
  2:{ left. match goal with |- same s ?x _ => destruct x; exact I end. }
  destruct H as (-> & -> & u & He).
  rewrite !app_length. destruct (Nat.eqb_spec (length s2) (length s)) as [Hl|Hl].
  { rewrite (proj2 (Nat.eqb_eq _ _)) by lia. left. exact Hstop. }
  rewrite (proj2 (Nat.eqb_neq _ _)) by lia.
  destruct (statement_w s2) as [Hp|Hp].
  - destruct (statement s2) as [s3 a| |]; destruct (statement (s2 ++ w)) as [s3' a'| |]; simpl in Hp;
      try contradiction; try (left; exact I); try (left; exact Hstop).
    2:{ left. match goal with |- same s ?x _ => destruct x; exact I end. }
    destruct Hp as (-> & -> & v & He2).
    rewrite !app_length. destruct (Nat.eqb_spec (length s3) (length s2)) as [Hl2|Hl2].
    { rewrite (proj2 (Nat.eqb_eq _ _)) by lia. left. exact Hstop. }
    rewrite (proj2 (Nat.eqb_neq _ _)) by lia. destruct (IH m s3) as [H|H].
    + left. destruct (sep_loop n multispace0 statement s3) as [r1 l1| |];
        destruct (sep_loop m multispace0 statement (s3 ++ w)) as [r2 l2| |]; simpl in H |- *; try tauto.
      destruct H as (-> & -> & z & ->). repeat split. exists (u ++ v ++ z).
      rewrite <- !app_assoc, <- He2. exact He.
    + right. apply longer_cons. exact H.
  - pose proof (longer_loop _ _ n m Hp) as Hlong.
    destruct (statement s2) as [s3 a| |] eqn:E1; [|destruct Hp as (? & ? & ? & _ & _ & _ & [=] & _)..].
    destruct (statement (s2 ++ w)) as [s3' a'| |] eqn:E2; [|destruct Hp as (? & ? & ? & _ & _ & _ & _ & [=])..].
    pose proof (ok_eats _ ok_statement _ _ _ E1) as L1.
    pose proof (ok_eats _ ok_statement _ _ _ E2) as L2. rewrite app_length in L2.
    rewrite !(proj2 (Nat.eqb_neq _ _)) by lia.
    destruct (Hlong _ _ _ _ eq_refl eq_refl) as [[why Hx]|[[why Hx]|Hx]].
    + left. rewrite Hx. exact I.
    + left. rewrite Hx. match goal with |- same s ?x _ => destruct x; exact I end.
    + right. exact Hx.
Qed.

Lemma statement_list_w s :
  let p := separated_nonempty_list multispace0 statement in
  same s (p s) (p (s ++ w)) \/ longer_list (p s) (p (s ++ w)).
Proof.
  cbv zeta. unfold separated_nonempty_list. destruct (statement_w s) as [Hp|Hp].
  - destruct (statement s) as [r a| |]; destruct (statement (s ++ w)) as [r' a'| |]; simpl in Hp;
      try contradiction; try (left; exact I).
    2:{ left. match goal with |- same s ?x _ => destruct x; exact I end. }
    destruct Hp as (-> & -> & u & He). rewrite !app_length.
    destruct (Nat.eqb_spec (length r) (length s)) as [Hl|Hl].
    { rewrite (proj2 (Nat.eqb_eq _ _)) by lia. left. exact I. }
    rewrite (proj2 (Nat.eqb_neq _ _)) by lia.
    destruct (statement_loop_w (S (length r)) (S (length r + length w)) r) as [H|H].
    + left. destruct (sep_loop (S (length r)) multispace0 statement r) as [r1 l1| |];
        destruct (sep_loop (S (length r + length w)) multispace0 statement (r ++ w)) as [r2 l2| |];
        simpl in *; try tauto.
      destruct H as (-> & -> & v & ->). repeat split. exists (u ++ v). rewrite <- app_assoc. exact He.
    + right. apply longer_cons. exact H.
  - destruct (statement s) as [s3 a| |] eqn:E1; [|destruct Hp as (? & ? & ? & _ & _ & _ & [=] & _)..].
    destruct (statement (s ++ w)) as [s3' a'| |] eqn:E2; [|destruct Hp as (? & ? & ? & _ & _ & _ & _ & [=])..].
    pose proof (ok_eats _ ok_statement _ _ _ E1) as L1.
    pose proof (ok_eats _ ok_statement _ _ _ E2) as L2.
    rewrite !(proj2 (Nat.eqb_neq _ _)) by lia.
    destruct (longer_loop _ _ (S (length s3)) (S (length s3')) Hp _ _ _ _ eq_refl eq_refl) as [[why Hx]|[[why Hx]|Hx]].
    + left. rewrite Hx. exact I.
    + left. rewrite Hx. match goal with |- same s ?x _ => destruct x; exact I end.
    + right. exact Hx.
Qed.
End Blanks.

(** ** Files *)
Theorem file_trail s w : blanks w ->
  file (s ++ w) = file s \/
  exists l c w0 w1, w = w0 ++ w1 /\ forallb not_newline w0 = true /\ line_end w1 /\
    file s = Ok [] (l ++ [Comment c]) /\ file (s ++ w) = Ok [] (l ++ [Comment (c ++ w0)]).
Proof.
  intros Hw.
  destruct (span is_blank s) as [a b] eqn:Hx. pose proof Hx as Hx'.
  apply span_longest in Hx' as (He & Ha & Hb). destruct b as [|c b].
  { left. rewrite app_nil_r in He. subst a. rewrite file_blanks by exact Ha.
    rewrite !file_blank_only by assumption. reflexivity. }
  subst s. rewrite <- app_assoc, !(file_blanks a) by exact Ha. set (z := c :: b) in *.
  assert (Hspan : forall y, span is_blank (z ++ y) = ([], z ++ y)).
  { intros y. subst z. cbn [app span]. cbn [ends] in Hb. rewrite Hb. reflexivity. }
  assert (Hspan0 : span is_blank z = ([], z)) by (pose proof (Hspan []) as H; rewrite app_nil_r in H; exact H).
  rewrite !file_eq, Hspan, Hspan0. cbn [snd].
  assert (Hok : forall n, ok 1 n (separated_nonempty_list multispace0 statement)
                             (separated_nonempty_list multispace0 statement)) by (intros; oks).
  destruct (Hok (S (length z)) z (le_n _)) as [_ H1].
  destruct (Hok (S (length (z ++ w))) (z ++ w) (le_n _)) as [_ H2].
  destruct (statement_list_w w Hw z) as [H|H].
  - left.
    destruct (separated_nonempty_list multispace0 statement z) as [r l| |]; simpl in H1; [| |contradiction];
    destruct (separated_nonempty_list multispace0 statement (z ++ w)) as [r' l'| |]; simpl in H2;
      try contradiction; [|reflexivity]. simpl in H. destruct H as (-> & -> & _).
    destruct (span is_blank r) as [x y] eqn:Hr. pose proof Hr as Hr'.
    apply span_longest in Hr' as (-> & Hxb & Hyb). destruct y as [|d y].
    + rewrite app_nil_r. rewrite <- (app_nil_r (x ++ w)), (span_all is_blank (x ++ w) []); [reflexivity| |exact I].
      rewrite forallb_app, Hxb. exact Hw.
    + rewrite <- app_assoc, (span_all is_blank x ((d :: y) ++ w)); [reflexivity|exact Hxb|exact Hyb].
  - right. destruct H as (l & c0 & w0 & w1 & Hw0 & Hn & Hl & -> & ->).
    exists l, c0, w0, w1. repeat split; auto.
    assert (Hb1 : blanks w1).
    { unfold blanks in *. rewrite Hw0, forallb_app in Hw. apply andb_true_iff in Hw as [_ Hw1]. exact Hw1. }
    rewrite <- (app_nil_r w1), (span_all is_blank w1 []); [reflexivity|exact Hb1|exact I].
Qed.

(** a final line feed, or several *)
Theorem file_trail_line s w : blanks w -> line_end w -> file (s ++ w) = file s.
Proof.
  intros Hw Hl. destruct (file_trail s w Hw) as [H|(l & c & w0 & w1 & He & Hn & _ & H1 & H2)]; [exact H|].
  assert (w0 = []) as ->.
  { destruct w0 as [|d w0]; [reflexivity|]. subst w. cbn [app line_end] in Hl. subst d. discriminate. }
  rewrite app_nil_r in H2. congruence.
Qed.
