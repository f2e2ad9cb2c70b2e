(** * Literals do not matter: types, expressions, statements and files *)
From Verif Require Import Base Nom Regex Ast Good Spec Grammar Helpers Types Expr Stmt Lexers Layout Follow SoundE Seqs LexProps Total Heads Rules TwoRuns RenameSim Whole CommentSpec LiteralSpec Literals.

(** A list literal (its text after the first bracket, and its tree) that is read on its
    own, whatever follows and whatever the column. *)
Definition reads_list (F : N -> parser expr) (x : str * expr) : Prop := forall i s,
  (exists w, list_f F i (C "[" :: fst x ++ s) = Abort w) \/ list_f F i (C "[" :: fst x ++ s) = Ok s (snd x).
Definition alone (x : str * expr) : Prop := reads_list expression x /\ forall n, reads_list (expression_n n) x.
Definition lists_alone (K : kinds) : Prop := forall x y, on_list K x y -> alone x /\ alone y.

(** A phrase in parentheses (its text after the first one, and its tree) that is read on
    its own, whatever follows and whatever the column: as an expression in parentheses, *)
Definition failing {A} (x : res A) : Prop := match x with Ok _ _ => False | _ => True end.
Definition aborts {A} (x : res A) : Prop := match x with Abort _ => True | _ => False end.
Definition round (x : str * expr) (s : str) : str := C "(" :: fst x ++ s.
Definition reads_parens (F : N -> parser expr) (x : str * expr) : Prop := forall i s,
  (aborts (parens_f F i (round x s)) \/ parens_f F i (round x s) = Ok s (snd x)) /\
  (aborts (tuple_f F i (round x s)) \/ tuple_f F i (round x s) = Ok s (Tuple [snd x])).
(** or as a tuple. *)
Definition reads_tuple (F : N -> parser expr) (x : str * expr) : Prop := forall i s,
  failing (parens_f F i (round x s)) /\
  (aborts (tuple_f F i (round x s)) \/ tuple_f F i (round x s) = Ok s (snd x)).
Definition reads_both (F F' : N -> parser expr) (x y : str * expr) : Prop :=
  (reads_parens F x /\ reads_parens F' y) \/ (reads_tuple F x /\ reads_tuple F' y).
(** It is nothing else: no type, no operator, no list of exported names. *)
Definition no_type (T : N -> parser type_ast) (x : str * expr) : Prop := forall i s,
  failing (type_tuple_f T i (round x s)) /\ failing (type_parens_f T i (round x s)).
Definition nothing_else (x : str * expr) : Prop :=
  no_type type_ x /\ (forall n, no_type (type_n n) x) /\
  forall s, failing (op (round x s)) /\ failing (exports (round x s)) /\
    failing (delimited (char_ (C "(")) (all_export <|> constructor_subset_exports) (char_ (C ")")) (round x s)).
Definition rounds_alone (K : kinds) : Prop := forall x y, on_round K x y ->
  nothing_else x /\ nothing_else y /\ reads_both expression expression x y /\
  forall n n', reads_both (expression_n n) (expression_n n') x y.

(** A phrase in braces (its text after the first one, and its tree) that is read on its own,
    whatever follows and whatever the column: as a record with values or a changed record, *)
Definition curly (x : str * expr) (s : str) : str := C "{" :: fst x ++ s.
Definition reads_values (F : N -> parser expr) (x : str * expr) : Prop := forall i s,
  (aborts ((record_update_f F i <|> record_f F i) (curly x s)) \/ (record_update_f F i <|> record_f F i) (curly x s) = Ok s (snd x)) /\
  failing (simplified_record (curly x s)).
(** or as a list of names. *)
Definition reads_names (F : N -> parser expr) (x : str * expr) : Prop := forall i s,
  failing ((record_update_f F i <|> record_f F i) (curly x s)) /\ simplified_record (curly x s) = Ok s (snd x).
Definition curly_both (F F' : N -> parser expr) (x y : str * expr) : Prop :=
  (reads_values F x /\ reads_values F' y) \/ (reads_names F x /\ reads_names F' y).
(** It is nothing else: no type, and no list of the fields of an effect module. *)
Definition no_curly_type (T : N -> parser type_ast) (x : str * expr) : Prop := forall i s,
  failing (type_record_constructor_f T i (curly x s)) /\ failing (type_record_f T i (curly x s)).
Definition only_value (x : str * expr) : Prop :=
  no_curly_type type_ x /\ (forall n, no_curly_type (type_n n) x) /\
  forall s, failing (delimited (char_ (C "{")) (separated_list (tag (L ", ")) effect_field) (char_ (C "}")) (curly x s)).
Definition curlies_alone (K : kinds) : Prop := forall x y, on_curly K x y ->
  only_value x /\ only_value y /\ curly_both expression expression x y /\
  forall n n', curly_both (expression_n n) (expression_n n') x y.

Section All.
Variable K : kinds.
Hypothesis HK : digits_refl K.
Hypothesis HL : lists_alone K.
Hypothesis HR : rounds_alone K.
Hypothesis HC : curlies_alone K.
Notation simk := (sim (X K)).

Lemma k_spaces0 : simk eq spaces0 spaces0.
Proof.
  unfold spaces0. eapply sim_map; [apply sim_opt, l_take1; [reflexivity|exact HK]|]. intros a a' H. apply opt_rel_eq in H. subst a'. reflexivity.
Qed.
Lemma k_sp i ir : simk eq (spaces_or_new_lines_and_indent i ir) (spaces_or_new_lines_and_indent i ir).
Proof.
  unfold spaces_or_new_lines_and_indent. eapply sim_map_res with (RA := eq).
  - eapply sim_weak; [intros a b; apply Forall2_is_eq|]. apply sim_many1. unfold spaces_item. apply sim_alt; [|apply sim_alt].
    + eapply sim_value; [apply l_take1; [reflexivity|exact HK]|reflexivity].
    + eapply sim_map; [apply l_comment, HK|]. reflexivity.
    + eapply sim_weak; [intros a b; apply Forall2_is_eq|]. apply sim_many1. eapply sim_preceded; [apply l_char; [reflexivity|exact HK]|]. apply sim_alt.
      * eapply sim_map; [apply k_spaces0|]. intros a a' ->. reflexivity.
      * eapply sim_map; [apply l_comment, HK|]. reflexivity.
  - intros a a' ->. destruct (check_indent i ir a'); cbn; auto.
Qed.
Lemma k_opt_sp i ir : simk eq (opt_spaces_or_new_lines_and_indent i ir) (opt_spaces_or_new_lines_and_indent i ir).
Proof.
  unfold opt_spaces_or_new_lines_and_indent. eapply sim_map; [apply sim_opt, k_sp|]. intros a a' H. apply opt_rel_eq in H. subst. reflexivity.
Qed.
Lemma k_nl i : simk eq (new_line_and_same_indent i) (new_line_and_same_indent i).
Proof.
  unfold new_line_and_same_indent. eapply sim_map_res with (RA := eq).
  - eapply sim_preceded; [apply l_char; [reflexivity|exact HK]|]. eapply sim_map; [apply k_spaces0|]. intros a a' ->. reflexivity.
  - intros a a' ->. destruct (a' =? i)%N; cbn; auto.
Qed.

(** ** Symbols: at an operator that is replaced, the parser can get past a symbol but not past what follows it *)
Definition no_ok {A} (p : parser A) (s : str) : Prop := forall r a, p s <> Ok r a.
Definition op_start (t : str) : Prop := exists x u, t = x :: u /\ is_op_char x = true.
Definition mid (w t : str) : Prop :=
  exists x u, t = x :: u /\ is_op_char x = true /\ ~ dashes t /\ (w = L "=" -> mem_char x (L ".+-\") = false).
Lemma mid_of o q w t : changeable o q -> o ++ q = w ++ t -> forallb is_op_char w = true -> In w reserved_operators -> mid w t.
Proof.
  intros ((Hne & Ho & Hr) & He & Hd & _ & _ & Hq) E Hw Hi. apply app_eq_app in E as (l & [[-> ->]|[-> ->]]).
  - rewrite forallb_app in Ho. apply andb_true_iff in Ho as [_ Ho]. destruct l as [|x l]; [rewrite app_nil_r in Hr; contradiction|].
    apply andb_true_iff in Ho as [Hx Ho]. exists x, (l ++ q). split; [reflexivity|]. split; [exact Hx|]. split.
    + intros (v & E). destruct l as [|y l].
      * destruct q as [|y q]; [discriminate E|]. injection E as -> -> _. discriminate He.
      * injection E as -> -> _. apply Hd. exists w, l. reflexivity.
    + intros ->. exact (Hq (x :: l) eq_refl).
  - destruct l as [|x l]; [rewrite app_nil_r in Hi; contradiction|]. rewrite forallb_app in Hw. apply andb_true_iff in Hw as [_ Hw].
    apply andb_true_iff in Hw as [Hw _]. change (is_op_char x = false) in He. congruence.
Qed.
Lemma rel_no_ok {A B} (R : A -> B -> Prop) s s' x y : (forall r a, x <> Ok r a) -> (forall r a, y <> Ok r a) -> rel (X K) R s s' x y.
Proof. intros H H'. unfold rel. destruct x as [r a| |]; [destruct (H r a eq_refl)| |exact I]. destruct y as [r a| |]; [destruct (H' r a eq_refl)|exact I|exact I]. Qed.
(** [reads_word p w a]: [p] reads the word [w] and nothing else *)
Definition reads_word {A} (p : parser A) (w : str) (a0 : A) : Prop := forall s, p s = match strip w s with Some r => Ok r a0 | None => Err end.
Lemma char_reads c : reads_word (char_ c) [c] c.
Proof.
  intros s. unfold char_. destruct s as [|d s]; [reflexivity|]. cbn [strip]. destruct (N.eqb_spec d c) as [->|Hne].
  - rewrite ?N.eqb_refl. reflexivity.
  - destruct (N.eqb_spec c d) as [->|_]; [congruence|reflexivity].
Qed.
Lemma tag_reads w : reads_word (tag w) w w.
Proof. intros s. unfold tag, need_more, at_eof. destruct (strip w s); reflexivity. Qed.
(** the words: [=], [:], [|], [.], [..] and [->] *)
Definition word (w : str) : Prop := In w [L "="; L ":"; L "|"; L "."; L ".."; L "->"].
Lemma word_op w : word w -> w <> [] /\ forallb is_op_char w = true /\ In w reserved_operators /\ forall r, ~ dashes (w ++ r).
Proof.
  intros H. cbn in H. repeat destruct H as [<-|H]; try destruct H;
    (split; [discriminate|]; split; [reflexivity|]; split; [cbn; tauto|]; intros r (v & E); discriminate E).
Qed.
(** at a word both texts go on, or both are at an operator that is replaced *)
Lemma word_cases w s s' : word w -> X K s s' ->
  (exists r r', s = w ++ r /\ s' = w ++ r' /\ X K r r') \/
  (op_start s /\ op_start s' /\ (forall r, s = w ++ r -> mid w r) /\ (forall r, s' = w ++ r -> mid w r)) \/
  ((forall r, s <> w ++ r) /\ (forall r, s' <> w ++ r)).
Proof.
  intros Hw Hs. destruct (word_op w Hw) as (Hne & Ho & Hi & Hd).
  assert (J : forall K0 s s' r, X K0 s s' -> s = w ++ r -> (exists r', s' = w ++ r' /\ X K0 r r') \/
    (op_start s /\ op_start s' /\ (forall r, s = w ++ r -> mid w r) /\ (forall r, s' = w ++ r -> mid w r))).
  { intros K0 u u' r Hu ->. apply x_ops in Hu as [H|(o & o' & q & q' & E & -> & H1 & H2 & _)]; [left; exact H| |exact Hne|exact Ho|apply Hd].
    right. destruct (op_head _ _ H1) as (x & t & Ex & Hx & _). destruct (op_head _ _ H2) as (x' & t' & Ex' & Hx' & _).
    split; [rewrite E, Ex; eexists; eexists; split; [reflexivity|exact Hx]|]. split; [rewrite Ex'; eexists; eexists; split; [reflexivity|exact Hx']|].
    split; intros r0 E0; [rewrite E in E0; exact (mid_of o q w r0 H1 E0 Ho Hi)|exact (mid_of o' q' w r0 H2 E0 Ho Hi)]. }
  destruct (strip w s) as [r|] eqn:E.
  - apply strip_iff in E. destruct (J K s s' r Hs E) as [(r' & E' & Hr)|H]; [left; eauto|right; left; exact H].
  - destruct (strip w s') as [r'|] eqn:E'.
    + apply strip_iff in E'. destruct Hs as [b Hs]. pose proof (rl_sym _ _ _ _ Hs) as Hs'.
      destruct (J (flip K) s' s r' (ex_intro _ b Hs') E') as [(r & Er & Hr)|(H1 & H2 & H3 & H4)].
      * left. exists r, r'. split; [exact Er|]. split; [exact E'|]. destruct Hr as [b2 Hr]. exists b2. apply rl_sym in Hr. destruct K; exact Hr.
      * right. left. auto.
    + right. right. split; intros r Er; apply strip_iff in Er; congruence.
Qed.
Lemma reads_no {A} (p : parser A) w a0 s : reads_word p w a0 -> (forall r, s <> w ++ r) -> p s = Err.
Proof. intros Hp H. rewrite Hp. destruct (strip w s) as [r|] eqn:E; [|reflexivity]. apply strip_iff in E. destruct (H r E). Qed.
Lemma reads_yes {A} (p : parser A) w a0 r : reads_word p w a0 -> p (w ++ r) = Ok r a0.
Proof. intros Hp. rewrite Hp. assert (E : strip w (w ++ r) = Some r) by (apply strip_iff; reflexivity). rewrite E. reflexivity. Qed.
Lemma no_bind1 {A B} (p : parser A) (f : A -> parser B) s : no_ok p s -> no_ok (bind p f) s.
Proof. intros H r b E. apply bind_Ok in E as (s1 & a & E & _). exact (H _ _ E). Qed.
Lemma no_bind2 {A B} (p : parser A) (f : A -> parser B) s a : p s = Ok s a -> no_ok (f a) s -> no_ok (bind p f) s.
Proof. intros H Hf r b E. apply bind_Ok in E as (s1 & a' & E & E2). rewrite H in E. injection E as <- <-. exact (Hf _ _ E2). Qed.
Lemma mid_bind {A B} (p : parser A) w a0 (f : A -> parser B) s : reads_word p w a0 -> (forall t, mid w t -> no_ok (f a0) t) ->
  (forall r, s = w ++ r -> mid w r) -> no_ok (bind p f) s.
Proof.
  intros Hp Hf Hs r b E. apply bind_Ok in E as (s1 & a & E & E2). rewrite Hp in E. destruct (strip w s) as [r1|] eqn:Er; [|discriminate E].
  injection E as <- <-. apply strip_iff in Er. exact (Hf _ (Hs _ Er) _ _ E2).
Qed.
Lemma k_sym {A B B'} (RB : B -> B' -> Prop) (p : parser A) w a0 f f' : reads_word p w a0 -> word w -> simk RB (f a0) (f' a0) ->
  (forall t, mid w t -> no_ok (f a0) t) -> (forall t, mid w t -> no_ok (f' a0) t) -> simk RB (bind p f) (bind p f').
Proof.
  intros Hp Hw Hf H1 H2 s s' Hs. destruct (word_cases w s s' Hw Hs) as [(r & r' & -> & -> & Hr)|[(_ & _ & M1 & M2)|[N1 N2]]].
  - eapply rel_bind with (RA := fun a a' => a = a0 /\ a' = a0); [|intros a a' [-> ->]; exact Hf]. rewrite !(reads_yes p w a0) by exact Hp.
    split; [auto|]. split; [exact Hr|]. exists w, w. tauto.
  - apply rel_no_ok; eapply mid_bind; eassumption.
  - unfold bind. rewrite !(reads_no p w a0) by assumption. exact I.
Qed.
Lemma k_char {B B'} (RB : B -> B' -> Prop) c f f' : word [c] -> simk RB (f c) (f' c) ->
  (forall t, mid [c] t -> no_ok (f c) t) -> (forall t, mid [c] t -> no_ok (f' c) t) -> simk RB (bind (char_ c) f) (bind (char_ c) f').
Proof. apply k_sym, char_reads. Qed.
Lemma k_tag {B B'} (RB : B -> B' -> Prop) w f f' : word w -> simk RB (f w) (f' w) ->
  (forall t, mid w t -> no_ok (f w) t) -> (forall t, mid w t -> no_ok (f' w) t) -> simk RB (bind (tag w) f) (bind (tag w) f').
Proof. apply k_sym, tag_reads. Qed.
Lemma k_alt_sym {A B} (R : A -> A -> Prop) (RB : B -> B -> Prop) (p : parser A) w a0 q g : reads_word p w a0 -> word w -> R a0 a0 -> simk R q q ->
  (forall a a', R a a' -> simk RB (g a) (g a')) -> (forall t, mid w t -> no_ok (g a0) t) -> (forall t, op_start t -> no_ok q t) ->
  simk RB (bind (p <|> q) g) (bind (p <|> q) g).
Proof.
  intros Hp Hw Ha Hq Hg Hm Hn s s' Hs.
  assert (J : forall s, op_start s -> (forall r, s = w ++ r -> mid w r) -> no_ok (bind (p <|> q) g) s).
  { intros u Hu Hu2 r b E. apply bind_Ok in E as (s1 & a & E & E2). apply alt_Ok in E as [E|[_ E]]; [|exact (Hn _ Hu _ _ E)].
    rewrite Hp in E. destruct (strip w u) as [r1|] eqn:Er; [|discriminate E]. injection E as <- <-. apply strip_iff in Er. exact (Hm _ (Hu2 _ Er) _ _ E2). }
  destruct (word_cases w s s' Hw Hs) as [(r & r' & -> & -> & Hr)|[(O1 & O2 & M1 & M2)|[N1 N2]]].
  - eapply rel_bind with (RA := R); [|exact Hg]. unfold alt. rewrite !(reads_yes p w a0) by exact Hp.
    split; [exact Ha|]. split; [exact Hr|]. exists w, w. tauto.
  - apply rel_no_ok; apply J; assumption.
  - eapply rel_bind with (RA := R); [|exact Hg]. unfold alt. rewrite !(reads_no p w a0) by assumption. apply Hq, Hs.
Qed.
(** what cannot be read there *)
Lemma mid_op w t : mid w t -> op_start t.
Proof. intros (x & u & -> & Hx & _). exists x, u. auto. Qed.
Lemma op_no_heads {A} P (p : parser A) t : op_start t -> heads P p -> forallb (fun c => negb (P c)) op_chars = true -> no_ok p t.
Proof.
  intros (x & u & -> & Hx) Hp Hc r a E. apply Hp in E as (c & s' & E & Hc'). injection E as <- _. apply mem_char_In in Hx. rewrite forallb_forall in Hc.
  apply Hc in Hx. rewrite Hc' in Hx. discriminate Hx.
Qed.
Lemma op_not_blank x : is_op_char x = true -> x <> space /\ x <> newline.
Proof. intros H. split; intros ->; discriminate H. Qed.
Lemma mid_trivia w t : mid w t -> no_trivia t.
Proof.
  intros (x & u & -> & Hx & Hd & _). destruct (op_not_blank x Hx) as [H1 H2]. repeat split; auto. intros [-> (v & E)]. apply Hd. exists v. rewrite E. reflexivity.
Qed.
Lemma mid_sp w t i ir : mid w t -> spaces_or_new_lines_and_indent i ir t = Err.
Proof. intros H. apply sp_nil. eapply mid_trivia, H. Qed.
Lemma mid_take1 w t f : mid w t -> forallb (fun c => negb (f c)) op_chars = true -> take_while1 f t = Err.
Proof.
  intros (x & u & -> & Hx & _) Hf. apply mem_char_In in Hx. rewrite forallb_forall in Hf. apply Hf, negb_true_iff in Hx.
  unfold take_while1. cbn [span]. rewrite Hx. reflexivity.
Qed.
Lemma mid_take0 w t f : mid w t -> forallb (fun c => negb (f c)) op_chars = true -> take_while0 f t = Ok t [].
Proof.
  intros (x & u & -> & Hx & _) Hf. apply mem_char_In in Hx. rewrite forallb_forall in Hf. apply Hf, negb_true_iff in Hx.
  unfold take_while0. cbn [span]. rewrite Hx. reflexivity.
Qed.
Lemma opt_err {A} (p : parser A) s : p s = Err -> opt p s = Ok s None.
Proof. unfold opt. intros ->. reflexivity. Qed.
Lemma err_no {A} (p : parser A) s : p s = Err -> no_ok p s.
Proof. intros H r a E. congruence. Qed.
Ltac nok :=
  lazymatch goal with
  | H : mid ?w ?t |- no_ok (bind (opt_sp ?i) _) ?t => eapply no_bind2; [exact (opt_err _ _ (mid_sp w t i _ H))|nok]
  | H : mid ?w ?t |- no_ok (bind (opt_spaces_or_new_lines_and_indent ?i _) _) ?t =>
      eapply no_bind2; [unfold opt_spaces_or_new_lines_and_indent, map_; rewrite (opt_err _ _ (mid_sp w t i _ H)); reflexivity|nok]
  | H : mid ?w ?t |- no_ok (bind multispace0 _) ?t => eapply no_bind2; [apply (mid_take0 w t _ H); reflexivity|nok]
  | H : mid ?w ?t |- no_ok (bind (opt spaces) _) ?t => eapply no_bind2; [apply opt_err, (mid_take1 w t _ H); reflexivity|nok]
  | |- no_ok (bind _ _) _ => apply no_bind1; nok
  | |- no_ok (delimited _ _ _) _ => apply no_bind1; nok
  | |- no_ok (preceded _ _) _ => apply no_bind1; nok
  | |- no_ok (terminated _ _) _ => unfold terminated; nok
  | H : mid ?w ?t |- no_ok (spaces_or_new_lines_and_indent ?i _) ?t => apply err_no, (mid_sp w t i _ H)
  | H : mid ?w ?t |- no_ok sp_gt0 ?t => apply err_no, (mid_sp w t 0 _ H)
  | H : mid ?w ?t |- no_ok spaces ?t => apply err_no, (mid_take1 w t _ H); reflexivity
  | H : mid ?w ?t |- no_ok spaces_and_newlines ?t => apply err_no, (mid_take1 w t _ H); reflexivity
  | H : mid ?w ?t |- no_ok lo_name ?t => apply (op_no_heads name0); [exact (mid_op w t H)|apply heads_lo_name|reflexivity]
  | H : mid ?w ?t |- no_ok up_name ?t => apply (op_no_heads is_upper); [exact (mid_op w t H)|apply heads_up_name|reflexivity]
  | H : mid ?w ?t |- no_ok (char_ ?c) ?t => apply (op_no_heads (fun d => (d =? c)%N)); [exact (mid_op w t H)|apply heads_char|reflexivity]
  | _ => idtac
  end.
Ltac is_word := unfold word; cbn; tauto.
Ltac sym := first [apply k_char; [is_word| |intros ? ?; nok|intros ? ?; nok]|apply k_tag; [is_word| |intros ? ?; nok|intros ? ?; nok]].
Lemma k_backslash : simk eq (char_ 92%N) (char_ 92%N).
Proof.
  apply (fw_sim (fun _ => eq)); [|exact HK]. clear. intros K HK s s' r a Hs H. apply char_word in H as (w & -> & (-> & ->) & _).
  apply x_ops in Hs as [(r' & -> & Hr)|(o & o' & q & q' & E & _ & H & _)]; [|exfalso|discriminate|reflexivity|intros (v & E); discriminate E].
  - exists r', 92%N, [92%N], [92%N]. split; [reflexivity|]. tauto.
  - destruct (op_head _ _ H) as (x & t & -> & _). injection E as <- _. destruct H as (_ & _ & _ & _ & H & _). exact (H t eq_refl).
Qed.
(** names with dots *)
Lemma dotted_step {A} (p : parser A) c n s : (forall s r a, p s = Ok r a -> length r < length s) ->
  sep_loop (S n) (char_ c) p s = match bind (char_ c) (fun _ => p) s with
    | Ok r b => match sep_loop n (char_ c) p r with Ok r l => Ok r (b :: l) | Err => Err | Abort w => Abort w end
    | Err => Ok s []
    | Abort w => Abort w
    end.
Proof.
  intros Hp. cbn [sep_loop]. unfold bind. destruct (char_ c s) as [r a| |] eqn:E; [|reflexivity|reflexivity].
  apply char_word in E as (w & -> & (-> & _) & _). rewrite app_length. cbn [length Nat.add]. destruct (Nat.eqb_spec (length r) (S (length r))) as [E|_]; [lia|].
  destruct (p r) as [r1 b| |] eqn:E; [|reflexivity|reflexivity]. apply Hp in E. destruct (Nat.eqb_spec (length r1) (length r)) as [E1|_]; [lia|].
  destruct (sep_loop n (char_ c) p r1); reflexivity.
Qed.
Lemma up_eats s r n : up_name s = Ok r n -> length r < length s.
Proof. intros H. apply up_name_iff in H as (-> & (c & t & -> & _) & _). rewrite app_length. cbn. lia. Qed.
Lemma k_dots : simk eq (separated_nonempty_list (char_ (C ".")) up_name) (separated_nonempty_list (char_ (C ".")) up_name).
Proof.
  assert (HU : simk eq up_name up_name) by (apply l_up_name, HK).
  assert (HS : simk eq (bind (char_ (C ".")) (fun _ => up_name)) (bind (char_ (C ".")) (fun _ => up_name))) by (sym; exact HU).
  assert (J : forall n n' s s', X K s s' -> rel (X K) (Forall2 eq) s s' (sep_loop n (char_ (C ".")) up_name s) (sep_loop n' (char_ (C ".")) up_name s')).
  { induction n as [|n IH]; intros [|n'] s s' Hs; try exact I; [apply rel_abort|]. rewrite !dotted_step by apply up_eats.
    pose proof (HS s s' Hs) as H. unfold rel in H at 1.
    destruct (bind (char_ (C ".")) (fun _ => up_name) s) as [r b| |]; destruct (bind (char_ (C ".")) (fun _ => up_name) s') as [r' b'| |]; try (destruct H; fail); try exact I; try apply rel_abort.
    - destruct H as (<- & Hr & t & t' & -> & -> & Ht). apply rel_more; [reflexivity|exact Ht|]. apply IH, Hr.
    - apply rel_stop, Hs. }
  intros s s' Hs. unfold separated_nonempty_list. pose proof (HU s s' Hs) as H. unfold rel in H at 1.
  destruct (up_name s) as [r a| |] eqn:E; destruct (up_name s') as [r' a'| |] eqn:E'; try (destruct H; fail); try exact I; try apply rel_abort.
  destruct H as (<- & Hr & t & t' & -> & -> & Ht). pose proof (up_eats _ _ _ E) as L1. pose proof (up_eats _ _ _ E') as L2.
  destruct (Nat.eqb_spec (length r) (length (t ++ r))) as [L3|_]; [lia|]. destruct (Nat.eqb_spec (length r') (length (t' ++ r'))) as [L3|_]; [lia|].
  assert (J2 := rel_more (X K) eq a a t t' r r' _ _ eq_refl Ht (J (S (length r)) (S (length r')) r r' Hr)).
  revert J2. generalize (sep_loop (S (length r)) (char_ (C ".")) up_name r), (sep_loop (S (length r')) (char_ (C ".")) up_name r').
  intros x y J2. unfold rel in *. destruct x; destruct y; auto. destruct J2 as (Hl & J2). split; [apply Forall2_is_eq, Hl|exact J2].
Qed.

(** ** Where no comment begins *)
Definition sim_code {A B} (R : A -> B -> Prop) (p : parser A) (q : parser B) : Prop :=
  forall s s', X K s s' -> ~ dashes s -> rel (X K) R s s' (p s) (q s').
Lemma uniform_ops : uniform is_op_char. Proof. apply uniform_check; reflexivity. Qed.
Lemma op_forward K0 s s' r o : X K0 s s' -> ~ dashes s -> operator s = Ok r o ->
  exists r' o', operator s' = Ok r' o' /\ same_name K0 o o' /\ X K0 r r' /\ s = o ++ r /\ s' = o' ++ r' /\ o <> [] /\ o' <> [].
Proof.
  intros Hs Hd E. apply operator_iff in E as (-> & Ho & Hr).
  destruct (x_ops _ _ _ _ (proj1 Ho) (proj1 (proj2 Ho)) Hd Hs) as [(r' & -> & Hr')|(o1 & o' & q & q' & E & -> & H1 & H2 & Hk & Hr')].
  - exists r', o. split; [|split; [left; reflexivity|]; split; [exact Hr'|]; repeat split; apply Ho]. apply operator_iff. split; [reflexivity|]. split; [exact Ho|].
    eapply heads_ends; [apply uniform_ops|eapply X_head, Hr'|exact Hr].
  - destruct (run_unique _ _ _ _ E (proj1 (proj2 Ho)) Hr H1) as [<- <-]. exists q', o'. split.
    + apply operator_iff. split; [reflexivity|]. split; apply H2.
    + split; [right; exact Hk|]. split; [exact Hr'|]. repeat split; [apply Ho|apply H2].
Qed.
Lemma code_operator : sim_code (same_name K) operator operator.
Proof.
  intros s s' Hs Hd. unfold rel. destruct (operator s) as [r o| |] eqn:E.
  - destruct (op_forward _ _ _ _ _ Hs Hd E) as (r' & o' & -> & Hn & Hr & -> & -> & H1 & H2). split; [exact Hn|]. split; [exact Hr|]. exists o, o'. tauto.
  - destruct (operator s') as [r' o| |] eqn:E'; auto. pose proof (x_dashes _ _ _ Hs Hd) as Hd'. destruct Hs as [b Hs].
    destruct (op_forward _ _ _ _ _ (ex_intro _ b (rl_sym _ _ _ _ Hs)) Hd' E') as (r & o' & E2 & _). congruence.
  - exact I.
Qed.
Lemma code_sim {A B} (R : A -> B -> Prop) p q : simk R p q -> sim_code R p q.
Proof. intros H s s' Hs _. apply H, Hs. Qed.
Lemma code_alt {A B} (R : A -> B -> Prop) p q p' q' : sim_code R p p' -> sim_code R q q' -> sim_code R (p <|> q) (p' <|> q').
Proof.
  intros Hp Hq s s' Hs Hd. pose proof (Hq s s' Hs Hd) as H2. specialize (Hp s s' Hs Hd). unfold alt, rel in *.
  destruct (p s), (p' s'); auto; try tauto. destruct (q s); auto.
Qed.
Lemma code_bind {A B A' B'} (R : A -> A' -> Prop) (RB : B -> B' -> Prop) p p' f f' :
  sim_code R p p' -> (forall a a', R a a' -> simk RB (f a) (f' a')) -> sim_code RB (bind p f) (bind p' f').
Proof. intros Hp Hf s s' Hs Hd. eapply rel_bind; [apply Hp; assumption|exact Hf]. Qed.
Lemma code_map {A B A' B'} (RA : A -> A' -> Prop) (RB : B -> B' -> Prop) f f' p p' :
  sim_code RA p p' -> (forall a a', RA a a' -> RB (f a) (f' a')) -> sim_code RB (map_ f p) (map_ f' p').
Proof.
  intros Hp Hf s s' Hs Hd. specialize (Hp s s' Hs Hd). unfold map_, rel in *. destruct (p s), (p' s'); auto.
  destruct Hp as [H1 H2]. auto.
Qed.
Lemma bind_code {A B A' B'} (R : A -> A' -> Prop) (RB : B -> B' -> Prop) p p' f f' :
  simk R p p' -> (forall s s' r a, X K s s' -> p s = Ok r a -> ~ dashes r) ->
  (forall a a', R a a' -> sim_code RB (f a) (f' a')) -> simk RB (bind p f) (bind p' f').
Proof.
  intros Hp Hd Hf s s' Hs. pose proof (Hp s s' Hs) as H. unfold bind, rel in *. destruct (p s) as [r a| |] eqn:E; destruct (p' s') as [r' a'| |]; try tauto.
  - destruct H as (Ha & Hr & t & t' & -> & -> & Ht). specialize (Hf a a' Ha r r' Hr (Hd _ _ _ _ Hs E)). unfold rel in Hf.
    destruct (f a r) as [r1 b| |]; destruct (f' a' r') as [r1' b'| |]; try tauto.
    destruct Hf as (Hb & Hr1 & u & u' & -> & -> & Hu). split; [exact Hb|]. split; [exact Hr1|].
    exists (t ++ u), (t' ++ u'). rewrite !app_assoc. split; [reflexivity|]. split; [reflexivity|].
    split; intros E0; apply app_eq_nil in E0 as [E1 E2]; apply Ht in E1; apply Hu in E2; subst; reflexivity.
  - destruct (f a r); exact I.
Qed.
Lemma sp_code i ir s s' r n : X K s s' -> spaces_or_new_lines_and_indent i ir s = Ok r n -> ~ dashes r.
Proof.
  intros _ H. apply sp_iff in H as (t & (_ & _ & Hn & _) & _). intros (w & ->). destruct Hn as (_ & _ & Hn). apply Hn. split; [reflexivity|]. exists w. reflexivity.
Qed.
(** ** Braces: at a block comment nothing that begins with a brace can be read *)
Definition inside (s : str) : Prop := exists x r, s = C "-" :: x :: r /\ x <> C "-".
Inductive braces : str -> str -> Prop :=
| br_none s s' : X K s s' -> (forall r, s <> C "{" :: r) -> (forall r, s' <> C "{" :: r) -> braces s s'
| br_block s s' : X K (C "{" :: s) (C "{" :: s') -> inside s -> inside s' -> braces (C "{" :: s) (C "{" :: s')
| br_one s s' : X K (C "{" :: s) (C "{" :: s') -> X K s s' -> braces (C "{" :: s) (C "{" :: s').
Lemma braces_X s s' : braces s s' -> X K s s'.
Proof. intros H. destruct H; assumption. Qed.
Lemma x_braces s s' : X K s s' -> braces s s' \/ exists x y r r', on_curly K x y /\ s = curly x r /\ s' = curly y r' /\ X K r r'.
Proof.
  intros Hs. pose proof (X_head _ _ _ Hs) as Hh. destruct s as [|c s].
  - destruct s'; [|destruct Hh]. left. constructor; [exact Hs|discriminate|discriminate].
  - destruct s' as [|c0 s']; [destruct Hh|]. destruct (N.eqb_spec c (C "{")) as [->|Hc].
    2:{ assert (Hc' : c0 <> C "{"). { destruct Hh as [<-|[[_ Hh]|[_ Hh]]]; [exact Hc| |]; intros ->; discriminate Hh. }
        left. constructor; [exact Hs|congruence|congruence]. }
    assert (Ec : c0 = C "{") by (destruct Hh as [<-|[[Hh _]|[Hh _]]]; [reflexivity|discriminate Hh|discriminate Hh]). subst c0. clear Hh.
    pose proof Hs as Hx. remember (C "{" :: s) as x eqn:E in Hx. remember (C "{" :: s') as x' eqn:E' in Hx. destruct Hx as [b0 Hx].
    destruct Hx as [b|b d d' s1 s1'|b d d' s1 s1' (_ & y & c & -> & Hy) (_ & y' & c' & -> & Hy')|b t t' d d' s1 s1' H1|b t t' d d' s1 s1' H1|b d d' s1 s1' H1|b o o' s1 s1' H1|bL tL tL' eL eL' sL sL' Hl1 Hl2|bR tR tR' eR eR' sR sR' Hr1 Hr2|b t t' e e' s1 s1' Hl _ _ Hx|b d s1 s1' H1 H2 H3 H4 H].
    + discriminate E.
    + discriminate E.
    + injection E as <-. injection E' as <-. left. apply br_block; [exact Hs|eexists; eexists; split; [reflexivity|assumption]..].
    + destruct H1; discriminate E.
    + destruct H1; discriminate E.
    + destruct (digits_head _ H1) as (? & ? & -> & Hxx). injection E as -> _. discriminate Hxx.
    + destruct (op_head _ _ H1) as (? & ? & -> & Hxx & _). injection E as -> _. discriminate Hxx.
    + discriminate E.
    + discriminate E.
    + injection E as <-. injection E' as <-. right. exists (t, e), (t', e'), s1, s1'. repeat split; [exact Hl|eexists; exact Hx].
    + injection E as -> ->. injection E' as ->. left. apply br_one; [exact Hs|eexists; exact H].
Qed.
(** two parsers that agree except at a phrase in braces that is replaced *)
Definition sim_off {A B} (R : A -> B -> Prop) (p : parser A) (q : parser B) : Prop :=
  forall s s', braces s s' -> rel (X K) R s s' (p s) (q s').
Lemma off_sim {A B} (R : A -> B -> Prop) p q : simk R p q -> sim_off R p q.
Proof. intros H s s' Hs. apply H, braces_X, Hs. Qed.
Lemma off_alt {A B} (R : A -> B -> Prop) p q p' q' : sim_off R p p' -> sim_off R q q' -> sim_off R (p <|> q) (p' <|> q').
Proof.
  intros Hp Hq s s' Hs. pose proof (Hq s s' Hs) as H2. specialize (Hp s s' Hs). unfold alt, rel in *.
  destruct (p s), (p' s'); auto; try tauto. destruct (q s); auto.
Qed.
Lemma off_map {A B A' B'} (RA : A -> A' -> Prop) (RB : B -> B' -> Prop) f f' p p' :
  sim_off RA p p' -> (forall a a', RA a a' -> RB (f a) (f' a')) -> sim_off RB (map_ f p) (map_ f' p').
Proof.
  intros Hp Hf s s' Hs. specialize (Hp s s' Hs). unfold map_, rel in *. destruct (p s), (p' s'); auto.
  destruct Hp as [H1 H2]. auto.
Qed.
Lemma k_curly {A B} (R : A -> B -> Prop) p q : sim_off R p q ->
  (forall x y s s', on_curly K x y -> X K s s' -> rel (X K) R (curly x s) (curly y s') (p (curly x s)) (q (curly y s'))) -> simk R p q.
Proof. intros H Hc s s' Hs. destruct (x_braces _ _ Hs) as [Hb|(x & y & r & r' & Hx & -> & -> & Hr)]; [apply H, Hb|apply Hc; assumption]. Qed.
Lemma k_brace {B B'} (RB : B -> B' -> Prop) (f : parser B) (f' : parser B') :
  simk RB f f' -> (forall s, inside s -> f s = Err) -> (forall s, inside s -> f' s = Err) ->
  sim_off RB (bind (char_ (C "{")) (fun _ => f)) (bind (char_ (C "{")) (fun _ => f')).
Proof.
  intros Hf Hi Hi' s s' Hs. assert (Hn : forall s, (forall r, s <> C "{" :: r) -> char_ (C "{") s = Err).
  { intros u Hu. destruct (char_ (C "{") u) as [r a| |] eqn:E; [|reflexivity|].
    - apply char_word in E as (w & -> & (-> & _) & _). destruct (Hu r eq_refl).
    - unfold char_ in E. destruct u; [discriminate E|]. destruct (_ =? _)%N; discriminate E. }
  destruct Hs as [s s' _ H1 H2|s s' _ H1 H2|s s' _ H].
  - unfold bind. rewrite !Hn by assumption. exact I.
  - unfold bind, char_. rewrite N.eqb_refl. rewrite Hi, Hi' by assumption. exact I.
  - specialize (Hf s s' H). unfold bind, char_. rewrite N.eqb_refl. unfold rel in *.
    destruct (f s) as [r a| |]; destruct (f' s') as [r' a'| |]; auto. destruct Hf as (Ha & Hr & t & t' & -> & -> & Ht).
    split; [exact Ha|]. split; [exact Hr|]. exists (C "{" :: t), (C "{" :: t'). split; [reflexivity|]. split; [reflexivity|]. split; discriminate.
Qed.
(** an opening bracket: a list that is replaced by another one, or the same character *)
Lemma k_square {B B'} (RB : B -> B' -> Prop) (f : parser B) (f' : parser B') :
  simk RB f f' ->
  (forall t e t' e' s s', on_list K (t, e) (t', e') -> X K s s' ->
    rel (X K) RB (C "[" :: t ++ s) (C "[" :: t' ++ s') (f (t ++ s)) (f' (t' ++ s'))) ->
  simk RB (bind (char_ (C "[")) (fun _ => f)) (bind (char_ (C "[")) (fun _ => f')).
Proof.
  intros Hf Hi s s' Hs. assert (Hn : forall s, (forall r, s <> C "[" :: r) -> char_ (C "[") s = Err).
  { intros u Hu. destruct (char_ (C "[") u) as [r a| |] eqn:E; [|reflexivity|].
    - apply char_word in E as (w & -> & (-> & _) & _). destruct (Hu r eq_refl).
    - unfold char_ in E. destruct u; [discriminate E|]. destruct (_ =? _)%N; discriminate E. }
  pose proof (X_head _ _ _ Hs) as Hh. destruct s as [|c s].
  - destruct s'; [|destruct Hh]. unfold bind. rewrite Hn by discriminate. exact I.
  - destruct s' as [|c0 s']; [destruct Hh|]. destruct (N.eqb_spec c (C "[")) as [->|Hc].
    2:{ assert (Hc' : c0 <> C "["). { destruct Hh as [<-|[[_ Hh]|[_ Hh]]]; [exact Hc| |]; intros ->; discriminate Hh. }
        unfold bind. rewrite !Hn by congruence. exact I. }
    assert (Ec : c0 = C "[") by (destruct Hh as [<-|[[Hh _]|[Hh _]]]; [reflexivity|discriminate Hh|discriminate Hh]). subst c0. clear Hh.
    remember (C "[" :: s) as x eqn:E. remember (C "[" :: s') as x' eqn:E'. destruct Hs as [b0 Hs].
    destruct Hs as [b|b d d' s1 s1'|b d d' s1 s1'|b t t' d d' s1 s1' H1|b t t' d d' s1 s1' H1|b d d' s1 s1' H1|b o o' s1 s1' H1|b t t' e e' s1 s1' Hl Hs|bR tR tR' eR eR' sR sR' Hr1 Hr2|bR tR tR' eR eR' sR sR' Hr1 Hr2|b d s1 s1' H1 H2 H3 H4 H].
    + discriminate E.
    + discriminate E.
    + discriminate E.
    + destruct H1; discriminate E.
    + destruct H1; discriminate E.
    + destruct (digits_head _ H1) as (? & ? & -> & Hx). injection E as -> _. discriminate Hx.
    + destruct (op_head _ _ H1) as (? & ? & -> & Hx & _). injection E as -> _. discriminate Hx.
    + unfold bind, char_. rewrite N.eqb_refl. eapply Hi; [exact Hl|eexists; exact Hs].
    + discriminate E.
    + discriminate E.
    + injection E as -> ->. injection E' as ->. specialize (Hf s s' (ex_intro _ _ H)). unfold bind, char_. rewrite N.eqb_refl. unfold rel in *.
      destruct (f s) as [r a| |]; destruct (f' s') as [r' a'| |]; auto. destruct Hf as (Ha & Hr & t & t' & -> & -> & Ht).
      split; [exact Ha|]. split; [exact Hr|]. exists (C "[" :: t), (C "[" :: t'). split; [reflexivity|]. split; [reflexivity|]. split; discriminate.
Qed.
(** an opening parenthesis: a phrase that is replaced by another one, or the same character *)
Lemma rel_failing {A B} (R : A -> B -> Prop) s s' x y : failing x -> failing y -> rel (X K) R s s' x y.
Proof. intros Hx Hy. destruct x; try destruct Hx; destruct y; try destruct Hy; exact I. Qed.
Lemma k_round {B B'} (RB : B -> B' -> Prop) (f : parser B) (f' : parser B') :
  sim_code RB f f' ->
  (forall x y s s', on_round K x y -> X K s s' ->
    rel (X K) RB (round x s) (round y s') (bind (char_ (C "(")) (fun _ => f) (round x s)) (bind (char_ (C "(")) (fun _ => f') (round y s'))) ->
  simk RB (bind (char_ (C "(")) (fun _ => f)) (bind (char_ (C "(")) (fun _ => f')).
Proof.
  intros Hf Hi s s' Hs. assert (Hn : forall s, (forall r, s <> C "(" :: r) -> char_ (C "(") s = Err).
  { intros u Hu. destruct (char_ (C "(") u) as [r a| |] eqn:E; [|reflexivity|].
    - apply char_word in E as (w & -> & (-> & _) & _). destruct (Hu r eq_refl).
    - unfold char_ in E. destruct u; [discriminate E|]. destruct (_ =? _)%N; discriminate E. }
  pose proof (X_head _ _ _ Hs) as Hh. destruct s as [|c s].
  - destruct s'; [|destruct Hh]. unfold bind. rewrite Hn by discriminate. exact I.
  - destruct s' as [|c0 s']; [destruct Hh|]. destruct (N.eqb_spec c (C "(")) as [->|Hc].
    2:{ assert (Hc' : c0 <> C "("). { destruct Hh as [<-|[[_ Hh]|[_ Hh]]]; [exact Hc| |]; intros ->; discriminate Hh. }
        unfold bind. rewrite !Hn by congruence. exact I. }
    assert (Ec : c0 = C "(") by (destruct Hh as [<-|[[Hh _]|[Hh _]]]; [reflexivity|discriminate Hh|discriminate Hh]). subst c0. clear Hh.
    remember (C "(" :: s) as x eqn:E. remember (C "(" :: s') as x' eqn:E'. destruct Hs as [b0 Hs].
    destruct Hs as [b|b d d' s1 s1'|b d d' s1 s1'|b t t' d d' s1 s1' H1|b t t' d d' s1 s1' H1|b d d' s1 s1' H1|b o o' s1 s1' H1|bR tR tR' eR eR' sR sR' Hr1 Hr2|b t t' e e' s1 s1' Hl Hs|b t t' e e' s1 s1' Hl Hs|b d s1 s1' H1 H2 H3 H4 H].
    + discriminate E.
    + discriminate E.
    + discriminate E.
    + destruct H1; discriminate E.
    + destruct H1; discriminate E.
    + destruct (digits_head _ H1) as (? & ? & -> & Hx). injection E as -> _. discriminate Hx.
    + destruct (op_head _ _ H1) as (? & ? & -> & Hx & _). injection E as -> _. discriminate Hx.
    + discriminate E.
    + apply (Hi (t, e) (t', e')); [exact Hl|eexists; exact Hs].
    + discriminate E.
    + injection E as -> ->. injection E' as ->. destruct H1 as (_ & _ & _ & Hd & _).
      specialize (Hf s s' (ex_intro _ _ H) (Hd (or_intror eq_refl))). unfold bind, char_. rewrite N.eqb_refl. unfold rel in *.
      destruct (f s) as [r a| |]; destruct (f' s') as [r' a'| |]; auto. destruct Hf as (Ha & Hr & t & t' & -> & -> & Ht).
      split; [exact Ha|]. split; [exact Hr|]. exists (C "(" :: t), (C "(" :: t'). split; [reflexivity|]. split; [reflexivity|]. split; discriminate.
Qed.
Lemma bind_assoc {A B D} (p : parser A) (f : A -> parser B) (g : B -> parser D) s :
  bind (bind p f) g s = bind p (fun a => bind (f a) g) s.
Proof. unfold bind. destruct (p s); reflexivity. Qed.
Lemma k_brace2 {A B B'} (RB : B -> B' -> Prop) (p : parser A) (f : parser B) (f' : parser B') :
  simk RB (bind p (fun _ => f)) (bind p (fun _ => f')) ->
  (forall s, inside s -> bind p (fun _ => f) s = Err) -> (forall s, inside s -> bind p (fun _ => f') s = Err) ->
  sim_off RB (bind (bind (char_ (C "{")) (fun _ => p)) (fun _ => f)) (bind (bind (char_ (C "{")) (fun _ => p)) (fun _ => f')).
Proof. intros Hf H H' s s' Hs. rewrite !bind_assoc. apply k_brace; assumption. Qed.
Lemma k_round2 {A B B'} (RB : B -> B' -> Prop) (p : parser A) (f : parser B) (f' : parser B') :
  simk RB (bind p (fun _ => f)) (bind p (fun _ => f')) ->
  (forall x y s s', on_round K x y -> X K s s' -> rel (X K) RB (round x s) (round y s')
    (bind (bind (char_ (C "(")) (fun _ => p)) (fun _ => f) (round x s)) (bind (bind (char_ (C "(")) (fun _ => p)) (fun _ => f') (round y s'))) ->
  simk RB (bind (bind (char_ (C "(")) (fun _ => p)) (fun _ => f)) (bind (bind (char_ (C "(")) (fun _ => p)) (fun _ => f')).
Proof.
  intros Hf Hi s s' Hs. rewrite !bind_assoc. apply k_round; [apply code_sim, Hf| |exact Hs].
  intros x y u u' Hx Hu. rewrite <- !bind_assoc. apply Hi; assumption.
Qed.
Lemma failing_map {A B} (f : A -> B) p s : failing (map_ f p s) -> failing (p s).
Proof. unfold map_. destruct (p s); auto. Qed.
Lemma inside_sp i ir s : inside s -> spaces_or_new_lines_and_indent i ir s = Err.
Proof.
  intros (x & r & -> & Hx). apply sp_nil. repeat split; [discriminate|discriminate|]. intros [_ (r' & E)]. injection E as E _. contradiction.
Qed.
Lemma inside_lo_name s : inside s -> lo_name s = Err.
Proof. intros (x & r & -> & Hx). eapply heads_Err; [apply heads_lo_name|apply ok_0; apply ok_lo_name|reflexivity]. Qed.
Lemma inside_char c s : inside s -> c <> C "-" -> char_ c s = Err.
Proof. intros (x & r & -> & Hx) Hc. unfold char_. destruct (N.eqb_spec (C "-") c); [congruence|]. reflexivity. Qed.
Lemma inside_opt {A} (p : parser A) s : p s = Err -> opt p s = Ok s None.
Proof. unfold opt. intros ->. reflexivity. Qed.
Lemma inside_multi s : inside s -> multispace0 s = Ok s [].
Proof. intros (x & r & -> & Hx). reflexivity. Qed.
Lemma sep_empty {A B} (sep : parser B) (p : parser A) s : p s = Err -> separated_list sep p s = Ok s [].
Proof. unfold separated_list. intros ->. reflexivity. Qed.

(** ** The parsers without literals: the results are equal *)
Lemma q_bind {A B} (p p' : parser A) (f f' : A -> parser B) : simk eq p p' -> (forall a, simk eq (f a) (f' a)) -> simk eq (bind p f) (bind p' f').
Proof. intros Hp Hf. eapply sim_bind; [exact Hp|]. intros a a' <-. apply Hf. Qed.
Lemma q_map {A B} (f : A -> B) p p' : simk eq p p' -> simk eq (map_ f p) (map_ f p').
Proof. intros Hp. eapply sim_map; [exact Hp|]. intros a a' <-. reflexivity. Qed.
Lemma q_map_res {A B} (f : A -> option B) p p' : simk eq p p' -> simk eq (map_res f p) (map_res f p').
Proof. intros Hp. eapply sim_map_res; [exact Hp|]. intros a a' <-. destruct (f a); cbn; auto. Qed.
Lemma q_value {A B} (b : B) (p p' : parser A) : simk eq p p' -> simk eq (value b p) (value b p').
Proof. apply q_map. Qed.
Lemma q_opt {A} (p p' : parser A) : simk eq p p' -> simk eq (opt p) (opt p').
Proof. intros Hp. eapply sim_weak; [intros a b; apply opt_rel_eq|]. apply sim_opt, Hp. Qed.
Lemma q_many0 {A} (p p' : parser A) : simk eq p p' -> simk eq (many0 p) (many0 p').
Proof. intros Hp. eapply sim_weak; [intros a b; apply Forall2_is_eq|]. apply sim_many0, Hp. Qed.
Lemma q_many1 {A} (p p' : parser A) : simk eq p p' -> simk eq (many1 p) (many1 p').
Proof. intros Hp. eapply sim_weak; [intros a b; apply Forall2_is_eq|]. apply sim_many1, Hp. Qed.
Lemma q_sep {A B} (sep sep' : parser B) (p p' : parser A) : simk eq sep sep' -> simk eq p p' -> simk eq (separated_list sep p) (separated_list sep' p').
Proof. intros Hs Hp. eapply sim_weak; [intros a b; apply Forall2_is_eq|]. eapply sim_separated_list; eassumption. Qed.
Lemma q_sep1 {A B} (sep sep' : parser B) (p p' : parser A) : simk eq sep sep' -> simk eq p p' -> simk eq (separated_nonempty_list sep p) (separated_nonempty_list sep' p').
Proof. intros Hs Hp. eapply sim_weak; [intros a b; apply Forall2_is_eq|]. eapply sim_separated_nonempty; eassumption. Qed.
Lemma q_ret {A} (a : A) : simk eq (ret a) (ret a).
Proof. apply sim_ret. reflexivity. Qed.

Lemma k_delim {A B D} (p p' : parser B) (m : parser A) w a0 (q q' : parser D) : reads_word m w a0 -> word w -> simk any p p' -> simk any q q' ->
  (forall t, mid w t -> no_ok q t) -> (forall t, mid w t -> no_ok q' t) -> simk eq (delimited p m q) (delimited p' m q').
Proof.
  intros Hm Hw Hp Hq H1 H2. unfold delimited. eapply sim_bind; [exact Hp|]. intros _ _ _. apply (k_sym _ _ w a0); [exact Hm|exact Hw| | |].
  - eapply sim_bind; [exact Hq|]. intros _ _ _. apply sim_ret. reflexivity.
  - intros t Ht. apply no_bind1, H1, Ht.
  - intros t Ht. apply no_bind1, H2, Ht.
Qed.
Lemma any_eq {A} (p p' : parser A) : simk eq p p' -> simk any p p'.
Proof. apply sim_weak. intros; exact I. Qed.
Ltac delim :=
  first [eapply k_delim; [apply char_reads|is_word|apply any_eq|apply any_eq|intros ? ?; nok|intros ? ?; nok]
        |eapply k_delim; [apply tag_reads|is_word|apply any_eq|apply any_eq|intros ? ?; nok|intros ? ?; nok]
        |eapply sim_delimited].
Ltac leaf1 :=
  lazymatch goal with
  | |- TwoRuns.sim _ _ (tag _) _ => apply l_tag; [reflexivity|exact HK]
  | |- TwoRuns.sim _ _ (char_ _) _ => apply l_char; [reflexivity|exact HK]
  | |- TwoRuns.sim _ _ (spaces_or_new_lines_and_indent _ _) _ => apply k_sp
  | |- TwoRuns.sim _ _ (opt_spaces_or_new_lines_and_indent _ _) _ => apply k_opt_sp
  | |- TwoRuns.sim _ _ sp_gt0 _ => apply k_sp
  | |- TwoRuns.sim _ _ lo_name _ => apply l_lo_name; exact HK
  | |- TwoRuns.sim _ _ up_name _ => apply l_up_name; exact HK
  | |- TwoRuns.sim _ _ type_variable _ => apply l_type_variable; exact HK
  | |- TwoRuns.sim _ _ spaces _ => apply l_take1; [reflexivity|exact HK]
  | |- TwoRuns.sim _ _ spaces_and_newlines _ => apply l_take1; [reflexivity|exact HK]
  | |- TwoRuns.sim _ _ space1 _ => apply l_take1; [reflexivity|exact HK]
  | |- TwoRuns.sim _ _ multispace _ => apply l_take1; [reflexivity|exact HK]
  | |- TwoRuns.sim _ _ (is_a _) _ => apply l_take1; [reflexivity|exact HK]
  | |- TwoRuns.sim _ _ multispace0 _ => apply l_take0; [reflexivity|exact HK]
  end.
Ltac q1 :=
  lazymatch goal with
  | |- TwoRuns.sim _ _ (bind _ _) _ => first [sym; cbv beta|apply q_bind; [|intros ?]]
  | |- TwoRuns.sim _ _ (preceded _ _) _ => eapply sim_preceded
  | |- TwoRuns.sim _ _ (terminated _ _) _ => eapply sim_terminated
  | |- TwoRuns.sim _ _ (delimited _ _ _) _ => delim
  | |- TwoRuns.sim _ _ (separated_list _ _) _ => eapply q_sep
  | |- TwoRuns.sim _ _ (separated_nonempty_list _ _) _ => first [apply k_dots|eapply q_sep1]
  | |- TwoRuns.sim _ _ (many0 _) _ => apply q_many0
  | |- TwoRuns.sim _ _ (many1 _) _ => apply q_many1
  | |- TwoRuns.sim _ _ (map_ _ _) _ => apply q_map
  | |- TwoRuns.sim _ _ (map_res _ _) _ => apply q_map_res
  | |- TwoRuns.sim _ _ (value _ _) _ => apply q_value
  | |- TwoRuns.sim _ _ (ret _) _ => apply q_ret
  | |- TwoRuns.sim _ _ (opt_sp _) _ => unfold opt_sp
  | |- TwoRuns.sim _ _ (comma_sep _) _ => unfold comma_sep
  | |- TwoRuns.sim _ _ (opt _) _ => apply q_opt
  | |- TwoRuns.sim _ _ (alt _ _) _ => apply sim_alt
  | _ => leaf1
  end.
Ltac qs := repeat q1.

Definition not_op (c : char) : bool := negb (is_op_char c).
Section TypeHeads.
  Variable T : N -> parser type_ast.
  Lemma heads_extension i : heads not_op (type_record_constructor_f T i).
  Proof. apply heads_bind. eapply heads_weaken; [|apply heads_char]. intros c H. apply N.eqb_eq in H. subst c. reflexivity. Qed.
  Lemma heads_record_type i : heads not_op (type_record_f T i).
  Proof. apply heads_bind, heads_bind. eapply heads_weaken; [|apply heads_char]. intros c H. apply N.eqb_eq in H. subst c. reflexivity. Qed.
  Lemma heads_tuple_type i : heads not_op (type_tuple_f T i).
  Proof. apply heads_map, heads_bind, heads_bind. eapply heads_weaken; [|apply heads_char]. intros c H. apply N.eqb_eq in H. subst c. reflexivity. Qed.
  Lemma heads_parens_type i : heads not_op (type_parens_f T i).
  Proof. apply heads_bind, heads_bind. eapply heads_weaken; [|apply heads_char]. intros c H. apply N.eqb_eq in H. subst c. reflexivity. Qed.
  Lemma heads_type_f i : heads not_op (type_f T i).
  Proof.
    unfold type_f. apply heads_alt; [apply heads_bind, heads_sep; eapply heads_weaken; [|apply heads_up_name]; intros c H|].
    - unfold not_op. rewrite name_not_op; [reflexivity|apply upper_first, H].
    - apply heads_alt; [eapply heads_weaken; [|apply heads_type_variable]; intros c H; unfold not_op; rewrite name_not_op; [reflexivity|apply lower_first, H]|].
      apply heads_alt; [apply heads_extension|]. apply heads_alt; [apply heads_record_type|]. apply heads_alt; [apply heads_tuple_type|apply heads_parens_type].
  Qed.
  Hypothesis HN : forall i, heads not_op (T i).
  Lemma no_annotation i t : op_start t -> no_ok (type_annotation_f T i) t.
  Proof.
    intros Ht. apply (op_no_heads not_op); [exact Ht| |reflexivity]. apply heads_map_res, heads_sep, HN.
  Qed.
End TypeHeads.
Section Types.
  Variables T T' : N -> parser type_ast.
  Hypothesis HT : forall i, simk eq (T i) (T' i).
  Hypothesis HN : forall i, heads not_op (T i).
  Hypothesis HN' : forall i, heads not_op (T' i).
  Hypothesis HP : forall x y, on_round K x y -> no_type T x /\ no_type T' y.
  Hypothesis HQ : forall x y, on_curly K x y -> no_curly_type T x /\ no_curly_type T' y.

  Lemma q_annotation i : simk eq (type_annotation_f T i) (type_annotation_f T' i).
  Proof. unfold type_annotation_f. qs. apply HT. Qed.
  Lemma q_tuple_type i : simk eq (type_tuple_f T i) (type_tuple_f T' i).
  Proof.
    unfold type_tuple_f. apply q_map. unfold delimited, preceded. apply k_round2; [qs; apply HT|].
    intros x y s s' Hx _. destruct (HP _ _ Hx) as [H1 H2]. apply rel_failing; eapply failing_map; [apply (H1 i s)|apply (H2 i s')].
  Qed.
  Lemma q_pair i : simk eq (type_record_pair_f T i) (type_record_pair_f T' i).
  Proof. unfold type_record_pair_f. qs; [apply q_annotation|apply no_annotation; [exact HN|eapply mid_op; eassumption]|apply no_annotation; [exact HN'|eapply mid_op; eassumption]]. Qed.
  Lemma q_pairs i : simk eq (type_record_pairs_f T i) (type_record_pairs_f T' i).
  Proof. unfold type_record_pairs_f. qs. apply q_pair. Qed.
  Lemma q_extension i : simk eq (type_record_constructor_f T i) (type_record_constructor_f T' i).
  Proof.
    apply k_curly; [|intros x y s s' Hx _; destruct (HQ _ _ Hx) as [H1 H2]; apply rel_failing; [apply (H1 i s)|apply (H2 i s')]].
    unfold type_record_constructor_f, delimited. apply k_brace.
    - qs. apply q_pairs.
    - intros s Hs. apply bind_Err1, bind_Err1, inside_sp, Hs.
    - intros s Hs. apply bind_Err1, bind_Err1, inside_sp, Hs.
  Qed.
  Lemma pairs_inside U i s : inside s -> type_record_pairs_f U i s = Ok s [].
  Proof. intros Hs. apply sep_empty, bind_Err1, inside_lo_name, Hs. Qed.
  Lemma q_record_type i : simk eq (type_record_f T i) (type_record_f T' i).
  Proof.
    apply k_curly; [|intros x y s s' Hx _; destruct (HQ _ _ Hx) as [H1 H2]; apply rel_failing; [apply (H1 i s)|apply (H2 i s')]].
    unfold type_record_f, delimited, preceded.
    assert (J : forall U s, inside s -> bind (opt_sp i) (fun _ => b <- map_ TypeRecord (type_record_pairs_f U i) ;; terminated (opt_sp i) (char_ (C "}")) ;;; ret b) s = Err).
    { intros U s Hs. eapply bind_Err2; [apply inside_opt, inside_sp, Hs|]. eapply bind_Err2; [unfold map_; rewrite pairs_inside by exact Hs; reflexivity|].
      apply bind_Err1. eapply bind_Err2; [apply inside_opt, inside_sp, Hs|]. apply bind_Err1, inside_char; [exact Hs|discriminate]. }
    apply k_brace2; [|apply J|apply J]. qs. apply q_pairs.
  Qed.
  Lemma q_parens_type i : simk eq (type_parens_f T i) (type_parens_f T' i).
  Proof.
    unfold type_parens_f, delimited, preceded. apply k_round2; [qs; apply q_annotation|].
    intros x y s s' Hx _. destruct (HP _ _ Hx) as [H1 H2]. apply rel_failing; [apply (H1 i s)|apply (H2 i s')].
  Qed.
  Lemma q_parameter i : simk eq (type_parameter_f T i) (type_parameter_f T' i).
  Proof.
    unfold type_parameter_f, type_constant. qs.
    - apply q_extension.
    - apply q_record_type.
    - apply q_tuple_type.
    - apply q_parens_type.
  Qed.
  Lemma q_constructor i : simk eq (type_constructor_f T i) (type_constructor_f T' i).
  Proof. unfold type_constructor_f. qs. apply q_parameter. Qed.
  Lemma q_type_f i : simk eq (type_f T i) (type_f T' i).
  Proof.
    unfold type_f. qs.
    - apply q_constructor.
    - apply q_extension.
    - apply q_record_type.
    - apply q_tuple_type.
    - apply q_parens_type.
  Qed.
End Types.
Lemma heads_type_n n i : heads not_op (type_n n i).
Proof. destruct n; [discriminate|]. apply heads_type_f. Qed.
Lemma heads_type i : heads not_op (type_ i).
Proof. intros s r a H. exact (heads_type_n _ _ _ _ _ H). Qed.
Lemma q_type_n n : forall n' i, simk eq (type_n n i) (type_n n' i).
Proof.
  induction n as [|n IH]; intros [|n'] i s s' Hs; try exact I; [apply rel_abort|].
  cbn [type_n]. apply q_type_f; auto; try apply heads_type_n; intros x y Hx; [destruct (HR _ _ Hx) as ((_ & H1 & _) & (_ & H2 & _) & _)|destruct (HC _ _ Hx) as ((_ & H1 & _) & (_ & H2 & _) & _)]; auto.
Qed.
Lemma q_type i : simk eq (type_ i) (type_ i).
Proof. intros s s' Hs. apply q_type_n; assumption. Qed.
Lemma q_type_annotation i : simk eq (type_annotation i) (type_annotation i).
Proof. apply q_annotation, q_type. Qed.
Lemma q_type_constructor i : simk eq (type_constructor i) (type_constructor i).
Proof.
  apply q_constructor; [apply q_type|apply heads_type|apply heads_type| |]; intros x y Hx;
    [destruct (HR _ _ Hx) as ((H1 & _) & (H2 & _) & _)|destruct (HC _ _ Hx) as ((H1 & _) & (H2 & _) & _)]; auto.
Qed.

Lemma op_failing s : failing (op s) -> failing (bind (char_ (C "(")) (fun _ => b <- operator ;; char_ (C ")") ;;; ret b) s).
Proof.
  unfold op. intros H. apply failing_map in H. revert H. unfold delimited, bind, alt. destruct (char_ (C "(") s) as [r u| |]; try (intros; exact I).
  destruct (operator r) as [r1 o| |]; try (intros; exact I). intros H. exact H.
Qed.
Lemma k_paren_operator : simk (same_name K) (delimited (char_ (C "(")) operator (char_ (C ")"))) (delimited (char_ (C "(")) operator (char_ (C ")"))).
Proof.
  unfold delimited. apply k_round.
  - eapply code_bind; [apply code_operator|]. intros a a' Ha. eapply sim_bind; [leaf1|]. intros _ _ _. apply sim_ret, Ha.
  - intros x y s s' Hx _. destruct (HR _ _ Hx) as ((_ & _ & H1) & (_ & _ & H2) & _). destruct (H1 s) as [H3 _]. destruct (H2 s') as [H4 _].
    apply rel_failing; apply op_failing; assumption.
Qed.
Lemma same_refl {A} (p : parser A) (R : A -> A -> Prop) : (forall a, R a a) -> simk eq p p -> simk R p p.
Proof. intros HRf. apply sim_weak. intros a a' <-. apply HRf. Qed.
Lemma name_refl n : same_name K n n. Proof. left. reflexivity. Qed.
Lemma k_binding_name : simk (same_name K) binding_name binding_name.
Proof. unfold binding_name. apply sim_alt; [apply same_refl; [apply name_refl|leaf1]|apply k_paren_operator]. Qed.
Lemma k_signature i : simk (same_signature K) (function_signature i) (function_signature i).
Proof.
  unfold function_signature. eapply sim_bind; [apply k_binding_name|]. intros n n' Hn. eapply sim_bind; [leaf1|]. intros _ _ _. sym. cbv beta.
  eapply sim_bind; [leaf1|]. intros k k' <-. eapply sim_bind; [apply q_type_annotation|]. intros t t' <-. apply sim_ret. constructor. exact Hn.
Qed.
(** ** Expressions *)
Notation same := (same_expr K).
Definition field : str * expr -> str * expr -> Prop := fun x y => fst x = fst y /\ same (snd x) (snd y).
Definition branch : expr * expr -> expr * expr -> Prop := fun x y => same (fst x) (fst y) /\ same (snd x) (snd y).

Ltac sim1 :=
  lazymatch goal with
  | |- TwoRuns.sim _ _ (bind _ _) _ => first [sym; cbv beta|eapply sim_bind; [|intros ? ? ?]]
  | |- TwoRuns.sim _ _ (preceded _ _) _ => eapply sim_preceded
  | |- TwoRuns.sim _ _ (terminated _ _) _ => eapply sim_terminated
  | |- TwoRuns.sim _ _ (delimited _ _ _) _ => delim
  | |- TwoRuns.sim _ _ (separated_list _ _) _ => eapply sim_separated_list
  | |- TwoRuns.sim _ _ (separated_nonempty_list _ _) _ => first [apply k_dots|eapply sim_separated_nonempty]
  | |- TwoRuns.sim _ _ (many0 _) _ => eapply sim_many0
  | |- TwoRuns.sim _ _ (many1 _) _ => eapply sim_many1
  | |- TwoRuns.sim _ _ (opt_sp _) _ => unfold opt_sp
  | |- TwoRuns.sim _ _ (comma_sep _) _ => unfold comma_sep
  | |- TwoRuns.sim _ _ (opt _) _ => eapply sim_opt
  | |- TwoRuns.sim _ _ (alt _ _) _ => apply sim_alt
  | _ => leaf1
  end.
Ltac sims := repeat sim1.
Ltac fin := subst; try (apply sim_ret; constructor; auto).

Lemma k_variable : simk same variable variable.
Proof.
  assert (J : forall A (f : A -> list str) p, simk eq p p -> simk same (map_ (fun x => Variable_ (f x)) p) (map_ (fun x => Variable_ (f x)) p)).
  { intros A f p Hp. eapply sim_map; [exact Hp|]. intros a a' <-. constructor. }
  unfold variable, lower_case, upper_with_dots, op. apply sim_alt; [apply (J _ (fun x => [x])); qs|]. apply sim_alt; [apply (J _ (fun x => x)); qs|].
  eapply sim_map with (RA := same_name K); [|intros a a' [<-|Ha]; [constructor|apply se_operator, Ha]].
  unfold delimited. apply k_round.
  - eapply code_bind; [apply code_alt; [apply code_operator|]|].
    + apply code_sim, same_refl; [apply name_refl|]. qs.
    + intros a a' Ha. eapply sim_bind; [leaf1|]. intros _ _ _. apply sim_ret, Ha.
  - intros x y s s' Hx _. destruct (HR _ _ Hx) as ((_ & _ & H1) & (_ & _ & H2) & _). destruct (H1 s) as [H3 _]. destruct (H2 s') as [H4 _].
    apply rel_failing; [exact (failing_map _ _ _ H3)|exact (failing_map _ _ _ H4)].
Qed.
Lemma alt_assoc {A} (p q r : parser A) s : (p <|> (q <|> r)) s = ((p <|> q) <|> r) s.
Proof. unfold alt. destruct (p s); reflexivity. Qed.
Lemma k_access : simk same access access.
Proof.
  unfold access. eapply sim_bind; [apply k_variable|]. intros v v' Hv. eapply sim_bind; [qs|]. intros a a' <-. fin.
Qed.
Lemma k_access_function : simk same access_function access_function.
Proof. unfold access_function. sims. fin. Qed.
Lemma k_simplified_field : simk field simplified_field simplified_field.
Proof. unfold simplified_field. sims. fin. constructor. Qed.
Lemma off_simplified_record : sim_off same simplified_record simplified_record.
Proof.
  unfold simplified_record. eapply off_map with (RA := Forall2 field); [|intros l l' H; constructor; exact H]. unfold delimited.
  assert (J : forall s, inside s -> bind (separated_list (char_ (C ",")) simplified_field) (fun b => char_ (C "}") ;;; ret b) s = Err).
  { intros s Hs. eapply bind_Err2; [apply sep_empty|apply bind_Err1, inside_char; [exact Hs|discriminate]].
    unfold simplified_field. eapply bind_Err2; [apply inside_multi, Hs|]. apply bind_Err1, inside_lo_name, Hs. }
  apply k_brace; [|exact J|exact J]. sims; [apply k_simplified_field|]. apply sim_ret. assumption.
Qed.
Lemma rel_curly {A B} (R : A -> B -> Prop) x y s s' u v a b : X K s s' -> aborts u \/ u = Ok s a -> aborts v \/ v = Ok s' b -> R a b ->
  rel (X K) R (curly x s) (curly y s') u v.
Proof.
  intros Hs [Hu| ->] [Hv| ->] Hab; try (destruct u; try destruct Hu; exact I); [destruct v; try destruct Hv; apply rel_abort|].
  split; [exact Hab|]. split; [exact Hs|]. exists (C "{" :: fst x), (C "{" :: fst y). split; [reflexivity|]. split; [reflexivity|]. split; discriminate.
Qed.
Lemma curly_same x y : on_curly K x y -> same (snd x) (snd y).
Proof. destruct x, y. intros H. eapply se_curly, H. Qed.
Lemma k_simplified_record : simk same simplified_record simplified_record.
Proof.
  apply k_curly; [apply off_simplified_record|]. intros x y s s' Hx Hs. destruct (HC _ _ Hx) as (_ & _ & [[H1 H2]|[H1 H2]] & _).
  - apply rel_failing; [apply (H1 0%N s)|apply (H2 0%N s')].
  - eapply rel_curly; [exact Hs|right; apply (H1 0%N s)|right; apply (H2 0%N s')|apply curly_same, Hx].
Qed.
Lemma application_same l l' : Forall2 same l l' -> opt_rel same (application_of_list l) (application_of_list l').
Proof.
  intros H. destruct H as [|x x' l l' Hx [|y y' l0 l0' Hy H]]; [exact I|exact Hx|]. cbn [application_of_list opt_rel].
  assert (Ha : same (Application x y) (Application x' y')) by (constructor; assumption). revert Ha.
  generalize (Application x y), (Application x' y'). clear - H. induction H as [|z z' l l' Hz H IH]; intros a a' Ha; [exact Ha|].
  cbn [fold_left]. apply IH. constructor; assumption.
Qed.

(** what an expression begins with *)
Definition ex0 (c : char) : bool := not_op c || mem_char c (L ".+-\").
Ltac weak H := eapply heads_weaken; [|apply H]; let c := fresh "c" in let Hc := fresh "Hc" in intros c Hc; try (apply N.eqb_eq in Hc; subst c; reflexivity).
Section ExprHeads.
  Variable E : N -> parser expr.
  Lemma var0_ex c : var0 c = true -> ex0 c = true.
  Proof.
    unfold var0, ex0, not_op. intros H. apply orb_true_iff in H as [H|H]; [apply orb_true_iff in H as [H|H]|].
    - rewrite name_not_op; [reflexivity|apply lower_first, H].
    - rewrite name_not_op; [reflexivity|apply upper_first, H].
    - apply mem_char_In in H. repeat destruct H as [<-|H]; try destruct H; reflexivity.
  Qed.
  Lemma number0_ex c : number0 c = true -> ex0 c = true.
  Proof.
    unfold number0, ex0, not_op. intros H. apply orb_true_iff in H as [H|H]; [apply orb_true_iff in H as [H|H]|].
    - rewrite dec_not_op; [reflexivity|exact H].
    - apply N.eqb_eq in H. subst c. reflexivity.
    - apply N.eqb_eq in H. subst c. reflexivity.
  Qed.
  Lemma heads_term i : heads ex0 (term_f E i).
  Proof.
    unfold term_f. apply heads_alt; [weak heads_access; apply var0_ex, Hc|]. apply heads_alt; [weak heads_variable; apply var0_ex, Hc|].
    apply heads_alt; [weak heads_access_function|]. apply heads_alt; [weak heads_string|]. apply heads_alt; [weak heads_float; apply number0_ex, Hc|].
    apply heads_alt; [weak heads_integer; apply number0_ex, Hc|]. apply heads_alt; [weak heads_character|]. apply heads_alt; [weak heads_parens|].
    apply heads_alt; [weak heads_list|]. apply heads_alt; [weak heads_tuple|]. apply heads_alt; [weak heads_update|]. apply heads_alt; [weak heads_record|weak heads_names].
  Qed.
  Lemma heads_application i : heads ex0 (application_or_var_f E i).
  Proof.
    intros s r a H. apply map_res_Ok in H as (l & H & Hl). unfold separated_list in H. destruct (term_f E i s) as [r1 x| |] eqn:Et.
    - exact (heads_term i _ _ _ Et).
    - injection H as <- <-. discriminate Hl.
    - discriminate H.
  Qed.
  Lemma heads_expression_f i : heads ex0 (expression_f E i).
  Proof.
    unfold expression_f. apply heads_alt; [apply heads_bind, heads_application|].
    apply heads_alt; [apply heads_bind; weak (heads_tag (C "l"))|]. apply heads_alt; [apply heads_bind; weak (heads_tag (C "c"))|].
    apply heads_alt; [apply heads_bind; weak (heads_tag (C "i"))|]. apply heads_bind. weak heads_char.
  Qed.
  Hypothesis HN : forall i, heads ex0 (E i).
  Lemma no_value i t : mid (L "=") t -> no_ok (E i) t.
  Proof.
    intros (x & u & -> & Hx & _ & Hm) r a H. apply HN in H as (c & s' & Ec & Hc). injection Ec as <- _. unfold ex0, not_op in Hc. rewrite Hx, Hm in Hc by reflexivity. discriminate Hc.
  Qed.
End ExprHeads.

Section Expressions.
  Variables E E' : N -> parser expr.
  Hypothesis HE : forall i, simk same (E i) (E' i).
  Hypothesis HN : forall i, heads ex0 (E i).
  Hypothesis HN' : forall i, heads ex0 (E' i).

  Hypothesis HB : forall x y, on_round K x y -> reads_both E E' x y.
  Lemma rel_phrase {A B} (R : A -> B -> Prop) x y s s' u v a b : X K s s' -> aborts u \/ u = Ok s a -> aborts v \/ v = Ok s' b -> R a b ->
    rel (X K) R (round x s) (round y s') u v.
  Proof.
    intros Hs [Hu| ->] [Hv| ->] Hab; try (destruct u; try destruct Hu; exact I); [destruct v; try destruct Hv; apply rel_abort|].
    split; [exact Hab|]. split; [exact Hs|]. exists (C "(" :: fst x), (C "(" :: fst y). split; [reflexivity|]. split; [reflexivity|]. split; discriminate.
  Qed.
  Lemma k_tuple i : simk same (tuple_f E i) (tuple_f E' i).
  Proof.
    set (f := fun F : N -> parser expr => map_ Tuple (b <- separated_list (char_ (C ",")) (delimited multispace0 (F i) multispace0) ;; char_ (C ")") ;;; ret b)).
    assert (J : forall F s, tuple_f F i s = bind (char_ (C "(")) (fun _ => f F) s).
    { intros F s. unfold tuple_f, f, map_, delimited, bind. destruct (char_ (C "(") s) as [r a| |]; try reflexivity. }
    eapply sim_ext; [apply J|apply J|]. apply k_round.
    - apply code_sim. unfold f. eapply sim_map with (RA := Forall2 same); [|intros l l' H; constructor; exact H]. sims; [apply HE|]. apply sim_ret. assumption.
    - intros x y s s' Hx Hs. rewrite <- !J. destruct (HB _ _ Hx) as [[H1 H2]|[H1 H2]].
      + eapply rel_phrase; [exact Hs|apply (H1 i s)|apply (H2 i s')|]. constructor. constructor; [|constructor].
        destruct x, y. eapply se_round, Hx.
      + eapply rel_phrase; [exact Hs|apply (H1 i s)|apply (H2 i s')|]. destruct x, y. eapply se_round, Hx.
  Qed.
  Hypothesis HA : forall x y, on_list K x y -> reads_list E x /\ reads_list E' y.
  Lemma k_list i : simk same (list_f E i) (list_f E' i).
  Proof.
    set (g := fun o : option (list expr) => List_ (match o with Some l => l | None => [] end)).
    set (f := fun F : N -> parser expr => map_ g (delimited (opt_sp i) (opt (separated_list (comma_sep i) (F i))) (terminated (opt_sp i) (char_ (C "]"))))).
    assert (J : forall F s, list_f F i s = bind (char_ (C "[")) (fun _ => f F) s).
    { intros F s. unfold list_f, f, map_, delimited, preceded, bind. fold g. destruct (char_ (C "[") s) as [r a| |]; try reflexivity. }
    eapply sim_ext; [apply J|apply J|]. apply k_square.
    - unfold f. eapply sim_map; [sims; apply HE|]. intros [l|] [l'|] H; try destruct H; constructor; auto.
    - intros t e t' e' s s' Ht Hs. destruct (HA _ _ Ht) as [H1 H2]. specialize (H1 i s). specialize (H2 i s'). cbn [fst snd] in *.
      rewrite J in H1, H2. unfold bind, char_ in H1, H2. rewrite N.eqb_refl in H1, H2.
      destruct H1 as [(w & ->)| ->]; [exact I|]. destruct H2 as [(w & ->)| ->]; [apply rel_abort|].
      split; [eapply se_replaced, Ht|]. split; [exact Hs|]. exists (C "[" :: t), (C "[" :: t'). split; [reflexivity|]. split; [reflexivity|]. split; discriminate.
  Qed.
  Lemma k_record_field i : simk field (record_field_f E i) (record_field_f E' i).
  Proof.
    assert (J : forall F s, record_field_f F i s = (n <- lo_name ;; opt_sp i ;;; char_ (C "=") ;;; opt_sp i ;;; e <- F i ;; ret (n, e)) s).
    { intros F s. unfold record_field_f, separated_pair, delimited, bind, ret. destruct (lo_name s) as [r n| |]; try reflexivity.
      destruct (opt_sp i r) as [r1 k| |]; try reflexivity. destruct (char_ (C "=") r1) as [r2 k2| |]; try reflexivity. destruct (opt_sp i r2); reflexivity. }
    eapply sim_ext; [apply J|apply J|]. sims; [apply HE|fin; auto|apply no_value; assumption|apply no_value; assumption].
  Qed.
  Lemma off_record i : sim_off same (record_f E i) (record_f E' i).
  Proof.
    unfold record_f. eapply off_map with (RA := Forall2 field); [|intros l l' H; constructor; exact H]. unfold delimited, preceded.
    assert (J : forall F s, inside s -> bind (opt_sp i) (fun _ => b <- separated_list (comma_sep i) (record_field_f F i) ;; terminated (opt_sp i) (char_ (C "}")) ;;; ret b) s = Err).
    { intros F s Hs. eapply bind_Err2; [apply inside_opt, inside_sp, Hs|]. eapply bind_Err2; [apply sep_empty, bind_Err1, inside_lo_name, Hs|].
      apply bind_Err1. eapply bind_Err2; [apply inside_opt, inside_sp, Hs|]. apply bind_Err1, inside_char; [exact Hs|discriminate]. }
    apply k_brace2; [|apply J|apply J]. sims; [apply k_record_field|]. apply sim_ret. assumption.
  Qed.
  Lemma k_update_field i : simk field (update_field_f E i) (update_field_f E' i).
  Proof. unfold update_field_f. sims; [apply HE|fin|apply no_value; assumption|apply no_value; assumption]. Qed.
  Lemma off_record_update i : sim_off same (record_update_f E i) (record_update_f E' i).
  Proof.
    unfold record_update_f, delimited at 1 3, preceded.
    assert (J : forall F s, inside s -> bind (opt_spaces_or_new_lines_and_indent i IR_GTE) (fun _ : N => 
      b <- (name <- lo_name ;; opt_spaces_or_new_lines_and_indent i IR_GTE ;;; char_ (C "|") ;;; multispace0 ;;;
       pairs <- separated_list (delimited (opt_spaces_or_new_lines_and_indent i IR_GTE) (char_ (C ",")) (opt_spaces_or_new_lines_and_indent i IR_GTE)) (update_field_f F i) ;;
       ret (RecordUpdate name pairs)) ;; terminated (spaces_or_new_lines_and_indent i IR_GTE) (char_ (C "}")) ;;; ret b) s = Err).
    { intros F s Hs. eapply bind_Err2; [unfold opt_spaces_or_new_lines_and_indent, map_; rewrite inside_opt by apply inside_sp, Hs; reflexivity|].
      apply bind_Err1, bind_Err1, inside_lo_name, Hs. }
    apply k_brace2; [|apply J|apply J]. eapply sim_bind; [leaf1|]. intros _ _ _.
    assert (J2 : forall F s, (b <- (name <- lo_name ;; opt_spaces_or_new_lines_and_indent i IR_GTE ;;; char_ (C "|") ;;; multispace0 ;;;
       pairs <- separated_list (delimited (opt_spaces_or_new_lines_and_indent i IR_GTE) (char_ (C ",")) (opt_spaces_or_new_lines_and_indent i IR_GTE)) (update_field_f F i) ;;
       ret (RecordUpdate name pairs)) ;; terminated (spaces_or_new_lines_and_indent i IR_GTE) (char_ (C "}")) ;;; ret b) s =
      (name <- lo_name ;; opt_spaces_or_new_lines_and_indent i IR_GTE ;;; char_ (C "|") ;;; multispace0 ;;;
       pairs <- separated_list (delimited (opt_spaces_or_new_lines_and_indent i IR_GTE) (char_ (C ",")) (opt_spaces_or_new_lines_and_indent i IR_GTE)) (update_field_f F i) ;;
       terminated (spaces_or_new_lines_and_indent i IR_GTE) (char_ (C "}")) ;;; ret (RecordUpdate name pairs)) s).
    { intros F s. unfold bind, ret. destruct (lo_name s) as [r n| |]; try reflexivity.
      destruct (opt_spaces_or_new_lines_and_indent i IR_GTE r) as [r1 k| |]; try reflexivity. destruct (char_ (C "|") r1) as [r2 k2| |]; try reflexivity.
      destruct (multispace0 r2) as [r3 k3| |]; try reflexivity. destruct (separated_list _ _ r3); reflexivity. }
    assert (J3 : forall F n t, mid (L "|") t -> no_ok (multispace0 ;;;
       pairs <- separated_list (delimited (opt_spaces_or_new_lines_and_indent i IR_GTE) (char_ (C ",")) (opt_spaces_or_new_lines_and_indent i IR_GTE)) (update_field_f F i) ;;
       terminated (spaces_or_new_lines_and_indent i IR_GTE) (char_ (C "}")) ;;; ret (RecordUpdate n pairs)) t).
    { intros F n t Ht. eapply no_bind2; [apply (mid_take0 _ t _ Ht); reflexivity|]. eapply no_bind2; [apply sep_empty, bind_Err1|nok].
      destruct Ht as (x & u & -> & Hx & _). eapply heads_Err; [apply heads_lo_name|apply ok_0; apply ok_lo_name|].
      assert (H : name0 x = false); [|exact H]. apply mem_char_In in Hx. assert (Hf : forallb (fun c => negb (name0 c)) op_chars = true) by reflexivity.
      rewrite forallb_forall in Hf. apply Hf, negb_true_iff in Hx. exact Hx. }
    eapply sim_ext; [apply J2|apply J2|]. eapply sim_bind; [leaf1|]. intros n n' <-. eapply sim_bind; [leaf1|]. intros _ _ _.
    apply k_char; [is_word| |apply J3|apply J3]. sims; [apply k_update_field|]. apply sim_ret. constructor. assumption.
  Qed.
  Hypothesis HD : forall x y, on_curly K x y -> curly_both E E' x y.
  Lemma k_values i : simk same (record_update_f E i <|> record_f E i) (record_update_f E' i <|> record_f E' i).
  Proof.
    apply k_curly; [apply off_alt; [apply off_record_update|apply off_record]|]. intros x y s s' Hx Hs. destruct (HD _ _ Hx) as [[H1 H2]|[H1 H2]].
    - eapply rel_curly; [exact Hs|apply (H1 i s)|apply (H2 i s')|apply curly_same, Hx].
    - apply rel_failing; [apply (H1 i s)|apply (H2 i s')].
  Qed.
  Lemma k_parens i : simk same (parens_f E i) (parens_f E' i).
  Proof.
    unfold parens_f, delimited. apply k_round.
    - apply code_sim. sims; [apply HE|]. apply sim_ret. assumption.
    - intros x y s s' Hx Hs. destruct (HB _ _ Hx) as [[H1 H2]|[H1 H2]].
      + eapply rel_phrase; [exact Hs|apply (H1 i s)|apply (H2 i s')|]. destruct x, y. eapply se_round, Hx.
      + apply rel_failing; [apply (H1 i s)|apply (H2 i s')].
  Qed.
  Lemma k_term i : simk same (term_f E i) (term_f E' i).
  Proof.
    unfold term_f.
    apply sim_alt; [apply k_access|]. apply sim_alt; [apply k_variable|]. apply sim_alt; [apply k_access_function|].
    apply sim_alt; [apply l_string, HK|]. apply sim_alt; [apply l_float, HK|]. apply sim_alt; [apply l_integer, HK|].
    apply sim_alt; [apply l_character, HK|]. apply sim_alt; [apply k_parens|].
    apply sim_alt; [apply k_list|]. apply sim_alt; [apply k_tuple|].
    eapply sim_ext; [apply alt_assoc|apply alt_assoc|]. apply sim_alt; [apply k_values|]. apply k_simplified_record.
  Qed.
  Lemma k_lambda i : simk same (lambda_f E i) (lambda_f E' i).
  Proof. unfold lambda_f. eapply sim_bind; [apply k_backslash|]. intros _ _ _. sims; [apply k_term|subst; apply HE|]. fin. Qed.
  Lemma k_application i : simk same (application_or_var_f E i) (application_or_var_f E' i).
  Proof. unfold application_or_var_f. eapply sim_map_res; [sims; apply k_term|]. apply application_same. Qed.
  Definition def_like (d d' : func_def) : Prop :=
    match d, d' with mkDef n l e, mkDef n' l' e' => same_name K n n' /\ Forall2 same l l' /\ same e e' end.
  Lemma k_definition i : simk def_like (function_definition_f E i) (function_definition_f E' i).
  Proof.
    unfold function_definition_f. eapply sim_bind; [apply k_binding_name|]. intros n n' Hn.
    sims; [apply k_term|subst; apply HE|]. apply sim_ret. cbn. auto.
  Qed.
  Lemma k_function_f i : simk (same_func K) (function_f E i) (function_f E' i).
  Proof.
    unfold function_f. eapply sim_bind; [apply sim_opt; eapply sim_terminated; [apply k_signature|apply k_nl]|]. intros g g' Hg.
    eapply sim_bind; [apply k_definition|]. intros [n l e] [n' l' e'] (Hn & Hl & He). apply sim_ret. constructor; assumption.
  Qed.
  Lemma k_target i : simk same (let_binding_target_f E i) (let_binding_target_f E' i).
  Proof.
    unfold let_binding_target_f. apply sim_alt; [apply k_variable|]. apply sim_alt; [apply k_list|].
    apply sim_alt; [apply k_tuple|]. apply k_simplified_record.
  Qed.
  Lemma k_let_binding i : simk (same_entry K) (let_binding_f E i) (let_binding_f E' i).
  Proof.
    unfold let_binding_f. eapply sim_bind; [apply k_target|]. intros b b' Hb. sims; [subst; apply HE|]. fin.
  Qed.
  Lemma k_let_bindings i : simk (Forall2 (same_entry K)) (let_bindings_f E i) (let_bindings_f E' i).
  Proof.
    unfold let_bindings_f. sims; [apply k_let_binding|].
    eapply sim_map; [apply k_function_f|]. intros h h' H. constructor. exact H.
  Qed.
  Lemma k_let i : simk same (let_expression_f E i) (let_expression_f E' i).
  Proof. unfold let_expression_f. sims; subst; try apply k_let_bindings; sims; try apply HE. fin. Qed.
  Lemma k_case i : simk branch (case_f E i) (case_f E' i).
  Proof. unfold case_f. eapply sim_bind; [apply HE|]. intros b b' Hb. sims; [subst; apply HE|]. fin. Qed.
  Lemma k_cases i : simk (Forall2 branch) (cases_f E i) (cases_f E' i).
  Proof. unfold cases_f. sims. apply k_case. Qed.
  Lemma k_case_expression i : simk same (case_expression_f E i) (case_expression_f E' i).
  Proof. unfold case_expression_f. sims; try apply HE; sims; subst; try apply k_cases. fin. Qed.
  Lemma k_if i : simk same (if_expression_f E i) (if_expression_f E' i).
  Proof. unfold if_expression_f. do 3 (sims; subst; try apply HE). fin. Qed.
  Definition op_like (x y : expr * expr) : Prop := same (fst x) (fst y) /\ same (snd x) (snd y).
  Lemma k_operator_exp i : simk op_like (operator_exp_f E i) (operator_exp_f E' i).
  Proof.
    unfold operator_exp_f. eapply bind_code; [apply k_sp|intros s s' r a; apply sp_code|]. intros _ _ _.
    eapply code_bind with (R := same).
    - unfold operator_or_as. eapply code_map; [apply code_alt; [apply code_sim, same_refl; [apply name_refl|qs]|apply code_operator]|].
      intros a a' [<-|Ha]; [constructor|apply se_operator, Ha].
    - intros a a' Ha. sims; [subst; apply HE|]. apply sim_ret. split; assumption.
  Qed.
  Lemma k_binary i : simk same (binary_f E i) (binary_f E' i).
  Proof.
    unfold binary_f. eapply sim_bind; [apply k_application|]. intros a a' Ha. eapply sim_bind; [apply sim_opt, k_operator_exp|].
    intros [[o e]|] [[o' e']|] Ho; try destruct Ho.
    - cbn in *. fin.
    - apply sim_ret. exact Ha.
  Qed.
  Lemma k_expression_f i : simk same (expression_f E i) (expression_f E' i).
  Proof.
    unfold expression_f. apply sim_alt; [apply k_binary|]. apply sim_alt; [apply k_let|].
    apply sim_alt; [apply k_case_expression|]. apply sim_alt; [apply k_if|]. apply k_lambda.
  Qed.
End Expressions.
Lemma heads_expression_n n i : heads ex0 (expression_n n i).
Proof. destruct n; [discriminate|]. apply heads_expression_f. Qed.
Lemma heads_expression i : heads ex0 (expression i).
Proof. intros s r a H. exact (heads_expression_n _ _ _ _ _ H). Qed.
Lemma k_expression_n n : forall n' i, simk same (expression_n n i) (expression_n n' i).
Proof.
  induction n as [|n IH]; intros [|n'] i s s' Hs; try exact I; [apply rel_abort|].
  cbn [expression_n]. apply k_expression_f; auto; try apply heads_expression_n.
  { intros x y Hx. destruct (HR _ _ Hx) as (_ & _ & _ & H). auto. }
  { intros x y Hx. destruct (HL _ _ Hx) as [[_ H1] [_ H2]]. auto. }
  intros x y Hx. destruct (HC _ _ Hx) as (_ & _ & _ & H). auto.
Qed.
Lemma k_expression i : simk same (expression i) (expression i).
Proof. intros s s' Hs. apply k_expression_n; assumption. Qed.
Lemma k_function i : simk (same_func K) (function i) (function i).
Proof.
  apply k_function_f; [apply k_expression|apply heads_expression|apply heads_expression| | |].
  { intros x y Hx. destruct (HR _ _ Hx) as (_ & _ & H & _). exact H. }
  { intros x y Hx. destruct (HL _ _ Hx) as [[H1 _] [H2 _]]. auto. }
  intros x y Hx. destruct (HC _ _ Hx) as (_ & _ & H & _). exact H.
Qed.

(** ** Statements and files *)
Notation sst := (same_stmt K).
Notation sx := (same_export K).
Lemma all_reads : reads_word all_export (L "..") AllExport.
Proof. intros s. unfold all_export, map_. rewrite (tag_reads (L "..") s). destruct (strip (L "..") s); reflexivity. Qed.
Lemma q_constructor_exports : simk eq constructor_exports constructor_exports.
Proof.
  unfold constructor_exports. apply q_opt. unfold delimited. apply k_round.
  2:{ intros x y s s' Hx _. destruct (HR _ _ Hx) as ((_ & _ & H1) & (_ & _ & H2) & _). destruct (H1 s) as (_ & _ & H3). destruct (H2 s') as (_ & _ & H4).
      apply rel_failing; assumption. }
  apply code_sim. eapply (k_alt_sym eq eq _ (L "..") AllExport); [apply all_reads|is_word|reflexivity| | | |].
  - unfold constructor_subset_exports. qs.
  - intros a a' <-. qs.
  - intros t Ht. nok.
  - intros t Ht. apply (op_no_heads is_upper); [exact Ht| |reflexivity]. apply heads_map, heads_sep, heads_map, heads_up_name.
Qed.
Lemma k_export : simk sx (function_export <|> type_export) (function_export <|> type_export).
Proof.
  apply sim_alt.
  - unfold function_export, function_name. eapply sim_map with (RA := same_name K); [|intros a a' Ha; constructor; exact Ha].
    apply sim_alt; [apply same_refl; [apply name_refl|qs]|apply k_paren_operator].
  - unfold type_export. eapply sim_bind; [leaf1|]. intros n n' <-. eapply sim_bind; [apply q_constructor_exports|]. intros c c' <-. apply sim_ret. constructor.
Qed.
Definition export0 (c : char) : bool := name0 c || is_upper c || (c =? C "(")%N.
Lemma heads_subset : heads export0 subset_export.
Proof.
  unfold subset_export, function_export, type_export, function_name, export0.
  apply heads_map, heads_sep, heads_alt; [apply heads_map, heads_alt; [|apply heads_bind]|apply heads_bind].
  - apply heads_map. eapply heads_weaken; [|apply heads_lo_name]. intros c ->. reflexivity.
  - eapply heads_weaken; [|apply heads_char]. intros c ->. apply orb_true_r.
  - eapply heads_weaken; [|apply heads_up_name]. intros c ->. destruct (name0 c); reflexivity.
Qed.
Lemma k_exports : simk sx exports exports.
Proof.
  unfold exports, delimited, preceded. apply k_round2.
  2:{ intros x y s s' Hx _. destruct (HR _ _ Hx) as ((_ & _ & H1) & (_ & _ & H2) & _). destruct (H1 s) as (_ & H3 & _). destruct (H2 s') as (_ & H4 & _).
      apply rel_failing; assumption. }
  eapply sim_bind; [qs|]. intros _ _ _.
  eapply (k_alt_sym sx sx _ (L "..") AllExport); [apply all_reads|is_word|constructor| | | |].
  - unfold subset_export. eapply sim_map with (RA := Forall2 sx); [|intros l l' H; constructor; exact H].
    eapply sim_separated_nonempty; [qs|apply k_export].
  - intros a a' Ha. eapply sim_bind; [qs|]. intros _ _ _. apply sim_ret, Ha.
  - intros t Ht. nok.
  - intros t Ht. apply (op_no_heads export0); [exact Ht|apply heads_subset|reflexivity].
Qed.
Lemma q_module_name : simk eq module_name module_name.
Proof. unfold module_name. qs. Qed.
Lemma q_effect_fields : simk eq (delimited (char_ (C "{")) (separated_list (tag (L ", ")) effect_field) (char_ (C "}")))
  (delimited (char_ (C "{")) (separated_list (tag (L ", ")) effect_field) (char_ (C "}"))).
Proof.
  apply k_curly; [|intros x y s s' Hx _; destruct (HC _ _ Hx) as ((_ & _ & H1) & (_ & _ & H2) & _); apply rel_failing; [apply H1|apply H2]].
  unfold delimited.
  assert (J : forall s, inside s -> bind (separated_list (tag (L ", ")) effect_field) (fun b => char_ (C "}") ;;; ret b) s = Err).
  { intros s Hs. eapply bind_Err2; [apply sep_empty|apply bind_Err1, inside_char; [exact Hs|discriminate]].
    unfold effect_field. apply bind_Err1, inside_lo_name, Hs. }
  apply k_brace; [|exact J|exact J]. unfold effect_field. qs.
Qed.
Ltac st1 :=
  cbv beta; first [sym|eapply sim_bind; [first [apply q_module_name|apply q_effect_fields|apply q_type|apply q_type_annotation|solve [qs; try apply q_type; try apply q_type_constructor]]|intros ? ? <-]].
Ltac st := repeat st1; apply sim_ret; constructor.
Ltac ste := repeat st1; eapply sim_bind; [apply k_exports|]; intros ? ? ?; apply sim_ret; constructor; assumption.
Lemma k_port_module : simk sst port_module_declaration port_module_declaration.
Proof. unfold port_module_declaration. ste. Qed.
Lemma k_effect_module : simk sst effect_module_declaration effect_module_declaration.
Proof. unfold effect_module_declaration. ste. Qed.
Lemma k_module : simk sst module_declaration module_declaration.
Proof. unfold module_declaration. ste. Qed.
Lemma k_import : simk sst import_statement import_statement.
Proof.
  unfold import_statement. do 4 st1. eapply sim_bind; [apply sim_opt; eapply sim_preceded; [qs|apply k_exports]|]. intros e e' He.
  apply sim_ret. constructor. exact He.
Qed.
Lemma k_alias : simk sst type_alias_declaration type_alias_declaration.
Proof. unfold type_alias_declaration. st. Qed.
Lemma k_type_declaration i : simk sst (type_declaration i) (type_declaration i).
Proof. unfold type_declaration. st. Qed.
Lemma k_port_type : simk sst port_type_declaration port_type_declaration.
Proof. unfold port_type_declaration. st. Qed.
Lemma k_port : simk sst port_declaration port_declaration.
Proof. unfold port_declaration. sims; [subst; apply k_expression|]. 
 match goal with H : Forall2 eq _ _ |- _ => apply Forall2_is_eq in H end. fin. Qed.

Lemma k_eof : simk any eof eof.
Proof.
  intros s s' Hs. pose proof (X_head _ _ _ Hs) as Hh. unfold eof. destruct s, s'; try destruct Hh; try exact I.
  split; [exact I|]. split; [exact Hs|]. exists [], []. tauto.
Qed.
End All.

(** *** the declaration of an operator: its number stays *)
Lemma lead_mark c : lead c = true -> is_dec c = false -> mark c = false.
Proof.
  unfold lead. intros H Hd. rewrite Hd, orb_false_r in H. apply orb_true_iff in H as [H|H]; [apply orb_true_iff in H as [H|H]|]; apply N.eqb_eq in H; subst; reflexivity.
Qed.
Lemma x_lead K n : forall w b r r', length w <= n -> forallb lead w = true -> relit K b (w ++ space :: r) (w ++ space :: r') -> X K r r'.
Proof.
  induction n as [|n IH]; intros w b r r' Hn Hw H.
  - destruct w; [|cbn in Hn; lia]. apply rl_one in H as (s2 & E & H & _); [|reflexivity]. injection E as ->. eexists; exact H.
  - destruct w as [|c w]; [apply rl_one in H as (s2 & E & H & _); [|reflexivity]; injection E as ->; eexists; exact H|].
    cbn in Hn. pose proof Hw as Hcw. apply andb_true_iff in Hw as [Hc Hw]. destruct (is_dec c) eqn:Hd.
    2:{ cbn [app] in H. apply rl_one in H as (s2 & E & H & _); [|apply lead_mark; assumption]. injection E as <-. eapply (IH w); [lia|exact Hw|exact H]. }
    assert (Hbb : b = after_name \/ b <> after_name) by (destruct b; [left|right|right]; congruence). destruct Hbb as [->|Hbb].
    + cbn [app] in H. assert (Hcn : forallb is_name_char [c] = true) by (apply dec_name; cbn; rewrite Hd; reflexivity).
      apply (rl_name K [c]) in H as (s2 & E & H); [|exact Hcn]. injection E as <-. eapply (IH w); [lia|exact Hw|exact H].
    + destruct (span is_dec (c :: w)) as [p q] eqn:Es. apply span_longest in Es as (Es & Hp & Hq).
      assert (Hl : length q <= n). { destruct p as [|y p]; [cbn in Es; subst q; cbn in Hq; congruence|]. apply (f_equal (@length N)) in Es. rewrite app_length in Es. cbn in Es. lia. }
      assert (Hlq : forallb lead q = true) by (rewrite Es, forallb_app in Hcw; apply andb_true_iff in Hcw as [_ Hcw]; exact Hcw).
      assert (He : forall u, ends is_dec (q ++ space :: u)) by (intros u; destruct q; [reflexivity|exact Hq]).
      rewrite Es in H. rewrite <- !app_assoc in H. 
      assert (Hpne : p <> []) by (intros ->; cbn in Es; subst q; cbn in Hq; congruence).
      remember (p ++ q ++ space :: r) as x eqn:E in H. remember (p ++ q ++ space :: r') as x' eqn:E' in H.
      assert (Hx : exists y p', p = y :: p' /\ is_dec y = true) by (apply digits_head; split; assumption). destruct Hx as (y & p' & Ep & Hy).
      destruct H as [b|b d d' s1 s1'|b d d' s1 s1'|b t t' d d' s1 s1' H1|b t t' d d' s1 s1' H1|b d d' s1 s1' H1 H2 H3 H4 H5 H6 H|b o o' s1 s1' H1|bL tL tL' eL eL' sL sL' Hl1 Hl2|bR tR tR' eR eR' sR sR' Hr1 Hr2|bR tR tR' eR eR' sR sR' Hr1 Hr2|b d s1 s1' H1 H2 H3].
      * subst p. discriminate E.
      * subst p. injection E as <- _. discriminate Hy.
      * subst p. injection E as <- _. discriminate Hy.
      * destruct H1; subst p; injection E as <- _; discriminate Hy.
      * destruct H1; subst p; injection E as <- _; discriminate Hy.
      * apply digits_unique in E as [-> ->]; [|apply H1|exact Hp|exact H3|apply He]. apply digits_unique in E' as [-> ->]; [|apply H2|exact Hp|exact H4|apply He].
        eapply (IH q); [exact Hl|exact Hlq|exact H].
      * destruct (op_head _ _ H1) as (z & t & -> & Hz & _). subst p. injection E as -> _. apply dec_not_op in Hy. congruence.
      * subst p. injection E as <- _. discriminate Hy.
      * subst p. injection E as <- _. discriminate Hy.
      * subst p. injection E as <- _. discriminate Hy.
      * subst p. injection E as -> _. specialize (H3 Hy). congruence.
Qed.
Lemma lead_spaces b : all_spaces b = true -> forallb lead b = true.
Proof.
  unfold all_spaces. rewrite !forallb_forall. intros H c Hc. apply H in Hc. unfold lead. rewrite Hc. reflexivity.
Qed.
Lemma lead_digits d : forallb is_dec d = true -> forallb lead d = true.
Proof.
  rewrite !forallb_forall. intros H c Hc. apply H in Hc. unfold lead. rewrite Hc. destruct (c =? space)%N; reflexivity.
Qed.
Lemma infix_word_split a w : infix_word a w -> exists v, w = L "infix" ++ v /\ forallb lead v = true.
Proof. intros H. destruct H; [exists (L "l")|exists (L "r")|exists []]; auto. Qed.
Lemma spaces_last b : spaces1 b -> exists b0, b = b0 ++ [space] /\ forallb lead b0 = true.
Proof.
  intros [Hne Hb]. destruct (exists_last Hne) as (b0 & c & ->). apply lead_spaces in Hb as Hl. rewrite forallb_app in Hl. apply andb_true_iff in Hl as [Hl _].
  unfold all_spaces in Hb. rewrite forallb_app in Hb. apply andb_true_iff in Hb as [_ Hb]. cbn in Hb. rewrite andb_true_r in Hb. apply N.eqb_eq in Hb. subst c. eauto.
Qed.
Lemma l_infix : forall K, digits_refl K -> sim (X K) (same_stmt K) infix_declaration infix_declaration.
Proof.
  apply (fw_sim (fun K => same_stmt K)). intros K HK s s' r st Hs H.
  apply infix_declaration_iff in H as (a & w & b & d & b' & n & -> & -> & Hw & Hb & Hd & Hb' & Hv & Hn).
  destruct (infix_word_split _ _ Hw) as (v & -> & Hl). destruct (spaces_last _ Hb') as (b0 & -> & Hb0).
  set (V := v ++ b ++ d ++ b0) in *.
  assert (HV : forallb lead V = true).
  { unfold V. rewrite !forallb_app, Hl, (lead_spaces b), (lead_digits d), Hb0; [reflexivity|apply Hd|apply Hb]. }
  assert (HV2 : forallb lead (V ++ [space]) = true) by (rewrite forallb_app, HV; reflexivity).
  assert (E : forall z, (L "infix" ++ v) ++ b ++ d ++ (b0 ++ [space]) ++ z = L "infix" ++ (V ++ [space]) ++ z).
  { intros z. unfold V. rewrite <- !app_assoc. reflexivity. }
  rewrite E in Hs. destruct Hs as [bb Hs]. pose proof Hs as Hs1. apply (rl_one K bb (C "i")) in Hs1 as (s2 & -> & Hs2 & (_ & _ & _ & _ & _ & Hq) & _ & Hk); [|reflexivity].
  specialize (Hq _ eq_refl). destruct (proj1 (Hk (V ++ [space]) HV2)) as (r2 & E2); [eexists; reflexivity|].
  assert (Hnd : ~ dashes (n ++ r)).
  { intros (z & Ez). rewrite Ez in Hq. enough (Hx : forallb lead (V ++ [space]) = false) by congruence. apply (Hq _ z). reflexivity. }
  injection E2 as ->.
  assert (Hx : X K (n ++ r) r2).
  { assert (Hs3 : X K (L "nfix" ++ (V ++ [space]) ++ n ++ r) (L "nfix" ++ (V ++ [space]) ++ r2)) by (eexists; exact Hs2).
    apply x_word in Hs3 as (r3 & E3 & [b3 Hs3]); [|reflexivity]. apply app_inv_head in E3. subst r3. rewrite <- !app_assoc in Hs3. eapply x_lead; [apply le_n|exact HV|exact Hs3]. }
  assert (Hn2 : exists n' r', r2 = n' ++ r' /\ X K r r' /\ same_name K n n' /\
    ((lower_name n' /\ (n' = L "_" \/ ends is_name_char r')) \/ (operator_name n' /\ ends is_op_char r'))).
  { destruct Hn as [[Hn He]|[Hn He]].
    - assert (Hy : exists r', r2 = n ++ r' /\ relit K after_name r r').
      { destruct Hn as [->|[(c & t & -> & Hc & Ht) _]].
        - destruct Hx as [b3 Hx]. apply (rl_one K b3 (C "_")) in Hx as (s2 & -> & H & _); [|reflexivity]. exists s2. auto.
        - destruct (lower_first c Hc) as [H1 H2]. apply (x_name K c t) in Hx as (r' & -> & H); [exists r'; auto|assumption..]. }
      destruct Hy as (r' & -> & Hr). exists n, r'. split; [reflexivity|]. split; [eexists; exact Hr|]. split; [left; reflexivity|]. left. split; [exact Hn|].
      apply rl_head_true in Hr. destruct He as [->|He]; [left; reflexivity|right]. eapply eq_ends; [apply uniform_op_check; reflexivity|exact Hr|exact He].
    - apply x_ops in Hx as [(r' & -> & Hr)|(o & o' & q & q' & Eo & -> & H1 & H2 & Ho & Hr)]; [| |apply Hn|apply Hn|exact Hnd].
      + exists n, r'. split; [reflexivity|]. split; [exact Hr|]. split; [left; reflexivity|]. right. split; [exact Hn|]. apply X_head in Hr.
        eapply heads_ends; [apply uniform_check; reflexivity|exact Hr|exact He].
      + destruct (run_unique _ _ _ _ Eo (proj1 (proj2 Hn)) He H1) as [<- <-]. exists o', q'. split; [reflexivity|]. split; [exact Hr|].
        split; [right; exact Ho|]. right. split; apply H2. }
  destruct Hn2 as (n' & r' & -> & Hr & Hsn & Hg).
  exists r', (InfixDeclaration a (dec_value d) n'), (L "infix" ++ (V ++ [space]) ++ n), (L "infix" ++ (V ++ [space]) ++ n').
  split; [|split; [constructor; exact Hsn|split; [exact Hr|rewrite E, <- !app_assoc; split; [reflexivity|]; split; [reflexivity|]; split; discriminate]]].
  apply infix_declaration_iff. exists a, (L "infix" ++ v), b, d, (b0 ++ [space]), n'. split; [reflexivity|]. split; [rewrite E; reflexivity|].
  repeat (split; [assumption|]). exact Hg.
Qed.

Lemma k_statement K : digits_refl K -> lists_alone K -> rounds_alone K -> curlies_alone K -> sim (X K) (same_stmt K) statement statement.
Proof.
  intros HK HL HR HC. unfold statement. apply sim_alt; [apply k_port_module; assumption|]. apply sim_alt; [apply k_effect_module; assumption|]. apply sim_alt; [apply k_module; assumption|].
  apply sim_alt; [apply k_import; assumption|]. apply sim_alt; [apply k_alias; assumption|]. apply sim_alt; [apply k_type_declaration; assumption|].
  apply sim_alt; [apply k_port_type; assumption|]. apply sim_alt; [apply k_port; assumption|].
  apply sim_alt; [eapply sim_map; [apply k_function; assumption|]; intros f f' Hf; constructor; exact Hf|].
  apply sim_alt; [apply l_infix, HK|]. unfold comment. apply sim_alt; [|apply l_block, HK].
  unfold single_line_comment_stmt. eapply sim_map; [apply l_comment, HK|]. intros a a' Ha. constructor. exact Ha.
Qed.
Lemma k_file K : digits_refl K -> lists_alone K -> rounds_alone K -> curlies_alone K -> sim (X K) (Forall2 (same_stmt K)) file file.
Proof.
  intros HK HL HR HC. assert (J : sim (X K) eq multispace0 multispace0) by (apply l_take0; [reflexivity|exact HK]).
  unfold file, statements. eapply sim_terminated; [|apply k_eof]. eapply sim_delimited; [exact J| |exact J].
  eapply sim_separated_nonempty; [exact J|apply k_statement; assumption].
Qed.
