(** * Functions and their signatures, exactly *)
From Verif Require Import Base Nom Regex Ast Good Spec Helpers Types Expr Stmt Lexers Total
  Layout Seqs Grammar Follow Sound SoundE SoundS LexProps Heads Rules Render CompleteT CompleteE
  CompleteX CompleteS Round Language Chains Exact Keywords.

Lemma name_iff s r n : binding_name s = Ok r n <-> RName n s r.
Proof.
  split; [|apply complete_name]. unfold binding_name. rewrite alt_Ok. intros [H|[_ H]].
  - apply lo_name_iff in H as (-> & Hn & Hr). constructor; assumption.
  - apply delimited_Ok in H as (s1 & x & s2 & y & H1 & H2 & H3). apply char_Ok in H1 as [-> _].
    apply char_Ok in H3 as [-> _]. apply operator_iff in H2 as (-> & Ho & _). apply RName_operator, Ho.
Qed.
Lemma ann_eats i : eats (type_annotation i).
Proof. apply ok_eats. intros n. apply ok_type_annotation. Qed.
Lemma ann_nil i r t : type_annotation i [] <> Ok r t.
Proof. intros H. apply ann_eats in H. cbn in H. lia. Qed.
Lemma ann_no_trivia i s r t : type_annotation i s = Ok r t -> no_trivia s.
Proof.
  intros Ha. unfold type_annotation, type_annotation_f in Ha. apply map_res_Ok in Ha as (l & Ha & _).
  apply separated_nonempty_list_Ok in Ha as (x & l' & s1 & _ & Hx & _). eapply type_no_trivia, Hx.
Qed.
Lemma sp_gt_inv i s r n : sp i IR_GT s = Ok r n -> (exists t, s = t ++ r /\ lay_gt i t n) \/ r = [].
Proof. intros H. apply sp_lay in H as [(t & -> & H)|H]; [left; exists t; auto|auto]. Qed.

(** A signature: a name, a colon, a type in a column beyond [i]. *)
Theorem signature_iff i s r sg : function_signature i s = Ok r sg <->
  exists n b t j s' ty, RName n s (b ++ L ":" ++ t ++ s') /\ spaces1 b /\ lay_gt i t j /\
    type_annotation j s' = Ok r ty /\ sg = mkSig n ty.
Proof.
  unfold function_signature. split.
  - intros H. apply bind_Ok in H as (s1 & n & Hn & H). apply name_iff in Hn.
    apply bind_Ok in H as (s2 & b & Hb & H). apply sound_spaces in Hb as (w & -> & -> & Hb).
    apply bind_Ok in H as (s3 & x & Hx & H). apply char_Ok in Hx as [-> _].
    apply bind_Ok in H as (s4 & j & Hj & H). apply bind_Ok in H as (s5 & ty & Ht & H). apply ret_Ok in H as [-> ->].
    apply sp_gt_inv in Hj as [(t & -> & Hj)| ->]; [|destruct (ann_nil _ _ _ Ht)].
    do 6 eexists. split; [exact Hn|]. exs.
  - intros (n & b & t & j & s' & ty & Hn & Hb & Ht & Hty & ->).
    eapply bind_intro; [apply complete_name, Hn|].
    eapply bind_intro; [apply spaces_intro; [exact Hb|reflexivity]|].
    eapply bind_intro; [apply char_intro|].
    eapply bind_intro; [apply sp_gt; [exact Ht|eapply ann_no_trivia, Hty]|].
    eapply bind_intro; [exact Hty|reflexivity].
Qed.

(** A definition: a name, terms separated by spaces, an equals sign, a body in a
    column beyond [i]. *)
Lemma items_args i s l r : items spaces1 (next_argument i) s l r -> args_at i l s r.
Proof.
  induction 1 as [r|t s x s' l r Ht Hx _ IH]; [apply args_nil|]. eapply args_cons; [exact Ht|exact Hx|exact IH].
Qed.
Theorem definition_iff i s r d : function_definition i s = Ok r d <->
  exists n s1 args b t j s' e, RName n s s1 /\
    items spaces1 (next_argument i) s1 args (b ++ L "=" ++ t ++ s') /\ spaces1 b /\ lay_gt i t j /\
    expression j s' = Ok r e /\ d = mkDef n args e.
Proof.
  split.
  - intros H. unfold function_definition, function_definition_f in H.
    apply bind_Ok in H as (s1 & n & Hn & H). apply name_iff in Hn.
    apply bind_Ok in H as (s2 & args & Ha & H). apply many0_Ok in Ha.
    apply bind_Ok in H as (s3 & b & Hb & H). apply sound_spaces in Hb as (w & -> & -> & Hb).
    apply bind_Ok in H as (s4 & x & Hx & H). apply char_Ok in Hx as [-> _].
    apply bind_Ok in H as (s5 & j & Hj & H). apply bind_Ok in H as (s6 & e & He & H). apply ret_Ok in H as [-> ->].
    apply sp_gt_inv in Hj as [(t & -> & Hj)| ->]; [|exfalso; eapply expression_nil, He].
    assert (Hgen : forall u l v, manys (preceded spaces (term i)) u l v -> items spaces1 (next_argument i) u l v).
    { induction 1 as [u _|u u2 a l v Hp _ _ IH]; [constructor|].
      apply preceded_Ok in Hp as (u3 & y & Hy & Hp). apply sound_spaces in Hy as (w' & -> & -> & Hw).
      econstructor; [exact Hw|exact Hp|exact IH]. }
    apply Hgen in Ha. do 8 eexists. split; [exact Hn|]. split; [exact Ha|]. exs.
  - intros (n & s1 & args & b & t & j & s' & e & Hn & Ha & Hb & Ht & He & ->).
    apply items_args in Ha. exact (proj1 (df_intro _ _ _ _ _ _ _ _ _ _ _ Hn Ha Hb Ht He)).
Qed.
Lemma definition_no_signature i s r d : function_definition i s = Ok r d ->
  function_signature i s = Err /\ ends is_sp_char s.
Proof.
  intros H. apply definition_iff in H as (n & s1 & args & b & t & j & s' & e & Hn & Ha & Hb & Ht & He & ->).
  apply items_args in Ha. destruct (df_intro _ _ _ _ _ _ _ _ _ _ _ Hn Ha Hb Ht He) as (_ & H1 & _ & H2). auto.
Qed.
(** A function: a definition, or a signature and, at the beginning of the very
    next line in column [i], a definition. *)
Theorem function_iff i s r f : function i s = Ok r f <->
  (exists d, function_definition i s = Ok r d /\ f = mkFunc None d) \/
  (exists sg b s' d, function_signature i s = Ok ([newline] ++ b ++ s') sg /\ all_spaces b = true /\
    (N.of_nat (length b) mod 2 ^ 32 = i)%N /\ function_definition i s' = Ok r d /\ f = mkFunc (Some sg) d).
Proof.
  unfold function, function_f. split.
  - intros H. apply bind_Ok in H as (s1 & o & Ho & H). apply bind_Ok in H as (s2 & d & Hd & H). apply ret_Ok in H as [-> ->].
    apply opt_Ok in Ho as [(sg & Ho & ->)|(_ & -> & ->)]; [right|left; eauto].
    apply terminated_Ok in Ho as (s3 & x & H1 & H2). apply sound_new_line_and_same_indent in H2 as (w & -> & b & -> & Hb & Hi).
    exists sg, b, s1, d. rewrite <- app_assoc in H1. auto.
  - intros [(d & Hd & ->)|(sg & b & s' & d & Hs & Hb & Hi & Hd & ->)].
    + destruct (definition_no_signature _ _ _ _ Hd) as [Hs _].
      eapply bind_intro; [apply opt_None; unfold terminated; apply bind_Err1, Hs|].
      eapply bind_intro; [exact Hd|reflexivity].
    + destruct (definition_no_signature _ _ _ _ Hd) as [_ He].
      eapply bind_intro; [apply opt_Some|].
      { eapply terminated_intro; [exact Hs|apply nl_intro; assumption]. }
      eapply bind_intro; [exact Hd|reflexivity].
Qed.

(** ** As statements *)

Lemma named_statement n s b y : RName n s (b ++ y) -> spaces1 b -> after_name y ->
  statement s = (map_ Function_ (function 0) <|> infix_declaration <|> comment) s.
Proof.
  intros Hn Hb Hy. remember (b ++ y) as s1 eqn:E1.
  assert (Hgo : forall (p q : parser statement_ast) s0, p s0 = Err -> (p <|> q) s0 = q s0).
  { intros p q s0 E. unfold alt. rewrite E. reflexivity. }
  destruct Hn as [n r1 Hn Hr1|o r1 Ho].
  - subst r1. assert (Hl : longest is_name_char n (n ++ b ++ y) (b ++ y)).
    { apply lower_longest; [exact Hn|apply ends_spaces1; [exact Hb|reflexivity]]. }
    assert (Hres : forall w, In w reserved_words -> n <> w) by (intros; apply lower_not_reserved; assumption).
    unfold statement.
    rewrite Hgo by (eapply keyword_sp; [exact Hl|reflexivity|apply Hres; simpl; auto 25]).
    rewrite Hgo by (eapply effect_Err; [exact Hn|reflexivity|exact Hb|exact Hy]).
    rewrite Hgo by (eapply keyword_sp; [exact Hl|reflexivity|apply Hres; simpl; auto 25]).
    rewrite Hgo by (eapply keyword_spaces; [exact Hl|reflexivity|apply Hres; simpl; auto 25]).
    rewrite Hgo by (eapply keyword_spaces; [exact Hl|reflexivity|apply Hres; simpl; auto 25]).
    rewrite Hgo by (eapply keyword_spaces; [exact Hl|reflexivity|apply Hres; simpl; auto 25]).
    rewrite Hgo by (eapply keyword_spaces; [exact Hl|reflexivity|apply Hres; simpl; auto 25]).
    rewrite Hgo by (eapply keyword_spaces; [exact Hl|reflexivity|apply Hres; simpl; auto 25]).
    reflexivity.
  - unfold statement. do 8 (rewrite Hgo by reflexivity). reflexivity.
Qed.
Lemma items_after i s l b y : items spaces1 (next_argument i) s l (b ++ L "=" ++ y) -> i = 0%N -> spaces1 b ->
  exists b' y', s = b' ++ y' /\ spaces1 b' /\ after_name y'.
Proof.
  intros H -> Hb. inversion H as [r|t s0 x s' l0 r Ht Hx _]; subst.
  - exists b, (L "=" ++ y). split; [reflexivity|]. split; [exact Hb|]. left. exists (C "="), y. auto.
  - exists t, s0. split; [reflexivity|]. split; [exact Ht|]. right. do 2 eexists. exact Hx.
Qed.
Lemma function_shape s r f : function 0 s = Ok r f ->
  exists n b y, RName n s (b ++ y) /\ spaces1 b /\ after_name y.
Proof.
  intros H. apply function_iff in H as [(d & H & _)|(sg & b & s' & d & H & _)].
  - apply definition_iff in H as (n & s1 & args & b & t & j & s' & e & Hn & Ha & Hb & _).
    apply items_after in Ha as (b' & y' & -> & Hb' & Hy); [|reflexivity|exact Hb]. eauto 6.
  - apply signature_iff in H as (n & b' & t & j & s2 & ty & Hn & Hb & _).
    exists n, b', (L ":" ++ t ++ s2). split; [exact Hn|]. split; [exact Hb|]. left. exists (C ":"), (t ++ s2). auto.
Qed.
Theorem statement_function_iff s r f : statement s = Ok r (Function_ f) <-> function 0 s = Ok r f.
Proof.
  split.
  - intros H. unfold statement in H.
    apply alt_Ok in H as [H|[_ H]]; [unfold port_module_declaration in H; hdr; discriminate|].
    apply alt_Ok in H as [H|[_ H]]; [unfold effect_module_declaration in H; hdr; discriminate|].
    apply alt_Ok in H as [H|[_ H]]; [unfold module_declaration in H; hdr; discriminate|].
    apply alt_Ok in H as [H|[_ H]]; [unfold import_statement in H; hdr; discriminate|].
    apply alt_Ok in H as [H|[_ H]]; [unfold type_alias_declaration in H; hdr; discriminate|].
    apply alt_Ok in H as [H|[_ H]]; [unfold type_declaration in H; hdr; discriminate|].
    apply alt_Ok in H as [H|[_ H]]; [unfold port_type_declaration in H; hdr; discriminate|].
    apply alt_Ok in H as [H|[_ H]]; [unfold port_declaration in H; hdr; discriminate|].
    apply alt_Ok in H as [H|[_ H]]; [apply map_Ok in H as (f' & H & [= <-]); exact H|].
    apply alt_Ok in H as [H|[_ H]]; [unfold infix_declaration in H; hdr; discriminate|].
    unfold comment in H. apply alt_Ok in H as [H|[_ H]]; apply map_Ok in H as (c & _ & [=]).
  - intros H. destruct (function_shape _ _ _ H) as (n & b & y & Hn & Hb & Hy).
    rewrite (named_statement _ _ _ _ Hn Hb Hy). apply alt_left, map_intro, H.
Qed.

(** ** The definition must be on the next line *)

Lemma definition_no_trivia i s r d : function_definition i s = Ok r d -> no_trivia s.
Proof. intros H. eapply heads_no_trivia; [apply heads_def|apply entry0_trivia|exact H]. Qed.
Theorem next_line i s t s' sg r d : function_signature i s = Ok (t ++ s') sg -> trivia t -> closed t ->
  function_definition i s' = Ok r d ->
  (exists r' f, function i s = Ok r' f) <->
  (exists b, t = newline :: b /\ all_spaces b = true) /\ width i t = i.
Proof.
  intros Hs Ht Hc Hd. split.
  - intros (r' & f & H). apply function_iff in H as [(d' & H & _)|(sg' & b & s2 & d' & H & Hb & Hi & Hd' & _)].
    { apply definition_no_signature in H as [H _]. congruence. }
    rewrite Hs in H. injection H as E _. change ([newline] ++ b ++ s2) with ((newline :: b) ++ s2) in E.
    assert (Hb' : forall b0, all_spaces b0 = true -> has_newline b0 = false).
    { induction b0 as [|c b0 IH]; [reflexivity|]. cbn. intros Hc0. apply andb_prop in Hc0 as [Hc0 Hc1].
      apply N.eqb_eq in Hc0 as ->. exact (IH Hc1). }
    assert (Hll : last_line (newline :: b) = b) by (cbn; rewrite (Hb' b Hb); reflexivity).
    assert (Htr : trivia (newline :: b)).
    { apply trivia_newline. clear -Hb. induction b as [|c b IH]; [constructor|]. cbn in Hb.
      apply andb_prop in Hb as [Hc0 Hc1]. apply N.eqb_eq in Hc0 as ->. apply trivia_space, IH, Hc1. }
    destruct (trivia_run_unique (t ++ s') t s' (newline :: b) s2) as [-> ->].
    + apply trivia_run_intro; [exact Ht|exact Hc|eapply definition_no_trivia, Hd].
    + rewrite E. apply (trivia_run_intro (newline :: b) s2); [exact Htr|unfold closed; rewrite Hll; exact Hb|eapply definition_no_trivia, Hd'].
    + split; [exists b; auto|]. unfold width. rewrite Hll, Hb. exact Hi.
  - intros [(b & -> & Hb) Hw]. exists r, (mkFunc (Some sg) d). apply function_iff. right.
    exists sg, b, s', d. split; [exact Hs|]. split; [exact Hb|]. split; [|auto].
    assert (Hll : last_line (newline :: b) = b).
    { cbn. replace (has_newline b) with false; [reflexivity|]. clear -Hb. induction b as [|c b IH]; [reflexivity|].
      cbn in *. apply andb_prop in Hb as [Hc0 Hc1]. apply N.eqb_eq in Hc0 as ->. exact (IH Hc1). }
    unfold width in Hw. rewrite Hll, Hb in Hw. exact Hw.
Qed.
Lemma signature_statement s r sg : function_signature 0 s = Ok r sg -> function 0 s = Err -> statement s = Err.
Proof.
  intros H Hf. apply signature_iff in H as (n & b & t & j & s2 & ty & Hn & Hb & _).
  rewrite (named_statement n s b (L ":" ++ t ++ s2) Hn Hb); [|left; exists (C ":"), (t ++ s2); auto].
  apply alt_Err; [apply map_Err, Hf|].
  remember (b ++ L ":" ++ t ++ s2) as s1 eqn:E. destruct Hn as [n r1 Hn Hr1|o r1 Ho]; [|reflexivity]. subst r1.
  apply alt_Err.
  - apply err_of_no_ok; [apply ok_0, ok_infix|]. intros r0 a H. apply infix_declaration_iff in H as
      (a0 & w & b' & d & b2 & n' & _ & E & Hw & Hb' & Hd & _).
    assert (Hl : longest is_name_char n (n ++ b ++ L ":" ++ t ++ s2) (b ++ L ":" ++ t ++ s2)).
    { apply lower_longest; [exact Hn|apply ends_spaces1; [exact Hb|reflexivity]]. }
    assert (Hl' : longest is_name_char w (n ++ b ++ L ":" ++ t ++ s2) (b' ++ d ++ b2 ++ n' ++ r0)).
    { split; [exact E|]. split; [|apply ends_spaces1; [exact Hb'|reflexivity]].
      destruct Hw; reflexivity. }
    destruct (longest_unique _ _ _ _ _ _ Hl Hl') as [_ E2].
    assert (H1 : longest is_sp_char b (b ++ L ":" ++ t ++ s2) (L ":" ++ t ++ s2)).
    { split; [reflexivity|]. split; [exact (proj2 Hb)|reflexivity]. }
    assert (H2 : longest is_sp_char b' (b ++ L ":" ++ t ++ s2) (d ++ b2 ++ n' ++ r0)).
    { split; [exact E2|]. split; [exact (proj2 Hb')|]. apply dec_sp, Hd. }
    destruct (longest_unique _ _ _ _ _ _ H1 H2) as [_ E3].
    destruct (digits1_head d Hd) as (c & u & -> & Hc). cbn in E3. injection E3 as <- _. discriminate Hc.
  - destruct (lower_name_head n Hn) as (c & x & -> & Hc). 
    apply err_of_no_ok; [unfold comment; oks|]. intros r0 a H. apply comment_iff in H as (c' & _ & [(E & _)|(E & _)]);
      cbn in E; injection E as -> E; destruct Hc as [Hc|Hc]; discriminate Hc.
Qed.

(** ** Type declarations *)

Lemma ann_no_nil i s r t : type_annotation i s = Ok r t -> s <> [].
Proof. intros H ->. exact (ann_nil _ _ _ H). Qed.

Ltac open_bind H s a E := apply bind_Ok in H as (s & a & E & H).
Ltac open_tag H s := let x := fresh "x_" in let E := fresh "E_" in
  apply bind_Ok in H as (s & x & E & H); apply tag_Ok in E as [-> _].
Ltac open_char H s := let x := fresh "x_" in let E := fresh "E_" in
  apply bind_Ok in H as (s & x & E & H); apply char_Ok in E as [-> _].
Ltac open_spaces H s b Hb := let w := fresh "w_" in let E := fresh "E_" in
  apply bind_Ok in H as (s & b & E & H); apply sound_spaces in E as (w & -> & -> & Hb).

Lemma alias_iff_decl s r n ty : type_alias_declaration s = Ok r (TypeAliasDeclaration n ty) <->
  exists b1 b2 s1 b3 t j s2, s = L "type" ++ b1 ++ L "alias" ++ b2 ++ s1 /\ spaces1 b1 /\ spaces1 b2 /\
    type_ 0 s1 = Ok (b3 ++ L "=" ++ t ++ s2) n /\ spaces1 b3 /\ lay_ge 1 t j /\
    type_annotation 1 s2 = Ok r ty.
Proof.
  unfold type_alias_declaration. split.
  - intros H. open_tag H s1. open_spaces H s2 b1 H1. open_tag H s3. open_spaces H s4 b2 H2.
    open_bind H s5 n' Hn. open_spaces H s6 b3 H3. open_char H s7. open_bind H s8 j Hj. open_bind H s9 ty' Ht.
    apply ret_Ok in H as [-> H]. injection H as -> ->.
    apply sp_ge_inv in Hj as [(t & -> & Hj)| ->]; [|destruct (ann_nil _ _ _ Ht)].
    exists b1, b2, s4, b3, t, j, s8. rewrite <- ?app_assoc. split; [reflexivity|]. repeat (split; [assumption|]). exact Ht.
  - intros (b1 & b2 & s1 & b3 & t & j & s2 & -> & H1 & H2 & Hn & H3 & Ht & Hty).
    eapply bind_intro; [apply tag_intro|].
    eapply bind_intro; [apply spaces_intro; [exact H1|reflexivity]|].
    eapply bind_intro; [apply tag_intro|].
    eapply bind_intro; [apply spaces_intro; [exact H2|eapply type_sp, Hn]|].
    eapply bind_intro; [exact Hn|].
    eapply bind_intro; [apply spaces_intro; [exact H3|reflexivity]|].
    eapply bind_intro; [apply char_intro|].
    eapply bind_intro; [apply sp_ge; [exact Ht|eapply ann_no_trivia, Hty]|].
    eapply bind_intro; [exact Hty|reflexivity].
Qed.

Definition constructor (m : N) (s : str) (c : type_ast) (r : str) : Prop := type_constructor m s = Ok r c.
Lemma constructor_head m s r c : type_constructor m s = Ok r c -> exists c0 x, s = c0 :: x /\ is_upper c0 = true.
Proof.
  intros H. destruct (heads_T_constructor m _ _ _ H) as (c0 & x & -> & Hc). eauto.
Qed.
Lemma constructors_iff m s r l : separated_nonempty_list (bar_sep m) (type_constructor m) s = Ok r l <->
  exists x l' s1, l = x :: l' /\ constructor m s x s1 /\ items (bar m) (constructor m) s1 l' r /\
    no_item (bar m) (constructor m) r.
Proof.
  apply nonempty_items.
  - intros s0 s2 x H. unfold bar_sep in H. apply delimited_Ok in H as (s3 & j & s4 & b & H1 & H2 & H3).
    apply char_Ok in H2 as [-> _]. apply sound_spaces in H3 as (w & -> & -> & Hb).
    apply sp_ge_inv in H1 as [(t & -> & H1)|H1]; [|discriminate H1].
    left. exists (t ++ L "|" ++ b). rewrite <- !app_assoc. split; [reflexivity|]. exists t, j, b. auto.
  - intros t s0 r0 c (t1 & j & b & -> & H1 & Hb) Hc. exists (C "|"). rewrite <- !app_assoc.
    destruct (constructor_head _ _ _ _ Hc) as (c0 & x & -> & Hc0).
    eapply delimited_intro; [apply sp_ge; [exact H1|apply no_trivia_char; discriminate]|apply char_intro|].
    apply spaces_intro; [exact Hb|cbn [ends]; chr].
  - intros. reflexivity.
  - apply eats_bar.
  - apply eats_constructor.
  - intros s0. apply err_of_no_ok. unfold bar_sep. oks.
  - intros s0. apply err_of_no_ok. unfold type_constructor. oks.
Qed.
Lemma type_iff_decl s r n cs : type_declaration 0 s = Ok r (TypeDeclaration n cs) <->
  exists b s1 t1 m t2 j s2 c cs' s3, s = L "type" ++ b ++ s1 /\ spaces1 b /\
    type_ 0 s1 = Ok (t1 ++ L "=" ++ t2 ++ s2) n /\ lay_gt 0 t1 m /\ lay_ge m t2 j /\
    constructor m s2 c s3 /\ items (bar m) (constructor m) s3 cs' r /\ no_item (bar m) (constructor m) r /\
    cs = c :: cs'.
Proof.
  unfold type_declaration. split.
  - intros H. open_tag H s1. open_spaces H s2 b H1. open_bind H s3 n' Hn. open_bind H s4 m Hm. open_char H s5.
    open_bind H s6 j Hj. open_bind H s7 l Hl. apply ret_Ok in H as [-> H]. injection H as -> ->.
    apply constructors_iff in Hl as (c & l' & s8 & -> & Hc & Hl & Hno).
    destruct (constructor_head _ _ _ _ Hc) as (c0 & x & -> & _).
    apply sp_gt_inv in Hm as [(t1 & -> & Hm)|Hm]; [|discriminate Hm].
    apply sp_ge_inv in Hj as [(t2 & -> & Hj)|Hj]; [|discriminate Hj].
    exists b, s2, t1, m, t2, j, (c0 :: x), c, l', s8. repeat (split; [first [reflexivity|assumption]|]). reflexivity.
  - intros (b & s1 & t1 & m & t2 & j & s2 & c & cs' & s3 & -> & Hb & Hn & H1 & H2 & Hc & Hcs & Hno & ->).
    eapply bind_intro; [apply tag_intro|].
    eapply bind_intro; [apply spaces_intro; [exact Hb|eapply type_sp, Hn]|].
    eapply bind_intro; [exact Hn|].
    eapply bind_intro; [apply sp_gt; [exact H1|apply no_trivia_char; discriminate]|].
    eapply bind_intro; [apply char_intro|].
    eapply bind_intro.
    { apply sp_ge; [exact H2|]. destruct (constructor_head _ _ _ _ Hc) as (c0 & x & -> & Hc0). apply no_trivia_char; chr. }
    eapply bind_intro; [|reflexivity]. apply constructors_iff. exists c, cs', s3. auto.
Qed.

Theorem statement_alias_iff s r n ty : statement s = Ok r (TypeAliasDeclaration n ty) <->
  type_alias_declaration s = Ok r (TypeAliasDeclaration n ty).
Proof.
  split.
  - intros H. unfold statement in H.
    apply alt_Ok in H as [H|[_ H]]; [unfold port_module_declaration in H; hdr; discriminate|].
    apply alt_Ok in H as [H|[_ H]]; [unfold effect_module_declaration in H; hdr; discriminate|].
    apply alt_Ok in H as [H|[_ H]]; [unfold module_declaration in H; hdr; discriminate|].
    apply alt_Ok in H as [H|[_ H]]; [unfold import_statement in H; hdr; discriminate|].
    apply alt_Ok in H as [H|[_ H]]; [exact H|].
    apply alt_Ok in H as [H|[_ H]]; [unfold type_declaration in H; hdr; discriminate|].
    apply alt_Ok in H as [H|[_ H]]; [unfold port_type_declaration in H; hdr; discriminate|].
    apply alt_Ok in H as [H|[_ H]]; [unfold port_declaration in H; hdr; discriminate|].
    apply alt_Ok in H as [H|[_ H]]; [apply map_Ok in H as (f' & H & [=])|].
    apply alt_Ok in H as [H|[_ H]]; [unfold infix_declaration in H; hdr; discriminate|].
    unfold comment in H. apply alt_Ok in H as [H|[_ H]]; apply map_Ok in H as (c & _ & [=]).
  - intros H. pose proof H as H'. apply alias_iff_decl in H' as (b1 & b2 & s1 & b3 & t & j & s2 & -> & _).
    unfold statement. do 4 (apply alt_right; [reflexivity|]). apply alt_left, H.
Qed.
Theorem statement_type_iff s r n cs : statement s = Ok r (TypeDeclaration n cs) <->
  type_declaration 0 s = Ok r (TypeDeclaration n cs).
Proof.
  split.
  - intros H. unfold statement in H.
    apply alt_Ok in H as [H|[_ H]]; [unfold port_module_declaration in H; hdr; discriminate|].
    apply alt_Ok in H as [H|[_ H]]; [unfold effect_module_declaration in H; hdr; discriminate|].
    apply alt_Ok in H as [H|[_ H]]; [unfold module_declaration in H; hdr; discriminate|].
    apply alt_Ok in H as [H|[_ H]]; [unfold import_statement in H; hdr; discriminate|].
    apply alt_Ok in H as [H|[_ H]]; [unfold type_alias_declaration in H; hdr; discriminate|].
    apply alt_Ok in H as [H|[_ H]]; [exact H|].
    apply alt_Ok in H as [H|[_ H]]; [unfold port_type_declaration in H; hdr; discriminate|].
    apply alt_Ok in H as [H|[_ H]]; [unfold port_declaration in H; hdr; discriminate|].
    apply alt_Ok in H as [H|[_ H]]; [apply map_Ok in H as (f' & H & [=])|].
    apply alt_Ok in H as [H|[_ H]]; [unfold infix_declaration in H; hdr; discriminate|].
    unfold comment in H. apply alt_Ok in H as [H|[_ H]]; apply map_Ok in H as (c & _ & [=]).
  - intros H. pose proof H as H'. apply type_iff_decl in H' as (b & s1 & t1 & m & t2 & j & s2 & c & cs' & s3 & -> & Hb & Hn & H1 & _).
    unfold statement. do 4 (apply alt_right; [reflexivity|]).
    apply alt_right; [eapply alias_Err; [exact Hb|exact Hn|apply H1]|]. apply alt_left, H.
Qed.

(** ** Ports *)

Lemma lower_at_iff s n r : lo_name s = Ok r n <-> lower_at s n r.
Proof. apply lo_name_iff. Qed.

Lemma port_type_iff_decl s r n ty : port_type_declaration s = Ok r (PortTypeDeclaration n ty) <->
  exists b1 b2 t j s', s = L "port" ++ b1 ++ n ++ b2 ++ L ":" ++ t ++ s' /\ spaces1 b1 /\ lower_name n /\
    spaces1 b2 /\ lay_gt 0 t j /\ type_annotation j s' = Ok r ty.
Proof.
  unfold port_type_declaration. split.
  - intros H. open_tag H s1. open_spaces H s2 b1 H1. open_bind H s3 n' Hn. open_spaces H s4 b2 H2. open_char H s5.
    open_bind H s6 j Hj. open_bind H s7 ty' Ht. apply ret_Ok in H as [-> H]. injection H as -> ->.
    apply lo_name_iff in Hn as (-> & Hn & _).
    apply sp_gt_inv in Hj as [(t & -> & Hj)| ->]; [|destruct (ann_nil _ _ _ Ht)].
    exists b1, b2, t, j, s6. split; [reflexivity|]. repeat (split; [assumption|]). exact Ht.
  - intros (b1 & b2 & t & j & s' & -> & H1 & Hn & H2 & Ht & Hty).
    eapply bind_intro; [apply tag_intro|].
    eapply bind_intro; [apply spaces_intro; [exact H1|apply lower_sp, Hn]|].
    eapply bind_intro; [apply lo_name_intro; [exact Hn|right; apply ends_spaces1; [exact H2|reflexivity]]|].
    eapply bind_intro; [apply spaces_intro; [exact H2|reflexivity]|].
    eapply bind_intro; [apply char_intro|].
    eapply bind_intro; [apply sp_gt; [exact Ht|eapply ann_no_trivia, Hty]|].
    eapply bind_intro; [exact Hty|reflexivity].
Qed.
Lemma items_port_args s l r : items spaces1 lower_at s l r -> RPortArgs l s r.
Proof.
  induction 1 as [r|t s x s' l r Ht Hx _ IH]; [constructor|]. destruct Hx as (-> & Hn & He). constructor; assumption.
Qed.
Lemma port_iff_decl s r n args e : port_declaration s = Ok r (PortDeclaration n args e) <->
  exists b1 s1 b2 t j s', s = L "port" ++ b1 ++ n ++ s1 /\ spaces1 b1 /\ lower_name n /\ ends_lower n s1 /\
    items spaces1 lower_at s1 args (b2 ++ L "=" ++ t ++ s') /\ spaces1 b2 /\ lay_gt 0 t j /\
    expression j s' = Ok r e.
Proof.
  unfold port_declaration. split.
  - intros H. open_tag H s1. open_spaces H s2 b1 H1. open_bind H s3 n' Hn. open_bind H s4 args' Ha.
    open_spaces H s5 b2 H2. open_char H s6. open_bind H s7 j Hj. open_bind H s8 e' He.
    apply ret_Ok in H as [-> H]. injection H as -> -> ->.
    apply lo_name_iff in Hn as (-> & Hn & Hel).
    apply sp_gt_inv in Hj as [(t & -> & Hj)| ->]; [|exfalso; eapply expression_nil, He].
    assert (Hgen : forall u l v, manys (preceded spaces lo_name) u l v -> items spaces1 lower_at u l v).
    { induction 1 as [u _|u u2 a l v Hp _ _ IH]; [constructor|].
      apply preceded_Ok in Hp as (u3 & y & Hy & Hp). apply sound_spaces in Hy as (w' & -> & -> & Hw).
      econstructor; [exact Hw|apply lower_at_iff, Hp|exact IH]. }
    apply many0_Ok, Hgen in Ha.
    exists b1, s3, b2, t, j, s7. split; [reflexivity|]. repeat (split; [assumption|]). exact He.
  - intros (b1 & s1 & b2 & t & j & s' & -> & H1 & Hn & Hel & Ha & H2 & Ht & He).
    apply items_port_args in Ha. destruct (complete_port_args _ _ _ Ha) as [Hm _].
    eapply bind_intro; [apply tag_intro|].
    eapply bind_intro; [apply spaces_intro; [exact H1|apply lower_sp, Hn]|].
    eapply bind_intro; [apply lo_name_intro; [exact Hn|exact Hel]|].
    apply (bind_intro _ _ _ (b2 ++ L "=" ++ t ++ s') args).
    { eapply many0_ok; [apply eats_port_arg|]. rewrite <- (app_nil_r args). apply Hm.
      apply manys_stop, many_stop_Err. unfold preceded.
      eapply bind_Err2; [apply spaces_intro; [exact H2|reflexivity]|]. nohead heads_lo_name. }
    eapply bind_intro; [apply spaces_intro; [exact H2|reflexivity]|].
    eapply bind_intro; [apply char_intro|].
    eapply bind_intro; [apply sp_gt; [exact Ht|eapply expr_no_trivia, He]|].
    eapply bind_intro; [exact He|reflexivity].
Qed.
Theorem statement_port_type_iff s r n ty : statement s = Ok r (PortTypeDeclaration n ty) <->
  port_type_declaration s = Ok r (PortTypeDeclaration n ty).
Proof.
  split.
  - intros H. unfold statement in H.
    apply alt_Ok in H as [H|[_ H]]; [unfold port_module_declaration in H; hdr; discriminate|].
    apply alt_Ok in H as [H|[_ H]]; [unfold effect_module_declaration in H; hdr; discriminate|].
    apply alt_Ok in H as [H|[_ H]]; [unfold module_declaration in H; hdr; discriminate|].
    apply alt_Ok in H as [H|[_ H]]; [unfold import_statement in H; hdr; discriminate|].
    apply alt_Ok in H as [H|[_ H]]; [unfold type_alias_declaration in H; hdr; discriminate|].
    apply alt_Ok in H as [H|[_ H]]; [unfold type_declaration in H; hdr; discriminate|].
    apply alt_Ok in H as [H|[_ H]]; [exact H|].
    apply alt_Ok in H as [H|[_ H]]; [unfold port_declaration in H; hdr; discriminate|].
    apply alt_Ok in H as [H|[_ H]]; [apply map_Ok in H as (f' & H & [=])|].
    apply alt_Ok in H as [H|[_ H]]; [unfold infix_declaration in H; hdr; discriminate|].
    unfold comment in H. apply alt_Ok in H as [H|[_ H]]; apply map_Ok in H as (c & _ & [=]).
  - intros H. pose proof H as H'. apply port_type_iff_decl in H' as (b1 & b2 & t & j & s' & -> & H1 & Hn & H2 & _).
    unfold statement.
    apply alt_right; [apply port_module_Err; [exact H1|exact Hn|apply ends_spaces1; [exact H2|reflexivity]]|].
    do 5 (apply alt_right; [reflexivity|]). apply alt_left, H.
Qed.
Theorem statement_port_iff s r n args e : statement s = Ok r (PortDeclaration n args e) <->
  port_declaration s = Ok r (PortDeclaration n args e).
Proof.
  split.
  - intros H. unfold statement in H.
    apply alt_Ok in H as [H|[_ H]]; [unfold port_module_declaration in H; hdr; discriminate|].
    apply alt_Ok in H as [H|[_ H]]; [unfold effect_module_declaration in H; hdr; discriminate|].
    apply alt_Ok in H as [H|[_ H]]; [unfold module_declaration in H; hdr; discriminate|].
    apply alt_Ok in H as [H|[_ H]]; [unfold import_statement in H; hdr; discriminate|].
    apply alt_Ok in H as [H|[_ H]]; [unfold type_alias_declaration in H; hdr; discriminate|].
    apply alt_Ok in H as [H|[_ H]]; [unfold type_declaration in H; hdr; discriminate|].
    apply alt_Ok in H as [H|[_ H]]; [unfold port_type_declaration in H; hdr; discriminate|].
    apply alt_Ok in H as [H|[_ H]]; [exact H|].
    apply alt_Ok in H as [H|[_ H]]; [apply map_Ok in H as (f' & H & [=])|].
    apply alt_Ok in H as [H|[_ H]]; [unfold infix_declaration in H; hdr; discriminate|].
    unfold comment in H. apply alt_Ok in H as [H|[_ H]]; apply map_Ok in H as (c & _ & [=]).
  - intros H. pose proof H as H'.
    apply port_iff_decl in H' as (b1 & s1 & b2 & t & j & s' & -> & H1 & Hn & Hel & Ha & H2 & Ht & He).
    assert (Hsp : exists b y, s1 = b ++ y /\ spaces1 b /\ ends is_sp_char y /\ not_char (C ":") y).
    { inversion Ha as [u|t0 s0 x u l v Ht0 Hx _]; subst.
      - exists b2, (L "=" ++ t ++ s'). repeat split; auto; apply H2.
      - destruct Hx as (-> & Hm & _). exists t0, (x ++ u). repeat split; [apply Ht0|apply Ht0|apply lower_sp, Hm|].
        apply lower_name_ends; [exact Hm|intros; chr|reflexivity]. }
    destruct Hsp as (b & y & -> & Hb & Hy & Hy').
    unfold statement.
    apply alt_right; [apply port_module_Err; [exact H1|exact Hn|apply ends_spaces1; [exact Hb|reflexivity]]|].
    do 5 (apply alt_right; [reflexivity|]).
    apply alt_right; [|apply alt_left, H].
    unfold port_type_declaration. eapply bind_Err2; [apply tag_intro|].
    eapply bind_Err2; [apply spaces_intro; [exact H1|apply lower_sp, Hn]|].
    eapply bind_Err2; [apply lo_name_intro; [exact Hn|exact Hel]|].
    eapply bind_Err2; [apply spaces_intro; [exact Hb|exact Hy]|].
    apply bind_Err1, char_Err, Hy'.
Qed.

Lemma file_first s : ends is_blank s -> statement s = Err -> file s = Err.
Proof.
  intros Hb H. unfold file, terminated, statements, delimited. apply bind_Err1.
  eapply bind_Err2; [apply (multispace0_intro [] s); [reflexivity|exact Hb]|].
  apply bind_Err1. unfold separated_nonempty_list. rewrite H. reflexivity.
Qed.
Lemma name_ends_blank n s r : RName n s r -> ends is_blank s.
Proof.
  intros [n' r' Hn _|o r' _]; [|reflexivity]. apply lower_name_ends; [exact Hn|intros; chr|reflexivity].
Qed.
Theorem rejected_file s t s' sg r d : function_signature 0 s = Ok (t ++ s') sg -> trivia t -> closed t ->
  function_definition 0 s' = Ok r d -> (forall b, t = newline :: b -> all_spaces b = true -> width 0 t <> 0%N) -> file s = Err.
Proof.
  intros Hs Ht Hc Hd Hne.
  assert (Hf : function 0 s = Err).
  { apply err_of_no_ok; [apply ok_0, ok_function|]. intros r' f Hf.
    destruct (proj1 (next_line 0 s t s' sg r d Hs Ht Hc Hd)) as [(b & -> & Hb) Hw]; [eauto|].
    exact (Hne b eq_refl Hb Hw). }
  apply file_first; [|eapply signature_statement; eassumption].
  apply signature_iff in Hs as (n & b & t' & j & s2 & ty & Hn & _). eapply name_ends_blank, Hn.
Qed.
