(** * The type parser reads every rendering of a type *)
From Verif Require Import Base Nom Regex Ast Good Spec Helpers Types Expr Stmt Lexers Total
  Layout Seqs Grammar Follow Sound SoundE SoundS LexProps Heads Rules Render.

Scheme RTy_mind := Minimality for RTy Sort Prop
with RTySimple_mind := Minimality for RTySimple Sort Prop
with RParam_mind := Minimality for RParam Sort Prop
with RParams_mind := Minimality for RParams Sort Prop
with RTyElems_mind := Minimality for RTyElems Sort Prop
with RTyFields_mind := Minimality for RTyFields Sort Prop
with RTyField_mind := Minimality for RTyField Sort Prop
with RAnn_mind := Minimality for RAnn Sort Prop.
Combined Scheme RTy_all from RTy_mind, RTySimple_mind, RParam_mind, RParams_mind,
  RTyElems_mind, RTyFields_mind, RTyField_mind, RAnn_mind.

(** The type parsers on [type_] itself. *)
Lemma ok_T_tuple n i : ok 1 n (type_tuple_f type_ i) (type_tuple_f type_ i).
Proof. apply ok_down, ok_type_tuple_f. intros; apply ok_type. Qed.
Lemma ok_T_record n i : ok 1 n (type_record_f type_ i) (type_record_f type_ i).
Proof. apply ok_down, ok_type_record_f. intros; apply ok_type. Qed.
Lemma ok_T_rc n i : ok 1 n (type_record_constructor_f type_ i) (type_record_constructor_f type_ i).
Proof. apply ok_down, ok_type_record_constructor_f. intros; apply ok_type. Qed.
Lemma ok_T_parens n i : ok 1 n (type_parens_f type_ i) (type_parens_f type_ i).
Proof. apply ok_down, ok_type_parens_f. intros; apply ok_type. Qed.
Lemma ok_T_param n i : ok 1 n (type_parameter_f type_ i) (type_parameter_f type_ i).
Proof. apply ok_down, ok_type_parameter_f. intros; apply ok_type. Qed.
Lemma ok_T_pair n i : ok 0 n (type_record_pair_f type_ i) (type_record_pair_f type_ i).
Proof. apply ok_type_record_pair_f. intros; apply ok_type. Qed.
Lemma ok_T_ann n i : ok 1 n (type_annotation_f type_ i) (type_annotation_f type_ i).
Proof. apply ok_type_annotation_f. intros; apply ok_type. Qed.
#[export] Hint Resolve ok_T_ann ok_T_tuple ok_T_record ok_T_rc ok_T_parens ok_T_param ok_T_pair : okdb.

(** ** First characters *)

(** [p] fails by its first character *)
Ltac nohead H :=
  eapply heads_Err; [solve [apply H] | solve [oks] |
    cbn [app ends]; first [exact I | reflexivity | vm_compute; reflexivity | chr]].

Definition type0 (c : char) : bool := is_lower c || is_upper c || (c =? C "{")%N || (c =? C "(")%N.

Lemma heads_T_rc i : heads (fun c => (c =? C "{")%N) (type_record_constructor_f type_ i).
Proof. apply heads_delimited, heads_char. Qed.
Lemma heads_T_record i : heads (fun c => (c =? C "{")%N) (type_record_f type_ i).
Proof. apply heads_delimited, heads_preceded, heads_char. Qed.
Lemma heads_T_tuple i : heads (fun c => (c =? C "(")%N) (type_tuple_f type_ i).
Proof. apply heads_map, heads_delimited, heads_preceded, heads_char. Qed.
Lemma heads_T_parens i : heads (fun c => (c =? C "(")%N) (type_parens_f type_ i).
Proof. apply heads_delimited, heads_preceded, heads_char. Qed.
Lemma heads_T_constructor i : heads is_upper (type_constructor_f type_ i).
Proof. apply heads_bind, heads_sep, heads_up_name. Qed.
Lemma heads_type_constant : heads is_upper type_constant.
Proof. apply heads_map, heads_sep, heads_up_name. Qed.

Definition simple (i : N) : parser type_ast :=
  type_variable <|> type_record_constructor_f type_ i <|> type_record_f type_ i
  <|> type_tuple_f type_ i <|> type_parens_f type_ i.
Lemma ok_simple n i : ok 1 n (simple i) (simple i).
Proof. unfold simple. oks. Qed.
#[export] Hint Resolve ok_simple : okdb.

Definition simple0 (c : char) : bool := is_lower c || (c =? C "{")%N || (c =? C "(")%N.
Lemma heads_simple i : heads simple0 (simple i).
Proof.
  unfold simple. repeat apply heads_alt; eapply heads_weaken;
    [|apply heads_type_variable| |apply heads_T_rc| |apply heads_T_record| |apply heads_T_tuple|
     |apply heads_T_parens]; unfold simple0; intros; chr.
Qed.

Lemma type_alt i s : type_ i s = (type_constructor_f type_ i <|> simple i) s.
Proof. rewrite type_eq. reflexivity. Qed.

Lemma heads_type i : heads type0 (type_ i).
Proof.
  intros s r a H. rewrite type_alt in H. revert s r a H. apply heads_alt.
  - eapply heads_weaken; [|apply heads_T_constructor]. unfold type0; intros; chr.
  - eapply heads_weaken; [|apply heads_simple]. unfold type0, simple0; intros; chr.
Qed.

Lemma heads_param i : heads type0 (type_parameter_f type_ i).
Proof.
  unfold type_parameter_f. repeat apply heads_alt; eapply heads_weaken;
    [|apply heads_type_variable| |apply heads_type_constant| |apply heads_T_rc| |apply heads_T_record|
     |apply heads_T_tuple| |apply heads_T_parens]; unfold type0; intros; chr.
Qed.

Lemma type_no_trivia i s r t : type_ i s = Ok r t -> no_trivia s.
Proof. apply heads_no_trivia with (P := type0); [apply heads_type|]. unfold type0. intros; repeat split; chr. Qed.
Lemma param_no_trivia i s r t : type_parameter_f type_ i s = Ok r t -> no_trivia s.
Proof. apply heads_no_trivia with (P := type0); [apply heads_param|]. unfold type0. intros; repeat split; chr. Qed.
Lemma heads_pair i : heads name0 (type_record_pair_f type_ i).
Proof. apply heads_bind, heads_lo_name. Qed.
Lemma pair_no_trivia i s r t : type_record_pair_f type_ i s = Ok r t -> no_trivia s.
Proof. apply heads_no_trivia with (P := name0); [apply heads_pair|]. unfold name0. intros; repeat split; chr. Qed.

Lemma simple_type i s r t : simple i s = Ok r t -> type_ i s = Ok r t.
Proof.
  intros H. rewrite type_alt. apply alt_right; [|exact H].
  destruct (heads_simple _ _ _ _ H) as (c & s' & -> & Hc).
  eapply heads_Err; [apply heads_T_constructor|unfold type_constructor_f; oks|].
  cbn [ends]. unfold simple0 in Hc. chr.
Qed.

Lemma simple_param i s r t : simple i s = Ok r t -> type_parameter_f type_ i s = Ok r t.
Proof.
  intros H. unfold type_parameter_f. pose proof H as H'.
  apply alt_Ok in H as [H|[H1 H]]; [apply alt_left; exact H|].
  apply alt_right; [exact H1|]. apply alt_right; [|exact H].
  destruct (heads_simple _ _ _ _ H') as (c & s' & -> & Hc).
  skip_first heads_type_constant. unfold simple0 in Hc. cbn [ends]. chr.
Qed.

(** ** Lists under construction *)

(** [s] holds the elements [l], then comes [r]; the last element need not be
    followed by the end of the list *)
Definition elems {A B} (sep : parser B) (p : parser A) (s : str) (l : list A) (r : str) : Prop :=
  exists a l' s1, l = a :: l' /\ p s = Ok s1 a /\ (sep_stop sep p r -> seps sep p s1 l' r).

Lemma elems_one {A B} (sep : parser B) (p : parser A) s a r : p s = Ok r a -> elems sep p s [a] r.
Proof. intros H. exists a, [], r. split; [reflexivity|]. split; [exact H|]. apply seps_stop. Qed.

Lemma elems_cons {A B} (sep : parser B) (p : parser A) s a s1 s2 x l r :
  eats sep -> eats p -> p s = Ok s1 a -> sep s1 = Ok s2 x -> elems sep p s2 l r ->
  elems sep p s (a :: l) r.
Proof.
  intros E1 E2 Hp Hs (b & l' & s3 & -> & Hb & Hl). exists a, (b :: l'), s1.
  split; [reflexivity|]. split; [exact Hp|]. intros Hst. eapply seps_cons; eauto.
Qed.

Lemma elems_list {A B} (sep : parser B) (p : parser A) s l r :
  eats sep -> eats p -> elems sep p s l r -> sep_stop sep p r -> separated_list sep p s = Ok r l.
Proof. intros E1 E2 (a & l' & s1 & -> & Hp & Hl) Hst. eapply sep_list; eauto. Qed.

Lemma elems_nonempty {A B} (sep : parser B) (p : parser A) s l r :
  eats sep -> eats p -> elems sep p s l r -> sep_stop sep p r ->
  separated_nonempty_list sep p s = Ok r l.
Proof. intros E1 E2 (a & l' & s1 & -> & Hp & Hl) Hst. eapply sep_nonempty; eauto. Qed.

Lemma elems_head {A B} (sep : parser B) (p : parser A) s l r :
  elems sep p s l r -> exists s1 a, p s = Ok s1 a.
Proof. intros (a & l' & s1 & _ & H & _). eauto. Qed.

(** ** The statement *)

Definition param_step (i : N) : parser type_ast :=
  new_indent <- spaces_or_new_lines_and_indent i IR_GT ;;
  t <- type_parameter_f type_ new_indent ;;
  ret t.
Lemma eats_param_step i : eats (param_step i).
Proof. apply ok_eats. intros n. ok0. unfold param_step. oks. Qed.

Definition arrow_sep : parser str :=
  delimited spaces_and_newlines (tag (L "->")) spaces_and_newlines.
Lemma eats_arrow : eats arrow_sep.
Proof. apply ok_eats. intros n. ok0. unfold arrow_sep. oks. Qed.
Lemma eats_type i : eats (type_ i).
Proof. apply ok_eats. intros. oks. Qed.
Lemma eats_pair i : eats (type_record_pair_f type_ i).
Proof. apply ok_eats. intros n. ok0. unfold type_record_pair_f. oks. Qed.

Definition ann_at (i : N) (t : type_ast) (s r : str) : Prop :=
  exists a l s1, type_ i s = Ok s1 a /\ seps arrow_sep (type_ i) s1 l r /\
    arrow_of_list (a :: l) = Some t.

Lemma ann_ok i t s r : ann_at i t s r -> type_annotation_f type_ i s = Ok r t.
Proof.
  intros (a & l & s1 & H & Hl & Ha). unfold type_annotation_f.
  apply map_res_Ok. exists (a :: l). split; [|exact Ha].
  eapply sep_nonempty; [apply eats_arrow|apply eats_type|exact H|exact Hl].
Qed.

Lemma arrow_of_list_cons a l t : arrow_of_list l = Some t ->
  arrow_of_list (a :: l) = Some (TypeApplication a t).
Proof.
  destruct l as [|b l]; [discriminate|]. destruct l as [|c l].
  - intros [= <-]. reflexivity.
  - intros H. unfold arrow_of_list in *. cbv iota in *. cbn [rev] in *.
    destruct (rev l) as [|x rl]; cbn [app] in *.
    + injection H as <-. reflexivity.
    + destruct (rl ++ [c]) as [|y q] eqn:Hq; [destruct rl; discriminate|].
      cbn [app] in *. injection H as <-.
      rewrite !fold_left_app. cbn [fold_left]. reflexivity.
Qed.

Lemma sn_intro b r : spnl1 b -> ends is_space_or_newline r -> spaces_and_newlines (b ++ r) = Ok r b.
Proof.
  intros [Hne Hb] Hr. unfold spaces_and_newlines, is_a, take_while1.
  rewrite (span_ext _ is_space_or_newline).
  2:{ intros c. unfold mem_char, is_space_or_newline. simpl. rewrite orb_false_r. reflexivity. }
  rewrite (span_all is_space_or_newline b r Hb Hr). destruct b; [congruence|reflexivity].
Qed.

Lemma sn_iff s r b : spaces_and_newlines s = Ok r b ->
  s = b ++ r /\ spnl1 b /\ ends is_space_or_newline r.
Proof.
  unfold spaces_and_newlines, is_a, take_while1.
  rewrite (span_ext _ is_space_or_newline).
  2:{ intros c. unfold mem_char, is_space_or_newline. simpl. rewrite orb_false_r. reflexivity. }
  destruct (span is_space_or_newline s) as [x y] eqn:H.
  apply span_longest in H as (-> & H1 & H2). destruct x; [discriminate|].
  intros [= <- <-]. repeat split; [discriminate|exact H1|exact H2].
Qed.

Lemma arrow_intro b1 b2 s : spnl1 b1 -> spnl1 b2 -> ends is_space_or_newline s ->
  arrow_sep (b1 ++ L "->" ++ b2 ++ s) = Ok s (L "->").
Proof.
  intros H1 H2 H3. eapply delimited_intro.
  - apply sn_intro; [exact H1|reflexivity].
  - apply tag_intro.
  - apply sn_intro; assumption.
Qed.

Lemma type_ends_sn i s r t : type_ i s = Ok r t -> ends is_space_or_newline s.
Proof.
  intros H. apply heads_type in H as (c & s' & -> & Hc). unfold type0 in Hc. cbn [ends]. chr.
Qed.

Lemma no_arrow_stop i r : no_arrow r -> sep_stop arrow_sep (type_ i) r.
Proof.
  intros H. apply sep_stop_Err. eapply err_of_no_ok; [unfold arrow_sep; oks|].
  intros s a Ha. apply H. apply delimited_Ok in Ha as (x1 & a1 & x2 & a2 & E1 & E2 & E3).
  apply sn_iff in E1 as (-> & H1 & _). apply tag_Ok in E2 as [-> _].
  apply sn_iff in E3 as (-> & H4 & _). eauto 8.
Qed.

Lemma no_param_stop i r : no_type_param i r -> many_stop (param_step i) r.
Proof.
  intros (t & r' & Hrun & H). apply many_stop_Err. unfold param_step.
  destruct (sp_cases i IR_GT _ _ _ Hrun) as [He|[Hne He]]; [apply bind_Err1, He|].
  destruct H as [->|[[Hn Hw]|H]].
  - congruence.
  - apply bind_Err1. eapply sp_Err; [exact Hrun|]. right. split; [exact Hn|]. cbn. lia.
  - eapply bind_Err2; [exact He|]. apply bind_Err1. skip_first heads_param.
Qed.

Lemma close_Err i s t r c : trivia_run s t r -> not_char c s -> not_char c r ->
  terminated (opt_sp i) (char_ c) s = Err.
Proof.
  intros Hrun H1 H2. unfold terminated.
  destruct (opt_sp_cases i _ _ _ Hrun) as [[o Ho]|[o Ho]];
    (eapply bind_Err2; [exact Ho|]); apply bind_Err1, char_Err; assumption.
Qed.

Lemma comma_stop' {A} i (p : parser A) t c r : olay i t -> no_trivia (c :: r) -> c <> C "," ->
  sep_stop (comma_sep i) p (t ++ [c] ++ r).
Proof. apply comma_stop. Qed.

(** optional layout stops before an arrow, whatever the blanks *)
Lemma arrow_run b1 r : spnl1 b1 ->
  trivia_run (b1 ++ L "->" ++ r) b1 (L "->" ++ r).
Proof.
  intros [_ Hb]. apply trivia_run_intro; [..|apply no_trivia_arrow].
  - induction b1 as [|c b1 IH]; [constructor|]. simpl in Hb. apply andb_true_iff in Hb as [Hc Hb].
    unfold is_space_or_newline in Hc. apply orb_true_iff in Hc as [Hc|Hc]; apply N.eqb_eq in Hc; subst c.
    + apply trivia_space, IH, Hb.
    + apply trivia_newline, IH, Hb.
  - unfold closed. induction b1 as [|c b1 IH]; [reflexivity|]. simpl in Hb.
    apply andb_true_iff in Hb as [Hc Hb]. cbn [last_line].
    destruct (has_newline b1) eqn:Hn; [apply IH, Hb|].
    assert (Ha : all_spaces b1 = true).
    { clear IH. induction b1 as [|d b1 IH]; [reflexivity|]. simpl in Hb, Hn |- *.
      apply andb_true_iff in Hb as [Hd Hb]. apply orb_false_iff in Hn as [Hn1 Hn2].
      unfold is_space_or_newline in Hd. unfold newline in *. rewrite Hn1, orb_false_r in Hd.
      rewrite Hd. simpl. apply IH; assumption. }
    destruct (c =? newline)%N eqn:Hc'; [exact Ha|].
    unfold is_space_or_newline in Hc. rewrite Hc', orb_false_r in Hc. simpl. rewrite Hc. exact Ha.
Qed.

(** the record-extension alternative fails on a record whose first field has a colon *)
Lemma rc_Err i t1 n t2 s :
  olay i t1 -> lower_name n -> olay i t2 ->
  type_record_constructor_f type_ i (L "{" ++ t1 ++ n ++ t2 ++ L ":" ++ s) = Err.
Proof.
  intros H1 Hn H2. unfold type_record_constructor_f, delimited.
  eapply bind_Err2; [apply char_intro|]. apply bind_Err1.

  destruct (lower_name_head n Hn) as (c & n' & Hc & Hcl).
  assert (Hnt : no_trivia (n ++ t2 ++ L ":" ++ s)).
  { rewrite Hc. apply no_trivia_char; destruct Hcl as [->|Hcl]; try discriminate; chr. }
  destruct H1 as [->|[j H1]].
  { apply bind_Err1, sp_nil. exact Hnt. }
  eapply bind_Err2; [apply sp_ge; [exact H1|exact Hnt]|].
  (* the variable is a prefix of the name *)
  unfold bind at 1. destruct (type_variable (n ++ t2 ++ L ":" ++ s)) as [s1 v| |a] eqn:Hv;
    [|reflexivity|].
  2:{ destruct (ok_type_variable (S (length (n ++ t2 ++ L ":" ++ s))) _ (le_n _)) as [_ Ho].
      rewrite Hv in Ho. contradiction. }
  apply type_variable_iff in Hv as (m & -> & He & (d & m' & Hm & Hd & Hm') & Hends).
  (* either the whole name, or a name character comes next *)
  assert (Hs1 : s1 = t2 ++ L ":" ++ s \/ exists x y, s1 = x :: y /\ is_name_char x = true).
  { assert (Hlow : is_lower c = true).
    { destruct Hcl as [->|Hcl]; [|exact Hcl]. rewrite Hc, Hm in He. cbn [app] in He.
      injection He as <- _. exact Hd. }
    destruct Hn as [->|[(c0 & t0 & -> & _ & Ht0) _]].
    { injection Hc as <- _. vm_compute in Hlow. discriminate. }
    rewrite Hm in He. cbn [app] in He. injection He as <- He. clear Hc Hd Hcl Hlow.
    clear Hm. revert m' He Hm' Hends. clear -Ht0 H2. revert s1.
    induction t0 as [|x t0 IH]; intros s1 m' He Hm' Hends.
    - destruct m' as [|y m']; [left; symmetry; exact He|].
      exfalso. cbn [app] in He. simpl in Hm'. apply andb_true_iff in Hm' as [Hy _].
      assert (E : ends is_tyvar_char (t2 ++ C ":" :: s)) by (eapply ends_olay; eauto).
      change (L ":" ++ s) with (C ":" :: s) in He. rewrite He in E. cbn [ends] in E. congruence.
    - destruct m' as [|y m'].
      + right. cbn [app] in He. simpl in Ht0. apply andb_true_iff in Ht0 as [Hx _].
        exists x, (t0 ++ t2 ++ L ":" ++ s). auto.
      + cbn [app] in He. injection He as <- He. simpl in Ht0, Hm'.
        apply andb_true_iff in Ht0 as [_ Ht0]. apply andb_true_iff in Hm' as [_ Hm'].
        eapply IH; eauto. }
  destruct Hs1 as [->|(x & y & -> & Hx)].
  - destruct H2 as [->|[j2 H2]].
    + apply bind_Err1, sp_nil. apply no_trivia_char; discriminate.
    + eapply bind_Err2; [apply sp_ge; [exact H2|apply no_trivia_char; discriminate]|].
      apply bind_Err1. reflexivity.
  - apply bind_Err1, sp_nil. apply no_trivia_char; chr.
Qed.

Lemma rc_Err_close i t1 s : olay i t1 ->
  type_record_constructor_f type_ i (L "{" ++ t1 ++ L "}" ++ s) = Err.
Proof.
  intros H1. unfold type_record_constructor_f, delimited.
  eapply bind_Err2; [apply char_intro|]. apply bind_Err1.
  change ((fix app (l m : list char) {struct l} : list char :=
     match l with [] => m | a :: l1 => a :: app l1 m end) t1 (L "}" ++ s)) with (t1 ++ L "}" ++ s).
  destruct H1 as [->|[j H1]].
  { apply bind_Err1, sp_nil. apply no_trivia_char; discriminate. }
  eapply bind_Err2; [apply sp_ge; [exact H1|apply no_trivia_char; discriminate]|].
  apply bind_Err1. nohead heads_type_variable.
Qed.

Theorem complete_types_all :
  (forall i t s r, RTy i t s r -> type_ i s = Ok r t) /\
  (forall i t s r, RTySimple i t s r -> simple i s = Ok r t) /\
  (forall i t s r, RParam i t s r -> type_parameter_f type_ i s = Ok r t) /\
  (forall i ts s r, RParams i ts s r -> manys (param_step i) s ts r) /\
  (forall i ts s r, RTyElems i ts s r -> elems (comma_sep i) (type_ i) s ts r) /\
  (forall i fs s r, RTyFields i fs s r ->
     elems (comma_sep i) (type_record_pair_f type_ i) s fs r /\
     exists n t1 s', s = n ++ t1 ++ L ":" ++ s' /\ lower_name n /\ olay i t1) /\
  (forall i n t s r, RTyField i n t s r ->
     type_record_pair_f type_ i s = Ok r (n, t) /\
     exists t1 s', s = n ++ t1 ++ L ":" ++ s' /\ lower_name n /\ olay i t1) /\
  (forall i t s r, RAnn i t s r -> ann_at i t s r).
Proof.
  apply RTy_all.
  - (* constructor *)
    intros i q args s r Hq Hs _ IH. rewrite type_alt. apply alt_left.
    unfold type_constructor_f. eapply bind_intro; [apply module_name_intro; assumption|].
    eapply bind_intro; [|reflexivity]. apply many0_ok; [apply eats_param_step|exact IH].
  - intros i t s r _ IH. apply simple_type, IH.
  - (* variable *)
    intros i n r Hn Hr. apply alt_left. apply type_variable_intro; assumption.
  - (* extension *)
    intros i t1 j1 n t2 j2 t3 j3 fs s t4 j4 r H1 Hn H2 H3 _ [IH (n' & t1' & s' & Hs & Hn' & Ht1')] H4.
    apply alt_right; [nohead heads_type_variable|]. apply alt_left. unfold type_record_constructor_f.
    pose proof Hn as (c & n0 & -> & Hc & Hn0).
    eapply delimited_intro; [apply char_intro| |apply char_intro].
    eapply bind_intro; [apply (sp_ge i t1 j1 ((c :: n0) ++ t2 ++ L "|" ++ t3 ++ s)); [exact H1|]|].
    { apply no_trivia_char; chr. }
    eapply bind_intro; [apply type_variable_intro; [exact Hn|]|].
    { eapply ends_lay; [exact H2|reflexivity..]. }
    eapply bind_intro; [apply sp_ge; [exact H2|apply no_trivia_char; discriminate]|].
    eapply bind_intro; [apply char_intro|].
    destruct (elems_head _ _ _ _ _ IH) as (s1 & a & Ha).
    eapply bind_intro; [apply (sp_ge i t3 j3 s); [exact H3|eapply pair_no_trivia, Ha]|].
    eapply bind_intro.
    { unfold type_record_pairs_f. eapply elems_list; [apply eats_comma|apply eats_pair|exact IH|].
      apply comma_stop'; [right; eauto|apply no_trivia_char; discriminate|discriminate]. }
    eapply bind_intro; [apply sp_ge; [exact H4|apply no_trivia_char; discriminate]|].
    reflexivity.
  - (* record *)
    intros i t1 fs s t2 r H1 _ [IH (n & tn & s' & Hs & Hn & Htn)] H2.
    apply alt_right; [nohead heads_type_variable|]. apply alt_right.
    { rewrite Hs. apply rc_Err; assumption. }
    apply alt_left. unfold type_record_f.
    destruct (elems_head _ _ _ _ _ IH) as (s1 & a & Ha).
    destruct (open_ok i (C "{") t1 s H1) as [o Ho]; [eapply pair_no_trivia, Ha|].
    destruct (close_ok i t2 (C "}") r H2) as [o2 Ho2]; [apply no_trivia_char; discriminate|].
    eapply delimited_intro; [exact Ho| |exact Ho2].
    apply map_intro. unfold type_record_pairs_f.
    eapply elems_list; [apply eats_comma|apply eats_pair|exact IH|].
    apply comma_stop'; [exact H2|apply no_trivia_char; discriminate|discriminate].
  - (* empty record *)
    intros i t1 r H1. apply alt_right; [nohead heads_type_variable|]. apply alt_right; [apply rc_Err_close; exact H1|].
    apply alt_left. unfold type_record_f.
    destruct (open_ok i (C "{") t1 (L "}" ++ r) H1) as [o Ho]; [apply no_trivia_char; discriminate|].
    destruct (close_ok i [] (C "}") r) as [o2 Ho2]; [left; reflexivity|apply no_trivia_char; discriminate|].
    eapply delimited_intro; [exact Ho| |exact Ho2].
    apply map_intro. apply sep_list_nil. nohead heads_pair.
  - (* tuple *)
    intros i t1 ts s t2 r H1 _ IH H2.
    apply alt_right; [nohead heads_type_variable|]. apply alt_right; [reflexivity|].
    apply alt_right; [reflexivity|].
    apply alt_left. unfold type_tuple_f.
    destruct (elems_head _ _ _ _ _ IH) as (s1 & a & Ha).
    destruct (open_ok i (C "(") t1 s H1) as [o Ho]; [eapply type_no_trivia, Ha|].
    destruct (close_ok i t2 (C ")") r H2) as [o2 Ho2]; [apply no_trivia_char; discriminate|].
    apply map_intro. eapply delimited_intro; [exact Ho| |exact Ho2].
    eapply elems_list; [apply eats_comma|apply eats_type|exact IH|].
    apply comma_stop'; [exact H2|apply no_trivia_char; discriminate|discriminate].
  - (* unit *)
    intros i t1 r H1.
    apply alt_right; [nohead heads_type_variable|]. apply alt_right; [reflexivity|].
    apply alt_right; [reflexivity|].
    apply alt_left. unfold type_tuple_f.
    destruct (open_ok i (C "(") t1 (L ")" ++ r) H1) as [o Ho]; [apply no_trivia_char; discriminate|].
    destruct (close_ok i [] (C ")") r) as [o2 Ho2]; [left; reflexivity|apply no_trivia_char; discriminate|].
    apply map_intro. eapply delimited_intro; [exact Ho| |exact Ho2].
    apply sep_list_nil. nohead heads_type.
  - (* parentheses *)
    intros i t1 a s b1 b2 b s' t2 r H1 _ IHa Hb1 Hb2 _ IHb H2.
    apply alt_right; [nohead heads_type_variable|]. apply alt_right; [reflexivity|].
    apply alt_right; [reflexivity|].
    pose proof IHb as (x & l & s1 & Hx & Hl & Hal).
    destruct (open_ok i (C "(") t1 s H1) as [o Ho]; [eapply type_no_trivia, IHa|].
    destruct (close_ok i t2 (C ")") r H2) as [o2 Ho2]; [apply no_trivia_char; discriminate|].
    assert (Hrun : trivia_run (b1 ++ L "->" ++ b2 ++ s') b1 (L "->" ++ b2 ++ s'))
      by (apply arrow_run; exact Hb1).
    assert (Hhead : ends (fun d => is_space_or_newline d || (d =? C "-")%N) [] /\
      exists d y, b1 ++ L "->" ++ b2 ++ s' = d :: y /\ is_space_or_newline d = true).
    { split; [exact I|]. destruct Hb1 as [Hne Hb1]. destruct b1 as [|d b1]; [congruence|].
      simpl in Hb1. apply andb_true_iff in Hb1 as [Hd _]. cbn [app]. eauto. }
    destruct Hhead as [_ (d & y & Hd & Hdb)].
    apply alt_right.
    { unfold type_tuple_f. apply map_Err. unfold delimited.
      eapply bind_Err2; [exact Ho|]. eapply bind_Err2.
      { eapply sep_list; [apply eats_comma|apply eats_type|exact IHa|].
        apply seps_stop, sep_stop_Err. eapply comma_Err; [exact Hrun|..].
        - rewrite Hd. cbn. chr.
        - reflexivity. }
      apply bind_Err1. eapply close_Err; [exact Hrun|..].
      - rewrite Hd. cbn. chr.
      - reflexivity. }
    unfold type_parens_f. eapply delimited_intro; [exact Ho| |exact Ho2].
    apply ann_ok. exists a, (x :: l), (b1 ++ L "->" ++ b2 ++ s'). split; [exact IHa|].
    split; [|apply arrow_of_list_cons; exact Hal].
    eapply seps_cons; [apply eats_arrow|apply eats_type| |exact Hx|exact Hl].
    apply arrow_intro; [assumption..|eapply type_ends_sn, Hx].
  - (* constant *)
    intros i q r Hq Hr. unfold type_parameter_f. apply alt_right.
    { destruct Hq as [Hne Hq]. destruct q as [|n q]; [congruence|]. inversion Hq as [|? ? Hn _]; subst.
      destruct Hn as (c & t & -> & Hc & _). rewrite dotted_concat.
      skip_first heads_type_variable. cbn [app ends]. chr. }
    apply alt_left. unfold type_constant. apply (map_intro (fun v => TypeConstructor v [])).
    apply module_name_intro; assumption.
  - intros i t s r _ IH. apply simple_param, IH.
  - intros i r H. apply manys_stop, no_param_stop, H.
  - intros i t j x s s' xs r Ht _ IHx _ IH.
    eapply manys_cons; [apply eats_param_step| |exact IH].
    unfold param_step. eapply bind_intro; [apply sp_gt; [exact Ht|eapply param_no_trivia, IHx]|].
    eapply bind_intro; [exact IHx|reflexivity].
  - intros i t s r _ IH. apply elems_one, IH.
  - intros i t s t1 t2 ts s' r _ IH H1 H2 _ IHs.
    destruct (elems_head _ _ _ _ _ IHs) as (s1 & a & Ha).
    eapply elems_cons; [apply eats_comma|apply eats_type|exact IH| |exact IHs].
    apply comma_intro; [assumption..|eapply type_no_trivia, Ha].
  - intros i n t s r _ [IH (t1 & s' & Hs & Hn & Ht1)]. split; [apply elems_one, IH|]. eauto 8.
  - intros i n t s t1 t2 fs s' r _ [IH (t1' & s1' & Hs & Hn & Ht1)] H1 H2 _ [IHs _].
    split; [|eauto 8].
    destruct (elems_head _ _ _ _ _ IHs) as (s1 & a & Ha).
    eapply elems_cons; [apply eats_comma|apply eats_pair|exact IH| |exact IHs].
    apply comma_intro; [assumption..|eapply pair_no_trivia, Ha].
  - intros i n t1 t2 t s r Hn H1 H2 _ IH. split; [|eauto 8].
    unfold type_record_pair_f.
    eapply bind_intro; [apply lo_name_intro; [exact Hn|]|].
    { right. apply (ends_olay is_name_char i t1 (C ":")); [exact H1|reflexivity..]. }
    destruct (opt_sp_intro i t1 (L ":" ++ t2 ++ s) H1) as [o1 E1]; [apply no_trivia_char; discriminate|].
    eapply bind_intro; [exact E1|]. eapply bind_intro; [apply char_intro|].
    pose proof IH as (x & l & s1 & Hx & _).
    destruct (opt_sp_intro i t2 s H2) as [o2 E2]; [eapply type_no_trivia, Hx|].
    eapply bind_intro; [exact E2|]. eapply bind_intro; [apply ann_ok, IH|reflexivity].
  - intros i t s r _ IH Hr. exists t, [], r. split; [exact IH|]. split; [|reflexivity].
    apply seps_stop, no_arrow_stop, Hr.
  - intros i a s b1 b2 b s' r _ IH H1 H2 _ (x & l & s1 & Hx & Hl & Hal).
    exists a, (x :: l), (b1 ++ L "->" ++ b2 ++ s'). split; [exact IH|].
    split; [|apply arrow_of_list_cons; exact Hal].
    eapply seps_cons; [apply eats_arrow|apply eats_type| |exact Hx|exact Hl].
    apply arrow_intro; [assumption..|eapply type_ends_sn, Hx].
Qed.

Theorem complete_type i t s r : RTy i t s r -> type_ i s = Ok r t.
Proof. apply complete_types_all. Qed.

Theorem complete_ann i t s r : RAnn i t s r -> type_annotation i s = Ok r t.
Proof. intros H. apply ann_ok. apply complete_types_all, H. Qed.

Theorem complete_constructor i q args s r :
  qualified q -> ends_dotted s -> RParams i args s r ->
  type_constructor i (dotted q ++ s) = Ok r (TypeConstructor q args).
Proof.
  intros Hq Hs H. apply complete_types_all in H. unfold type_constructor, type_constructor_f.
  eapply bind_intro; [apply module_name_intro; assumption|].
  eapply bind_intro; [|reflexivity]. apply many0_ok; [apply eats_param_step|exact H].
Qed.
