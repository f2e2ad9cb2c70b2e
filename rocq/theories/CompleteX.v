(** * The expression parser reads every rendering of an expression (main part) *)
From Verif Require Import Base Nom Regex Ast Good Spec Helpers Types Expr Stmt Lexers Total
  Layout Seqs Grammar Follow Sound SoundE SoundS LexProps Heads Rules Render CompleteT CompleteE.

Scheme RE_mind := Minimality for RE Sort Prop
with RApp_mind := Minimality for RApp Sort Prop
with RTerm_mind := Minimality for RTerm Sort Prop
with RList_mind := Minimality for RList Sort Prop
with RElems_mind := Minimality for RElems Sort Prop
with RTupleElems_mind := Minimality for RTupleElems Sort Prop
with RFields_mind := Minimality for RFields Sort Prop
with RField_mind := Minimality for RField Sort Prop
with RUpdates_mind := Minimality for RUpdates Sort Prop
with RUpdate_mind := Minimality for RUpdate Sort Prop
with RLamArgs_mind := Minimality for RLamArgs Sort Prop
with REntries_mind := Minimality for REntries Sort Prop
with REntry_mind := Minimality for REntry Sort Prop
with RTarget_mind := Minimality for RTarget Sort Prop
with RFunc_mind := Minimality for RFunc Sort Prop
with RDef_mind := Minimality for RDef Sort Prop
with RDefArgs_mind := Minimality for RDefArgs Sort Prop
with RBranches_mind := Minimality for RBranches Sort Prop
with RBranch_mind := Minimality for RBranch Sort Prop
with RNoBranch_mind := Minimality for RNoBranch Sort Prop.
Combined Scheme RE_all from RE_mind, RApp_mind, RTerm_mind, RList_mind, RElems_mind,
  RTupleElems_mind, RFields_mind, RField_mind, RUpdates_mind, RUpdate_mind, RLamArgs_mind,
  REntries_mind, REntry_mind, RTarget_mind, RFunc_mind, RDef_mind, RDefArgs_mind,
  RBranches_mind, RBranch_mind, RNoBranch_mind.

(** ** More layout *)

Lemma spnl_closed b : forallb is_space_or_newline b = true -> trivia b /\ closed b.
Proof.
  intros Hb. destruct b as [|c b]; [split; [constructor|reflexivity]|].
  destruct (arrow_run (c :: b) []) as (_ & Ht & _ & Hc); [split; [discriminate|exact Hb]|].
  split; [exact Ht|]. destruct Hc as [Hc|Hc]; [exact Hc|discriminate].
Qed.

(** optional layout at the head of arbitrary blanks leaves blanks *)
Lemma blank_run b x : blanks b -> no_trivia x -> ends is_blank x ->
  exists b1 b2, blanks b2 /\ trivia_run (b ++ x) b1 (b2 ++ x).
Proof.
  intros Hb Hx Hbx. destruct (span is_space_or_newline b) as [b1 b2] eqn:Hs.
  apply span_longest in Hs as (-> & H1 & H2). exists b1, b2.
  unfold blanks in *. rewrite forallb_app in Hb. apply andb_true_iff in Hb as [_ Hb].
  split; [exact Hb|]. rewrite <- app_assoc.
  destruct (spnl_closed b1 H1). apply trivia_run_intro; [assumption..|].
  destruct b2 as [|c b2]; [exact Hx|]. simpl in H2. simpl in Hb. apply andb_true_iff in Hb as [Hc _].
  apply no_trivia_char; chr.
Qed.

Lemma opt_sp_blanks i b x : blanks b -> no_trivia x -> ends is_blank x ->
  exists o b', opt_sp i (b ++ x) = Ok (b' ++ x) o /\ blanks b'.
Proof.
  intros Hb Hx Hbx. destruct (blank_run b x Hb Hx Hbx) as (b1 & b2 & Hb2 & Hrun).
  destruct (opt_sp_cases i _ _ _ Hrun) as [[o Ho]|[o Ho]]; eauto.
Qed.
Lemma opt_lay_blanks i b x : blanks b -> no_trivia x -> ends is_blank x ->
  exists o b', opt_spaces_or_new_lines_and_indent i IR_GTE (b ++ x) = Ok (b' ++ x) o /\ blanks b'.
Proof.
  intros Hb Hx Hbx. destruct (blank_run b x Hb Hx Hbx) as (b1 & b2 & Hb2 & Hrun).
  destruct (opt_lay_cases i _ _ _ Hrun) as [[o Ho]|[o Ho]]; eauto.
Qed.

(** blanks, then [x]: the first character is a blank or that of [x] *)
Lemma ends_blanks P b x : blanks b -> (forall c, is_blank c = true -> P c = false) -> ends P x ->
  ends P (b ++ x).
Proof.
  intros Hb HP Hx. destruct b as [|c b]; [exact Hx|]. cbn [app ends]. apply HP.
  unfold blanks in Hb. simpl in Hb. apply andb_true_iff in Hb as [Hc _]. exact Hc.
Qed.

Lemma comma2_intro i t1 t2 s : olay i t1 -> olay i t2 -> no_trivia s ->
  comma2 i (t1 ++ L "," ++ t2 ++ s) = Ok s (C ",").
Proof.
  intros H1 H2 Hs. destruct (opt_lay_intro i t1 (L "," ++ t2 ++ s) H1) as [o1 E1].
  { apply no_trivia_char; discriminate. }
  destruct (opt_lay_intro i t2 s H2 Hs) as [o2 E2].
  eapply delimited_intro; [exact E1|apply char_intro|exact E2].
Qed.
Lemma comma2_stop {A} i (p : parser A) t c r : olay i t -> no_trivia (c :: r) -> c <> C "," ->
  sep_stop (comma2 i) p (t ++ [c] ++ r).
Proof.
  intros Ht Hr Hc. apply sep_stop_Err.
  destruct (opt_lay_intro i t _ Ht Hr) as [o Ho]. unfold comma2, delimited.
  eapply bind_Err2; [exact Ho|]. apply bind_Err1, char_Err. cbn. apply N.eqb_neq, Hc.
Qed.

Lemma spaces_lay R i b : spaces1 b -> lay R i b i.
Proof.
  intros [Hne Hb]. pose proof (all_spaces_no_newline b Hb) as Hn.
  assert (Hl : last_line b = b) by (apply last_line_no_newline, Hn).
  split; [apply trivia_spaces, Hb|]. split; [unfold closed; rewrite Hl; exact Hb|].
  split; [exact Hne|]. split; [congruence|]. unfold width. rewrite Hl, Hb, Hn. reflexivity.
Qed.

Lemma tag_Err w s : ~ (exists x, s = w ++ x) -> tag w s = Err.
Proof.
  intros H. unfold tag, need_more, at_eof. destruct (strip w s) as [r|] eqn:Hs; [|reflexivity].
  exfalso. apply H. apply strip_app in Hs. eauto.
Qed.

Lemma nl_intro i b s : all_spaces b = true -> (N.of_nat (length b) mod 2 ^ 32 = i)%N ->
  ends is_sp_char s -> new_line_and_same_indent i ([newline] ++ b ++ s) = Ok s i.
Proof.
  intros Hb Hi Hs. unfold new_line_and_same_indent. apply map_res_Ok. exists i.
  split; [|rewrite N.eqb_refl; reflexivity].
  eapply preceded_intro; [apply char_intro|].
  assert (H0 : spaces0 (b ++ s) = Ok s b).
  { rewrite spaces0_eq. rewrite (span_all is_sp b s Hb Hs). reflexivity. }
  unfold map_. change ((fix app (l m : list char) {struct l} : list char :=
     match l with [] => m | a :: l1 => a :: app l1 m end) b s) with (b ++ s).
  rewrite H0. unfold len_u32. change 4294967296%N with (2 ^ 32)%N. rewrite Hi. reflexivity.
Qed.

(** ** Heads of let entries *)

Definition entry0 (c : char) : bool := var0 c || mem_char c (L "[{").
Lemma heads_binding_name : heads entry0 binding_name.
Proof.
  unfold binding_name. apply heads_alt.
  - eapply heads_weaken; [|apply heads_lo_name]. unfold entry0, var0, name0. intros; chr.
  - eapply heads_weaken; [|apply heads_delimited, heads_char]. unfold entry0, var0, name0. intros; chr.
Qed.
Lemma heads_target m : heads entry0 (target m).
Proof.
  unfold target, let_binding_target_f.
  apply heads_alt; [eapply heads_weaken; [|apply heads_variable]; unfold entry0; intros c Hc; rewrite Hc; reflexivity|].
  apply heads_alt; [eapply heads_weaken; [|apply heads_list]; unfold entry0, var0; intros; chr|].
  apply heads_alt; [eapply heads_weaken; [|apply heads_tuple]; unfold entry0, var0; intros; chr|].
  eapply heads_weaken; [|apply heads_names]; unfold entry0, var0; intros; chr.
Qed.
Lemma heads_def m : heads entry0 (function_definition_f expression m).
Proof. apply heads_bind, heads_binding_name. Qed.
Lemma heads_sig m : heads entry0 (function_signature m).
Proof. apply heads_bind, heads_binding_name. Qed.
Lemma heads_function m : heads entry0 (function_f expression m).
Proof.
  intros s r f H. unfold function_f in H. apply bind_Ok in H as (s1 & o & H1 & H2).
  apply opt_Ok in H1 as [(a & H1 & _)|(_ & -> & _)].
  - apply terminated_Ok in H1 as (s2 & b & H1 & _). eapply heads_sig, H1.
  - apply bind_Ok in H2 as (s2 & b & H2 & _). eapply heads_def, H2.
Qed.
Lemma heads_entry m : heads entry0 (entry m).
Proof.
  apply heads_alt; [apply heads_bind, heads_target|apply heads_map, heads_function].
Qed.
Lemma entry0_trivia c : entry0 c = true -> c <> space /\ c <> newline /\ c <> C "-".
Proof. unfold entry0, var0. intros; repeat split; chr. Qed.

Lemma keyword_entry_Err m R i t j w s : lay R i t j -> In w reserved_words ->
  entry m (w ++ t ++ s) = Err.
Proof.
  intros Ht Hin. pose proof (kw_no_term w R i t j s Ht Hin) as Hn.
  assert (Hl : lo_name (w ++ t ++ s) = Err).
  { apply lo_name_reserved with (w := w) (r := t ++ s); [|exact Hin].
    split; [reflexivity|]. split; [|eapply ends_lay; [exact Ht|reflexivity..]].
    simpl in Hin. repeat (destruct Hin as [<-|Hin]; [reflexivity|]). contradiction. }
  assert (Hb : binding_name (w ++ t ++ s) = Err).
  { apply alt_Err; [exact Hl|]. apply bind_Err1, char_Err.
    simpl in Hin. repeat (destruct Hin as [<-|Hin]; [reflexivity|]). contradiction. }
  unfold entry. apply alt_Err.
  - apply bind_Err1. unfold let_binding_target_f.
    apply alt_Err; [apply no_term_variable, Hn|].
    assert (Hh : exists c x, w ++ t ++ s = c :: x /\ is_lower c = true).
    { simpl in Hin. repeat (destruct Hin as [<-|Hin]; [eexists _, _; split; reflexivity|]). contradiction. }
    destruct Hh as (c & x & -> & Hc).
    apply alt_Err; [nohead heads_list|]. apply alt_Err; [nohead heads_tuple|]. nohead heads_names.
  - apply map_Err. unfold function_f. eapply bind_Err2.
    + apply opt_None. unfold terminated. apply bind_Err1. apply bind_Err1. exact Hb.
    + apply bind_Err1. apply bind_Err1. exact Hb.
Qed.

(** ** The alternatives of braces *)

Lemma update_Err i b1 n t2 x :
  lower_name n -> ends is_name_char (t2 ++ x) ->
  (exists o, opt_spaces_or_new_lines_and_indent i IR_GTE (b1 ++ n ++ t2 ++ x) = Ok (n ++ t2 ++ x) o) ->
  (exists o y, opt_spaces_or_new_lines_and_indent i IR_GTE (t2 ++ x) = Ok y o /\ not_char (C "|") y) ->
  record_update_f expression i (L "{" ++ b1 ++ n ++ t2 ++ x) = Err.
Proof.
  intros Hn Hends [o Ho] (o2 & y & Ho2 & Hy). unfold record_update_f, delimited.
  eapply bind_Err2; [eapply preceded_intro; [apply char_intro|exact Ho]|].
  apply bind_Err1. eapply bind_Err2; [apply lo_name_intro; [exact Hn|right; exact Hends]|].
  eapply bind_Err2; [exact Ho2|]. apply bind_Err1, char_Err, Hy.
Qed.

Lemma lower_no_trivia n s : lower_name n -> no_trivia (n ++ s).
Proof.
  intros Hn. destruct (lower_name_head n Hn) as (c & t & -> & [->|Hc]); cbn [app];
    apply no_trivia_char; try discriminate; chr.
Qed.

Lemma update_Err_record i t1 n t2 s : olay i t1 -> lower_name n -> olay i t2 ->
  record_update_f expression i (L "{" ++ t1 ++ n ++ t2 ++ L "=" ++ s) = Err.
Proof.
  intros H1 Hn H2. apply update_Err.
  - exact Hn.
  - apply (ends_olay is_name_char i t2 (C "=")); [exact H2|reflexivity..].
  - apply opt_lay_intro; [exact H1|apply lower_no_trivia, Hn].
  - destruct (opt_lay_intro i t2 (L "=" ++ s) H2) as [o Ho]; [apply no_trivia_char; discriminate|].
    exists o, (L "=" ++ s). split; [exact Ho|reflexivity].
Qed.

Lemma update_Err_empty i t1 s : olay i t1 ->
  record_update_f expression i (L "{" ++ t1 ++ L "}" ++ s) = Err.
Proof.
  intros H1. destruct (opt_lay_intro i t1 (L "}" ++ s) H1) as [o Ho]; [apply no_trivia_char; discriminate|].
  unfold record_update_f, delimited.
  eapply bind_Err2; [eapply preceded_intro; [apply char_intro|exact Ho]|].
  apply bind_Err1. apply bind_Err1. nohead heads_lo_name.
Qed.

Lemma names_shape fs s r : RNames fs s r ->
  exists b1 n b2 c x, s = b1 ++ n ++ b2 ++ c :: x /\ blanks b1 /\ lower_name n /\ blanks b2 /\
    (c = C "," \/ c = C "}").
Proof. intros []; do 5 eexists; (split; [reflexivity|]); auto. Qed.

Lemma names_braces i b1 n b2 c x : blanks b1 -> lower_name n -> blanks b2 ->
  (c = C "," \/ c = C "}") ->
  record_update_f expression i (L "{" ++ b1 ++ n ++ b2 ++ c :: x) = Err /\
  record_f expression i (L "{" ++ b1 ++ n ++ b2 ++ c :: x) = Err.
Proof.
  intros H1 Hn H2 Hc.
  assert (Hcx : no_trivia (c :: x) /\ ends is_blank (c :: x)).
  { destruct Hc as [->| ->]; (split; [apply no_trivia_char; discriminate|reflexivity]). }
  destruct Hcx as [Hcx Hcb].
  set (y := n ++ b2 ++ c :: x).
  assert (Hy : no_trivia y) by (apply lower_no_trivia, Hn).
  assert (Hyb : ends is_blank y) by (apply lower_name_ends; [exact Hn|intros; chr|reflexivity]).
  assert (Hlo : forall b, blanks b -> lo_name (b ++ y) = Err \/
                (b = [] /\ lo_name (b ++ y) = Ok (b2 ++ c :: x) n)).
  { intros b Hb. destruct b as [|d b].
    - right. split; [reflexivity|]. change ([] ++ y) with (n ++ (b2 ++ c :: x)).
      apply lo_name_intro; [exact Hn|]. right.
      apply ends_blanks; [exact H2|intros; chr|]. destruct Hc as [->| ->]; reflexivity.
    - left. unfold blanks in Hb. simpl in Hb. apply andb_true_iff in Hb as [Hd _].
      eapply heads_Err; [apply heads_lo_name|oks|]. cbn [app ends]. unfold name0. chr. }
  split.
  - destruct (opt_lay_blanks i b1 y H1 Hy Hyb) as (o & b' & Ho & Hb').
    unfold record_update_f, delimited.
    eapply bind_Err2; [eapply preceded_intro; [apply char_intro|exact Ho]|]. apply bind_Err1.
    destruct (Hlo b' Hb') as [He|[-> He]]; [apply bind_Err1, He|].
    eapply bind_Err2; [exact He|].
    destruct (opt_lay_blanks i b2 (c :: x) H2 Hcx Hcb) as (o2 & b2' & Ho2 & Hb2').
    eapply bind_Err2; [exact Ho2|]. apply bind_Err1, char_Err.
    apply ends_blanks; [exact Hb2'|intros; chr|]. destruct Hc as [->| ->]; reflexivity.
  - destruct (opt_sp_blanks i b1 y H1 Hy Hyb) as (o & b' & Ho & Hb').
    unfold record_f. apply map_Err. unfold delimited.
    eapply bind_Err2; [eapply preceded_intro; [apply char_intro|exact Ho]|].
    eapply bind_Err2.
    { apply sep_list_nil. unfold record_field_f, separated_pair.
      destruct (Hlo b' Hb') as [He|[-> He]]; [apply bind_Err1, He|].
      eapply bind_Err2; [exact He|]. apply bind_Err1. unfold delimited.
      destruct (opt_sp_blanks i b2 (c :: x) H2 Hcx Hcb) as (o2 & b2' & Ho2 & Hb2').
      eapply bind_Err2; [exact Ho2|]. apply bind_Err1, char_Err.
      apply ends_blanks; [exact Hb2'|intros; chr|]. destruct Hc as [->| ->]; reflexivity. }
    apply bind_Err1. unfold terminated.
    destruct (opt_sp_blanks i b' y Hb' Hy Hyb) as (o2 & b2' & Ho2 & Hb2').
    eapply bind_Err2; [exact Ho2|]. apply bind_Err1, char_Err.
    apply ends_blanks; [exact Hb2'|intros; chr|].
    apply lower_name_ends; [exact Hn|intros; chr|reflexivity].
Qed.

(** ** Lambda arguments end at an arrow *)

Lemma lam_stop i t x : trivia t -> sep_stop space1 (term i) (t ++ L "->" ++ x).
Proof.
  intros Ht.
  assert (H : no_term (snd (span Nom.is_space (t ++ L "->" ++ x)))).
  { induction Ht as [|t _ IH|t _ IH|c t _ _ _ _]; cbn [app span].
    - apply minus_no_term. reflexivity.
    - change (Nom.is_space space) with true. cbv iota.
      cbn [app] in IH. destruct (span Nom.is_space _) as [a b]. exact IH.
    - change (Nom.is_space newline) with false. cbv iota. apply never_no_term. reflexivity.
    - change (Nom.is_space (C "-")) with false. cbv iota. apply minus_no_term. reflexivity. }
  unfold sep_stop, space1, take_while1.
  destruct (span Nom.is_space (t ++ L "->" ++ x)) as [a b]. cbn [snd] in H.
  destruct a as [|a0 a]; [exact I|]. rewrite (no_term_Err i b H). auto.
Qed.

(** ** Tuples *)

Lemma tuple_elem_intro i b1 s e b2 c r : blanks b1 -> expression i s = Ok (b2 ++ c :: r) e ->
  blanks b2 -> is_blank c = false -> tuple_elem i (b1 ++ s) = Ok (c :: r) e.
Proof.
  intros H1 He H2 Hc. eapply delimited_intro.
  - apply multispace0_intro; [exact H1|]. eapply expr_ends; [exact He|apply blank_never].
  - exact He.
  - apply multispace0_intro; [exact H2|exact Hc].
Qed.

Definition tuple_at (i : N) (es : list expr) (s r : str) : Prop :=
  (es = [] /\ s = r) \/
  (elems (char_ (C ",")) (tuple_elem i) s es r /\
   exists b1 s0 y e, s = b1 ++ s0 /\ blanks b1 /\ expression i s0 = Ok y e /\
     (length es = 1 \/ exists b2 z, y = b2 ++ L "," ++ z /\ blanks b2)).

Lemma tuple_ok i es s r : tuple_at i es s (L ")" ++ r) ->
  tuple_f expression i (L "(" ++ s) = Ok r (Tuple es).
Proof.
  intros H. unfold tuple_f. apply map_intro.
  eapply delimited_intro; [apply char_intro| |apply char_intro].
  change (delimited multispace0 (expression i) multispace0) with (tuple_elem i).
  destruct H as [[-> ->]|[H _]].
  - apply sep_list_nil. unfold tuple_elem, delimited.
    eapply bind_Err2; [apply (multispace0_intro []); reflexivity|].
    apply bind_Err1, no_expr_Err, never_no_expr. reflexivity.
  - eapply elems_list; [apply eats_char|apply eats_tuple_elem|exact H|].
    apply sep_stop_Err. reflexivity.
Qed.

Lemma tuple_var_Err i es s r : tuple_at i es s (L ")" ++ r) -> variable (L "(" ++ s) = Err.
Proof.
  intros [[-> ->]|[_ (b1 & s0 & y & e & -> & H1 & He & _)]].
  - apply op_Err. intros o x He Hne Ho. destruct o as [|c o]; [congruence|].
    cbn [app] in He. injection He as <- _. simpl in Ho. destruct Ho; discriminate.
  - eapply op_Err_expr; eassumption.
Qed.

Lemma parens_Err i b1 s y e : blanks b1 -> expression i s = Ok y e ->
  (b1 <> [] \/ not_char (C ")") y) -> parens_f expression i (L "(" ++ b1 ++ s) = Err.
Proof.
  intros H1 He H. unfold parens_f, delimited. eapply bind_Err2; [apply char_intro|].
  destruct b1 as [|c b1].
  - destruct H as [H|H]; [congruence|]. eapply bind_Err2; [exact He|]. apply bind_Err1, char_Err, H.
  - apply bind_Err1, no_expr_Err, never_no_expr, blank_never.
    unfold blanks in H1. simpl in H1. apply andb_true_iff in H1 as [H1 _]. exact H1.
Qed.

(** skipping the alternatives that do not start with the given bracket *)
Lemma others_paren i s : others i (C "(" :: s) =
  (parens_f expression i <|> list_f expression i <|> tuple_f expression i
   <|> record_update_f expression i <|> record_f expression i <|> simplified_record) (C "(" :: s).
Proof.
  unfold others. unfold alt at 1.
  replace (access_function (C "(" :: s)) with (@Err expr) by (symmetry; nohead heads_access_function).
  unfold alt at 1. replace (string_ (C "(" :: s)) with (@Err expr) by (symmetry; nohead heads_string).
  unfold alt at 1. replace (float (C "(" :: s)) with (@Err expr) by (symmetry; nohead heads_float).
  unfold alt at 1. replace (integer (C "(" :: s)) with (@Err expr) by (symmetry; nohead heads_integer).
  unfold alt at 1. replace (character (C "(" :: s)) with (@Err expr) by (symmetry; nohead heads_character).
  reflexivity.
Qed.

Lemma others_brace i s : others i (C "{" :: s) =
  (record_update_f expression i <|> record_f expression i <|> simplified_record) (C "{" :: s).
Proof.
  unfold others. unfold alt at 1.
  replace (access_function (C "{" :: s)) with (@Err expr) by (symmetry; nohead heads_access_function).
  unfold alt at 1. replace (string_ (C "{" :: s)) with (@Err expr) by (symmetry; nohead heads_string).
  unfold alt at 1. replace (float (C "{" :: s)) with (@Err expr) by (symmetry; nohead heads_float).
  unfold alt at 1. replace (integer (C "{" :: s)) with (@Err expr) by (symmetry; nohead heads_integer).
  unfold alt at 1. replace (character (C "{" :: s)) with (@Err expr) by (symmetry; nohead heads_character).
  unfold alt at 1. replace (parens_f expression i (C "{" :: s)) with (@Err expr) by (symmetry; nohead heads_parens).
  unfold alt at 1. replace (list_f expression i (C "{" :: s)) with (@Err expr) by (symmetry; nohead heads_list).
  unfold alt at 1. replace (tuple_f expression i (C "{" :: s)) with (@Err expr) by (symmetry; nohead heads_tuple).
  reflexivity.
Qed.

Lemma brace_var_Err s : variable (C "{" :: s) = Err.
Proof. nohead heads_variable. Qed.

(** ** Definitions *)

Lemma function_sig_Err i n s s1 b y : RName n s s1 -> s1 = b ++ y -> spaces1 b ->
  ends is_sp_char y -> not_char (C ":") y -> function_signature i s = Err.
Proof.
  intros Hn -> Hb Hy Hc. unfold function_signature.
  eapply bind_Err2; [apply complete_name, Hn|].
  eapply bind_Err2; [apply spaces_intro; [exact Hb|exact Hy]|].
  apply bind_Err1, char_Err, Hc.
Qed.

Lemma let_binding_Err m n s b y : RName n s (b ++ y) -> spaces1 b ->
  no_trivia y -> not_char (C "=") y -> let_binding_f expression m s = Err.
Proof.
  intros Hn Hb Hy Hc. unfold let_binding_f.
  eapply bind_Err2; [apply alt_left, complete_variable, RName_RVar, Hn|].
  eapply bind_Err2; [apply sp_ge; [apply spaces_lay, Hb|exact Hy]|].
  apply bind_Err1, char_Err, Hc.
Qed.

Lemma RName_sp n s r : RName n s r -> ends is_sp_char s.
Proof.
  intros [n' r' Hn Hr|o r' Ho]; [|reflexivity].
  apply lower_name_ends; [exact Hn|intros; chr|reflexivity].
Qed.

Lemma eats_arg i : eats (preceded spaces (term i)).
Proof. apply ok_eats. intros n. ok0. oks. Qed.

Definition args_at (i : N) (args : list expr) (s r : str) : Prop :=
  (forall l r', manys (preceded spaces (term i)) r l r' ->
                manys (preceded spaces (term i)) s (args ++ l) r') /\
  ((args = [] /\ s = r) \/
   (args <> [] /\ exists b y r1 e, s = b ++ y /\ spaces1 b /\ term i y = Ok r1 e)).

Definition func_at (i : N) (f : func) (s r : str) : Prop :=
  function_f expression i s = Ok r f /\
  ((match f with mkFunc sg _ => sg end) <> None -> let_binding_f expression i s = Err).

Definition def_at (i : N) (d : func_def) (s r : str) : Prop :=
  function_definition_f expression i s = Ok r d /\ function_signature i s = Err /\
  ((match d with mkDef _ args _ => args end) <> [] -> let_binding_f expression i s = Err) /\ ends is_sp_char s.

(** ** One lemma for each rule *)

Lemma x_app i e s r : app_at i e s r -> no_arg i r -> no_infix i r -> expression i s = Ok r e.
Proof.
  intros H Ha Hi. rewrite expression_eq. apply alt_left. unfold binary_f.
  eapply bind_intro; [apply (app_ok i e s r H), no_arg_stop, Ha|].
  eapply bind_intro; [apply opt_None, no_infix_Err, Hi|]. reflexivity.
Qed.

Lemma x_binop i a s t j o b e s' r :
  app_at i a s (t ++ o ++ b ++ s') -> lay_ge i t j -> infix_operator o -> blanks1 b ->
  expression i s' = Ok r e -> expression i s = Ok r (BinOp (Variable_ [o]) a e).
Proof.
  intros H Ht Ho Hb He. rewrite expression_eq. apply alt_left. unfold binary_f.
  assert (Hn : no_trivia (o ++ b ++ s')) by (apply infix_no_trivia; assumption).
  assert (Hst : sep_stop (sp i IR_GT) (term i) (t ++ o ++ b ++ s')).
  { destruct (sp_cases i IR_GT _ _ _ (lay_run _ _ _ _ _ Ht Hn)) as [E|[_ E]];
      [apply sep_stop_Err, E|]. eapply sep_stop_next; [exact E|].
    apply no_term_Err, infix_no_term; assumption. }
  eapply bind_intro; [apply (app_ok i a s _ H Hst)|].
  apply (bind_intro _ _ _ r (Some (Variable_ [o], e))); [apply opt_Some|reflexivity].
  unfold operator_exp_f.
  eapply bind_intro; [apply sp_ge; [exact Ht|exact Hn]|].
  eapply bind_intro; [apply infix_parse; assumption|].
  eapply bind_intro; [apply multispace_intro; [exact Hb|]|].
  { eapply expr_ends; [exact He|apply blank_never]. }
  eapply bind_intro; [exact He|reflexivity].
Qed.

Lemma kw_binary w R i t j s : lay R i t j -> In w reserved_words ->
  binary_f expression i (w ++ t ++ s) = Err.
Proof. intros Ht Hin. apply binary_Err, no_term_Err. eapply kw_no_term; eassumption. Qed.

Lemma letter_no_trivia c s : is_lower c = true -> no_trivia (c :: s).
Proof. intros H. apply no_trivia_char; chr. Qed.

Lemma x_let i t1 m es s t2 j2 t3 j3 e s' r :
  lay_ge i t1 m -> elems (sp m IR_EQ) (entry m) s es (t2 ++ L "in" ++ t3 ++ s') ->
  lay_ge i t2 j2 -> lay_ge i t3 j3 -> expression i s' = Ok r e ->
  expression i (L "let" ++ t1 ++ s) = Ok r (Let_ es e).
Proof.
  intros H1 Hes H2 H3 He. rewrite expression_eq.
  apply alt_right; [eapply kw_binary; [exact H1|simpl; auto 25]|]. apply alt_left. unfold let_expression_f.
  eapply bind_intro; [apply tag_intro|].
  destruct (elems_head _ _ _ _ _ Hes) as (sx & x & Hx).
  eapply bind_intro.
  { apply sp_ge; [exact H1|]. eapply heads_no_trivia; [apply heads_entry|apply entry0_trivia|exact Hx]. }
  assert (Hn : no_trivia (L "in" ++ t3 ++ s')) by (apply letter_no_trivia; reflexivity).
  eapply bind_intro.
  { unfold let_bindings_f. eapply elems_nonempty; [apply eats_sp|apply eats_entry|exact Hes|].
    destruct (sp_cases m IR_EQ _ _ _ (lay_run _ _ _ _ _ H2 Hn)) as [E|[_ E]];
      [apply sep_stop_Err, E|]. eapply sep_stop_next; [exact E|].
    eapply keyword_entry_Err; [exact H3|simpl; auto 25]. }
  eapply bind_intro; [apply sp_ge; [exact H2|exact Hn]|].
  eapply bind_intro; [apply tag_intro|].
  eapply bind_intro; [apply sp_ge; [exact H3|eapply expr_no_trivia, He]|].
  eapply bind_intro; [exact He|reflexivity].
Qed.

Definition branches_at (m : N) (bs : list (expr * expr)) (s r : str) : Prop :=
  elems (sp m IR_EQ) (case_f expression m) s bs r /\ sep_stop (sp m IR_EQ) (case_f expression m) r.

Lemma case_expr_Ok m s r x : case_f expression m s = Ok r x -> exists s1 e, expression m s = Ok s1 e.
Proof. intros H. apply bind_Ok in H as (s1 & e & H & _). eauto. Qed.

Lemma x_case i t1 j1 e s t2 j2 t3 m bs s' r :
  lay_ge i t1 j1 -> expression i s = Ok (t2 ++ L "of" ++ t3 ++ s') e -> lay_ge i t2 j2 ->
  lay_ge i t3 m -> branches_at m bs s' r ->
  expression i (L "case" ++ t1 ++ s) = Ok r (Case_ e bs).
Proof.
  intros H1 He H2 H3 [Hbs Hst]. rewrite expression_eq.
  apply alt_right; [eapply kw_binary; [exact H1|simpl; auto 25]|].
  apply alt_right; [reflexivity|]. apply alt_left. unfold case_expression_f.
  eapply bind_intro; [apply tag_intro|].
  eapply bind_intro; [apply sp_ge; [exact H1|eapply expr_no_trivia, He]|].
  eapply bind_intro; [exact He|].
  eapply bind_intro; [apply sp_ge; [exact H2|apply letter_no_trivia; reflexivity]|].
  eapply bind_intro; [apply tag_intro|].
  destruct (elems_head _ _ _ _ _ Hbs) as (sx & x & Hx). apply case_expr_Ok in Hx as (sx' & e' & Hx).
  eapply bind_intro; [apply sp_ge; [exact H3|eapply expr_no_trivia, Hx]|].
  eapply bind_intro; [|reflexivity].
  unfold cases_f. eapply elems_nonempty; [apply eats_sp|apply eats_case|exact Hbs|exact Hst].
Qed.

Lemma x_if i t1 j1 c s1 t2 j2 t3 j3 t s2 t4 j4 t5 j5 e s3 r :
  lay_ge i t1 j1 -> expression i s1 = Ok (t2 ++ L "then" ++ t3 ++ s2) c -> lay_ge i t2 j2 ->
  lay_ge i t3 j3 -> expression j3 s2 = Ok (t4 ++ L "else" ++ t5 ++ s3) t -> lay_ge i t4 j4 ->
  lay_ge i t5 j5 -> expression j5 s3 = Ok r e ->
  expression i (L "if" ++ t1 ++ s1) = Ok r (If_ c t e).
Proof.
  intros H1 Hc H2 H3 Ht H4 H5 He. rewrite expression_eq.
  apply alt_right; [eapply kw_binary; [exact H1|simpl; auto 25]|].
  apply alt_right; [reflexivity|]. apply alt_right; [reflexivity|]. apply alt_left.
  unfold if_expression_f.
  eapply bind_intro; [apply tag_intro|].
  eapply bind_intro; [apply sp_ge; [exact H1|eapply expr_no_trivia, Hc]|].
  eapply bind_intro; [exact Hc|].
  eapply bind_intro; [apply sp_ge; [exact H2|apply letter_no_trivia; reflexivity]|].
  eapply bind_intro; [apply tag_intro|].
  eapply bind_intro; [apply sp_ge; [exact H3|eapply expr_no_trivia, Ht]|].
  eapply bind_intro; [exact Ht|].
  eapply bind_intro; [apply sp_ge; [exact H4|apply letter_no_trivia; reflexivity]|].
  eapply bind_intro; [apply tag_intro|].
  eapply bind_intro; [apply sp_ge; [exact H5|eapply expr_no_trivia, He]|].
  eapply bind_intro; [exact He|reflexivity].
Qed.

Lemma x_lambda i args s t1 j1 t2 j2 e s' r :
  elems space1 (term i) s args (t1 ++ L "->" ++ t2 ++ s') -> lay_ge i t1 j1 -> lay_ge i t2 j2 ->
  expression j2 s' = Ok r e -> expression i (L "\" ++ s) = Ok r (Lambda args e).
Proof.
  intros Ha H1 H2 He. rewrite expression_eq.
  destruct (elems_head _ _ _ _ _ Ha) as (sx & x & Hx).
  assert (Hnt : no_term (backslash :: s)).
  { repeat split; intros Hc; try discriminate Hc; destruct Hc; discriminate. }
  apply alt_right; [apply binary_Err, no_term_Err, Hnt|].
  apply alt_right; [reflexivity|]. apply alt_right; [reflexivity|]. apply alt_right; [reflexivity|].
  unfold lambda_f. eapply bind_intro; [apply char_intro|].
  eapply bind_intro.
  { eapply elems_nonempty; [apply eats_space1|apply eats_term|exact Ha|].
    apply lam_stop. destruct H1. assumption. }
  eapply bind_intro; [apply sp_ge; [exact H1|apply no_trivia_arrow]|].
  eapply bind_intro; [apply tag_intro|].
  eapply bind_intro; [apply sp_ge; [exact H2|eapply expr_no_trivia, He]|].
  eapply bind_intro; [exact He|reflexivity].
Qed.

Lemma x_app_term i e s r : term i s = Ok r e -> app_at i e s r.
Proof. intros H. exists e, [], r. split; [exact H|]. split; [reflexivity|]. intros l r' Hl. exact Hl. Qed.

Lemma x_app_app i f s t j x s' r :
  app_at i f s (t ++ s') -> lay_gt i t j -> term i s' = Ok r x ->
  app_at i (Application f x) s r.
Proof.
  intros (g & es & s1 & Hg & -> & Hes) Ht Hx. exists g, (es ++ [x]), s1. split; [exact Hg|].
  split; [rewrite fold_left_app; reflexivity|]. intros l r' Hl. rewrite <- app_assoc. apply Hes.
  eapply seps_cons; [apply eats_sp|apply eats_term| |exact Hx|exact Hl].
  apply sp_gt; [exact Ht|eapply term_no_trivia, Hx].
Qed.

(** terms *)
Lemma t_var i e s r : RVar e s r -> no_access r -> term i s = Ok r e.
Proof.
  intros H Ha. apply complete_variable in H. unfold term, term_f.
  apply alt_right; [|apply alt_left, H]. unfold access. eapply bind_Err2; [exact H|].
  apply bind_Err1. unfold many1. fold access_step. rewrite (no_access_Err r Ha). reflexivity.
Qed.

Lemma t_access i e s fs s' r : RVar e s s' -> RAccess fs s' r -> term i s = Ok r (Access e fs).
Proof.
  intros H Hf. apply complete_variable in H. apply complete_access in Hf as (f & fs' & s1 & -> & Hf & Hm).
  apply alt_left. unfold access. eapply bind_intro; [exact H|]. eapply bind_intro; [|reflexivity].
  fold access_step. eapply many1_intro; [apply eats_le, eats_access_step|exact Hf|exact Hm].
Qed.

Lemma t_access_function i n r : lower_name n -> ends_lower n r ->
  term i (L "." ++ n ++ r) = Ok r (AccessFunction n).
Proof.
  intros Hn Hr. rewrite term_others; [|nohead heads_variable]. apply alt_left.
  unfold access_function. eapply bind_intro; [apply char_intro|].
  eapply bind_intro; [apply lo_name_intro; assumption|reflexivity].
Qed.

Lemma t_string i s r e : string_ s = Ok r e -> term i s = Ok r e.
Proof.
  intros H. destruct (heads_string _ _ _ H) as (c & s' & -> & Hc). apply N.eqb_eq in Hc. subst c.
  rewrite term_others; [|nohead heads_variable].
  apply alt_right; [nohead heads_access_function|]. apply alt_left, H.
Qed.

Lemma number0_var c s : number0 c = true -> variable (c :: s) = Err.
Proof. intros H. eapply heads_Err; [apply heads_variable|oks|]. cbn [ends]. unfold number0, var0 in *. chr. Qed.

Lemma t_float i s r e : float s = Ok r e -> term i s = Ok r e.
Proof.
  intros H. destruct (heads_float _ _ _ H) as (c & s' & -> & Hc).
  rewrite term_others; [|apply number0_var, Hc]. unfold number0 in Hc.
  apply alt_right; [eapply heads_Err; [apply heads_access_function|oks|cbn [ends]; chr]|].
  apply alt_right; [eapply heads_Err; [apply heads_string|oks|cbn [ends]; chr]|].
  apply alt_left, H.
Qed.

Lemma t_integer i s r e : float s = Err -> integer s = Ok r e -> term i s = Ok r e.
Proof.
  intros Hf H. destruct (heads_integer _ _ _ H) as (c & s' & -> & Hc).
  rewrite term_others; [|apply number0_var, Hc]. unfold number0 in Hc.
  apply alt_right; [eapply heads_Err; [apply heads_access_function|oks|cbn [ends]; chr]|].
  apply alt_right; [eapply heads_Err; [apply heads_string|oks|cbn [ends]; chr]|].
  apply alt_right; [exact Hf|]. apply alt_left, H.
Qed.

Lemma t_character i s r e : character s = Ok r e -> term i s = Ok r e.
Proof.
  intros H. destruct (heads_character _ _ _ H) as (c & s' & -> & Hc). apply N.eqb_eq in Hc. subst c.
  rewrite term_others; [|nohead heads_variable].
  apply alt_right; [nohead heads_access_function|]. apply alt_right; [nohead heads_string|].
  apply alt_right; [nohead heads_float|]. apply alt_right; [nohead heads_integer|].
  apply alt_left, H.
Qed.

Lemma t_parens i e s r : expression i s = Ok (L ")" ++ r) e -> term i (L "(" ++ s) = Ok r e.
Proof.
  intros H. rewrite term_others; [|apply (op_Err_expr i [] s (L ")" ++ r) e); [reflexivity|exact H]].
  change (L "(" ++ s) with (C "(" :: s). rewrite others_paren. apply alt_left.
  eapply delimited_intro; [apply char_intro|exact H|apply char_intro].
Qed.

Lemma t_list i e s r : list_f expression i s = Ok r e -> term i s = Ok r e.
Proof.
  intros H. destruct (heads_list _ _ _ _ _ H) as (c & s' & -> & Hc). apply N.eqb_eq in Hc. subst c.
  rewrite term_others; [|nohead heads_variable]. unfold others.
  apply alt_right; [nohead heads_access_function|]. apply alt_right; [nohead heads_string|].
  apply alt_right; [nohead heads_float|]. apply alt_right; [nohead heads_integer|].
  apply alt_right; [nohead heads_character|]. apply alt_right; [nohead heads_parens|].
  apply alt_left, H.
Qed.

Lemma t_tuple_at i es s r : tuple_at i es s (L ")" ++ r) ->
  parens_f expression i (L "(" ++ s) = Err -> term i (L "(" ++ s) = Ok r (Tuple es).
Proof.
  intros H Hp. rewrite term_others; [|eapply tuple_var_Err, H].
  pose proof (tuple_ok _ _ _ _ H) as Ht. change (L "(" ++ s) with (C "(" :: s) in *.
  rewrite others_paren. apply alt_right; [exact Hp|].
  apply alt_right; [nohead heads_list|]. apply alt_left, Ht.
Qed.

Lemma t_tuple i es s r : tuple_at i es s (L ")" ++ r) -> length es <> 1 ->
  term i (L "(" ++ s) = Ok r (Tuple es).
Proof.
  intros H Hl. apply t_tuple_at; [exact H|].
  destruct H as [[-> ->]|[_ (b1 & s0 & y & e & -> & H1 & He & [H|(b2 & z & -> & Hb2)])]].
  - unfold parens_f, delimited. eapply bind_Err2; [apply char_intro|].
    apply bind_Err1, no_expr_Err, never_no_expr. reflexivity.
  - congruence.
  - eapply parens_Err; [exact H1|exact He|]. right.
    apply ends_blanks; [exact Hb2|intros; chr|reflexivity].
Qed.

Lemma u_one i b1 e s b2 r : blanks b1 -> expression i s = Ok (b2 ++ L ")" ++ r) e -> blanks b2 ->
  tuple_at i [e] (b1 ++ s) (L ")" ++ r).
Proof.
  intros H1 He H2. right. split.
  - apply elems_one. eapply (tuple_elem_intro i b1 s e b2 (C ")")); [exact H1|exact He|exact H2|reflexivity].
  - do 4 eexists. split; [reflexivity|]. split; [exact H1|]. split; [exact He|]. left. reflexivity.
Qed.

Lemma t_tuple_one i b1 e s b2 r :
  blanks b1 -> expression i s = Ok (b2 ++ L ")" ++ r) e -> blanks b2 -> b1 ++ b2 <> [] ->
  term i (L "(" ++ b1 ++ s) = Ok r (Tuple [e]).
Proof.
  intros H1 He H2 Hne. apply t_tuple_at; [eapply u_one; eassumption|].
  eapply parens_Err; [exact H1|exact He|]. destruct b1 as [|c b1]; [right|left; discriminate].
  destruct b2 as [|c b2]; [contradiction|]. unfold blanks in H2. simpl in H2.
  apply andb_true_iff in H2 as [Hc _]. unfold not_char. cbn [app ends]. chr.
Qed.

Lemma u_nil i r : tuple_at i [] (L ")" ++ r) (L ")" ++ r).
Proof. left. auto. Qed.

Lemma u_cons i b1 e s b2 es s' r :
  blanks b1 -> expression i s = Ok (b2 ++ L "," ++ s') e -> blanks b2 -> es <> [] ->
  tuple_at i es s' r -> tuple_at i (e :: es) (b1 ++ s) r.
Proof.
  intros H1 He H2 Hne [[H _]|[H _]]; [contradiction|]. right. split.
  - eapply elems_cons; [apply eats_char|apply eats_tuple_elem| |apply char_intro|exact H].
    eapply (tuple_elem_intro i b1 s e b2 (C ",")); [exact H1|exact He|exact H2|reflexivity].
  - do 4 eexists. split; [reflexivity|]. split; [exact H1|]. split; [exact He|].
    right. do 2 eexists. split; [reflexivity|exact H2].
Qed.

Lemma update_lo_name i s r x : update_field_f expression i s = Ok r x -> ends is_blank s /\ no_trivia s.
Proof.
  intros H. apply bind_Ok in H as (s1 & n & H & _). apply heads_lo_name in H as (c & s' & -> & Hc).
  unfold name0 in Hc. split; [cbn [ends]; chr|apply no_trivia_char; chr].
Qed.
Lemma field_lo_name i s r x : record_field_f expression i s = Ok r x -> no_trivia s.
Proof.
  intros H. apply bind_Ok in H as (s1 & n & H & _). apply heads_lo_name in H as (c & s' & -> & Hc).
  unfold name0 in Hc. apply no_trivia_char; chr.
Qed.

Lemma t_update_at i t1 n t2 b fs s y t3 j3 r :
  olay i t1 -> lower_name n -> olay i t2 -> blanks b -> ends is_blank s ->
  separated_list (comma2 i) (update_field_f expression i) s = Ok y fs ->
  y = t3 ++ L "}" ++ r -> lay_ge i t3 j3 ->
  term i (L "{" ++ t1 ++ n ++ t2 ++ L "|" ++ b ++ s) = Ok r (RecordUpdate n fs).
Proof.
  intros H1 Hn H2 Hb Hs Hl -> H3.
  rewrite term_others; [|apply brace_var_Err]. cbn [app]. rewrite others_brace. apply alt_left.
  destruct (opt_lay_intro i t1 (n ++ t2 ++ L "|" ++ b ++ s) H1) as [o1 E1];
    [apply lower_no_trivia, Hn|].
  destruct (opt_lay_intro i t2 (L "|" ++ b ++ s) H2) as [o2 E2]; [apply no_trivia_char; discriminate|].
  unfold record_update_f. eapply delimited_intro.
  - eapply preceded_intro; [apply char_intro|exact E1].
  - eapply bind_intro; [apply lo_name_intro; [exact Hn|]|].
    { right. apply (ends_olay is_name_char i t2 (C "|")); [exact H2|reflexivity..]. }
    eapply bind_intro; [exact E2|]. eapply bind_intro; [apply char_intro|].
    eapply bind_intro; [apply multispace0_intro; [exact Hb|exact Hs]|].
    eapply bind_intro; [exact Hl|reflexivity].
  - eapply terminated_intro; [apply sp_ge; [exact H3|apply no_trivia_char; discriminate]|apply char_intro].
Qed.

Lemma t_update i t1 n t2 b fs s t3 j3 r :
  olay i t1 -> lower_name n -> olay i t2 -> blanks b ->
  elems (comma2 i) (update_field_f expression i) s fs (t3 ++ L "}" ++ r) -> lay_ge i t3 j3 ->
  term i (L "{" ++ t1 ++ n ++ t2 ++ L "|" ++ b ++ s) = Ok r (RecordUpdate n fs).
Proof.
  intros H1 Hn H2 Hb Hf H3. destruct (elems_head _ _ _ _ _ Hf) as (sx & x & Hx).
  apply update_lo_name in Hx as [Hx _].
  eapply t_update_at; [exact H1|exact Hn|exact H2|exact Hb|exact Hx| |reflexivity|exact H3].
  eapply elems_list; [apply eats_comma2|apply eats_update|exact Hf|].
  apply comma2_stop; [right; eauto|apply no_trivia_char; discriminate|discriminate].
Qed.

Lemma t_update_empty i t1 n t2 b t3 j3 r :
  olay i t1 -> lower_name n -> olay i t2 -> blanks b -> lay_ge i (L "--" ++ t3) j3 ->
  term i (L "{" ++ t1 ++ n ++ t2 ++ L "|" ++ b ++ L "--" ++ t3 ++ L "}" ++ r) =
  Ok r (RecordUpdate n []).
Proof.
  intros H1 Hn H2 Hb H3.
  eapply t_update_at; [exact H1|exact Hn|exact H2|exact Hb|reflexivity| |reflexivity|exact H3].
  apply sep_list_nil. apply bind_Err1. nohead heads_lo_name.
Qed.

Lemma t_brace i s r e : record_update_f expression i (L "{" ++ s) = Err ->
  record_f expression i (L "{" ++ s) = Ok r e -> term i (L "{" ++ s) = Ok r e.
Proof.
  intros H1 H2. rewrite term_others; [|apply brace_var_Err]. cbn [app] in *. rewrite others_brace.
  apply alt_right; [exact H1|]. apply alt_left, H2.
Qed.

Definition field_shape (i : N) (s : str) : Prop :=
  exists n t1 s', s = n ++ t1 ++ L "=" ++ s' /\ lower_name n /\ olay i t1.

Lemma t_record i t1 fs s t2 r :
  olay i t1 -> elems (comma_sep i) (record_field_f expression i) s fs (t2 ++ L "}" ++ r) /\ field_shape i s ->
  olay i t2 -> term i (L "{" ++ t1 ++ s) = Ok r (Record_ fs).
Proof.
  intros H1 [Hf (n & t0 & s' & -> & Hn & H0)] H2. apply t_brace.
  - apply update_Err_record; assumption.
  - unfold record_f. apply map_intro.
    destruct (open_ok i (C "{") t1 (n ++ t0 ++ L "=" ++ s') H1) as [o Ho];
      [apply lower_no_trivia, Hn|].
    destruct (close_ok i t2 (C "}") r H2) as [o2 Ho2]; [apply no_trivia_char; discriminate|].
    eapply delimited_intro; [exact Ho| |exact Ho2].
    eapply elems_list; [apply eats_comma|apply eats_field|exact Hf|].
    apply comma_stop'; [exact H2|apply no_trivia_char; discriminate|discriminate].
Qed.

Lemma t_record_empty i t1 r : olay i t1 -> term i (L "{" ++ t1 ++ L "}" ++ r) = Ok r (Record_ []).
Proof.
  intros H1. apply t_brace; [apply update_Err_empty, H1|]. unfold record_f. apply map_intro.
  destruct (open_ok i (C "{") t1 (L "}" ++ r) H1) as [o Ho]; [apply no_trivia_char; discriminate|].
  destruct (close_ok i [] (C "}") r) as [o2 Ho2]; [left; reflexivity|apply no_trivia_char; discriminate|].
  eapply delimited_intro; [exact Ho| |exact Ho2].
  apply sep_list_nil. apply bind_Err1. nohead heads_lo_name.
Qed.

Lemma t_names i fs s r : RNames fs s r -> term i (L "{" ++ s) = Ok r (Record_ fs).
Proof.
  intros H. pose proof (complete_name_record _ _ _ H) as Hr.
  destruct (names_shape _ _ _ H) as (b1 & n & b2 & c & x & -> & H1 & Hn & H2 & Hc).
  destruct (names_braces i b1 n b2 c x H1 Hn H2 Hc) as [E1 E2].
  rewrite term_others; [|apply brace_var_Err]. cbn [app] in *. rewrite others_brace.
  apply alt_right; [exact E1|]. apply alt_right; [exact E2|exact Hr].
Qed.

(** lists *)
Lemma l_some i t1 es s t2 r :
  olay i t1 -> elems (comma_sep i) (expression i) s es (t2 ++ L "]" ++ r) -> olay i t2 ->
  list_f expression i (L "[" ++ t1 ++ s) = Ok r (List_ es).
Proof.
  intros H1 He H2. unfold list_f. destruct (elems_head _ _ _ _ _ He) as (sx & x & Hx).
  apply (map_intro (fun o : option (list expr) => List_ (match o with Some l => l | None => [] end)) _ _ _ (Some es)).
  destruct (open_ok i (C "[") t1 s H1) as [o Ho]; [eapply expr_no_trivia, Hx|].
  destruct (close_ok i t2 (C "]") r H2) as [o2 Ho2]; [apply no_trivia_char; discriminate|].
  eapply delimited_intro; [exact Ho| |exact Ho2]. apply opt_Some.
  eapply elems_list; [apply eats_comma|apply eats_expression|exact He|].
  apply comma_stop'; [exact H2|apply no_trivia_char; discriminate|discriminate].
Qed.

Lemma l_empty i t1 r : olay i t1 -> list_f expression i (L "[" ++ t1 ++ L "]" ++ r) = Ok r (List_ []).
Proof.
  intros H1. unfold list_f.
  apply (map_intro (fun o : option (list expr) => List_ (match o with Some l => l | None => [] end)) _ _ _ (Some [])).
  destruct (open_ok i (C "[") t1 (L "]" ++ r) H1) as [o Ho]; [apply no_trivia_char; discriminate|].
  destruct (close_ok i [] (C "]") r) as [o2 Ho2]; [left; reflexivity|apply no_trivia_char; discriminate|].
  eapply delimited_intro; [exact Ho| |exact Ho2]. apply opt_Some.
  apply sep_list_nil, no_expr_Err, never_no_expr. reflexivity.
Qed.

Lemma l_cons i e s t1 t2 es s' r :
  expression i s = Ok (t1 ++ L "," ++ t2 ++ s') e -> olay i t1 -> olay i t2 ->
  elems (comma_sep i) (expression i) s' es r -> elems (comma_sep i) (expression i) s (e :: es) r.
Proof.
  intros He H1 H2 Hes. destruct (elems_head _ _ _ _ _ Hes) as (sx & x & Hx).
  eapply elems_cons; [apply eats_comma|apply eats_expression|exact He| |exact Hes].
  apply comma_intro; [exact H1|exact H2|eapply expr_no_trivia, Hx].
Qed.

(** fields *)
Definition field_at (i : N) (n : str) (e : expr) (s r : str) : Prop :=
  record_field_f expression i s = Ok r (n, e) /\ field_shape i s.
Definition fields_at (i : N) (fs : list (str * expr)) (s r : str) : Prop :=
  elems (comma_sep i) (record_field_f expression i) s fs r /\ field_shape i s.

Lemma f_one i n e s r : field_at i n e s r -> fields_at i [(n, e)] s r.
Proof. intros [H Hs]. split; [apply elems_one, H|exact Hs]. Qed.

Lemma f_cons i n e s t1 t2 fs s' r :
  field_at i n e s (t1 ++ L "," ++ t2 ++ s') -> olay i t1 -> olay i t2 -> fields_at i fs s' r ->
  fields_at i ((n, e) :: fs) s r.
Proof.
  intros [H Hs] H1 H2 [Hf _]. split; [|exact Hs]. destruct (elems_head _ _ _ _ _ Hf) as (sx & x & Hx).
  eapply elems_cons; [apply eats_comma|apply eats_field|exact H| |exact Hf].
  apply comma_intro; [exact H1|exact H2|eapply field_lo_name, Hx].
Qed.

Lemma f_intro i n t1 t2 e s r : lower_name n -> olay i t1 -> olay i t2 -> expression i s = Ok r e ->
  field_at i n e (n ++ t1 ++ L "=" ++ t2 ++ s) r.
Proof.
  intros Hn H1 H2 He. split; [|do 3 eexists; split; [reflexivity|auto]].
  unfold record_field_f, separated_pair.
  destruct (opt_sp_intro i t1 (L "=" ++ t2 ++ s) H1) as [o1 E1]; [apply no_trivia_char; discriminate|].
  destruct (opt_sp_intro i t2 s H2) as [o2 E2]; [eapply expr_no_trivia, He|].
  eapply bind_intro; [apply lo_name_intro; [exact Hn|right]|].
  { apply (ends_olay is_name_char i t1 (C "=")); [exact H1|reflexivity..]. }
  eapply bind_intro; [eapply delimited_intro; [exact E1|apply char_intro|exact E2]|].
  eapply bind_intro; [exact He|reflexivity].
Qed.

Lemma up_cons i n e s t1 t2 fs s' r :
  update_field_f expression i s = Ok (t1 ++ L "," ++ t2 ++ s') (n, e) -> olay i t1 -> olay i t2 ->
  elems (comma2 i) (update_field_f expression i) s' fs r ->
  elems (comma2 i) (update_field_f expression i) s ((n, e) :: fs) r.
Proof.
  intros H H1 H2 Hf. destruct (elems_head _ _ _ _ _ Hf) as (sx & x & Hx).
  eapply elems_cons; [apply eats_comma2|apply eats_update|exact H| |exact Hf].
  apply comma2_intro; [exact H1|exact H2|apply (update_lo_name _ _ _ _ Hx)].
Qed.

Lemma up_intro i n b1 b2 e s r : lower_name n -> blanks b1 -> blanks b2 -> expression i s = Ok r e ->
  update_field_f expression i (n ++ b1 ++ L "=" ++ b2 ++ s) = Ok r (n, e).
Proof.
  intros Hn H1 H2 He. unfold update_field_f.
  eapply bind_intro; [apply lo_name_intro; [exact Hn|right]|].
  { apply ends_blanks; [exact H1|intros; chr|reflexivity]. }
  eapply bind_intro; [apply multispace0_intro; [exact H1|reflexivity]|].
  eapply bind_intro; [apply char_intro|].
  eapply bind_intro; [apply multispace0_intro; [exact H2|eapply expr_ends; [exact He|apply blank_never]]|].
  eapply bind_intro; [exact He|reflexivity].
Qed.

Lemma la_cons i e s b es s' r : term i s = Ok (b ++ s') e -> tabs1 b -> elems space1 (term i) s' es r ->
  elems space1 (term i) s (e :: es) r.
Proof.
  intros He Hb Hes. destruct (elems_head _ _ _ _ _ Hes) as (sx & x & Hx).
  eapply elems_cons; [apply eats_space1|apply eats_term|exact He| |exact Hes].
  apply space1_intro; [exact Hb|eapply term_ends; [exact Hx|apply tab_never]].
Qed.

(** let entries *)
Lemma en_cons m x s t j xs s' r : entry m s = Ok (t ++ s') x -> lay_eq m t j ->
  elems (sp m IR_EQ) (entry m) s' xs r -> elems (sp m IR_EQ) (entry m) s (x :: xs) r.
Proof.
  intros Hx Ht Hes. destruct (elems_head _ _ _ _ _ Hes) as (sx & y & Hy).
  eapply elems_cons; [apply eats_sp|apply eats_entry|exact Hx| |exact Hes].
  apply sp_eq; [exact Ht|eapply heads_no_trivia; [apply heads_entry|apply entry0_trivia|exact Hy]].
Qed.

Lemma en_binding m x s t1 j1 t2 j e s' r :
  target m s = Ok (t1 ++ L "=" ++ t2 ++ s') x -> lay_ge m t1 j1 -> lay_ge m t2 j ->
  expression j s' = Ok r e -> entry m s = Ok r (LetBinding x e).
Proof.
  intros Hx H1 H2 He. apply alt_left. unfold let_binding_f. eapply bind_intro; [exact Hx|].
  eapply bind_intro; [apply sp_ge; [exact H1|apply no_trivia_char; discriminate]|].
  eapply bind_intro; [apply char_intro|].
  eapply bind_intro; [apply sp_ge; [exact H2|eapply expr_no_trivia, He]|].
  eapply bind_intro; [exact He|reflexivity].
Qed.

Lemma fn_plain i d s r : def_at i d s r -> func_at i (mkFunc None d) s r.
Proof.
  intros (H & Hs & _ & _). split; [|congruence]. unfold function_f.
  eapply bind_intro; [apply opt_None|].
  - unfold terminated. apply bind_Err1, Hs.
  - eapply bind_intro; [exact H|reflexivity].
Qed.

Lemma fn_sig i sg s b d s' r : RSig i sg s ([newline] ++ b ++ s') -> all_spaces b = true ->
  (N.of_nat (length b) mod 2 ^ 32 = i)%N -> def_at i d s' r ->
  func_at i (mkFunc (Some sg) d) s r.
Proof.
  intros Hsg Hb Hi (H & _ & _ & Hsp). pose proof (complete_sig _ _ _ _ Hsg) as Hc. split.
  - unfold function_f. eapply bind_intro.
    + apply opt_Some. eapply terminated_intro; [exact Hc|]. apply nl_intro; eassumption.
    + eapply bind_intro; [exact H|reflexivity].
  - intros _. destruct Hsg as [i' n sn b1 t1 j t s2 r2 Hn Hb1 Ht _].
    eapply let_binding_Err; [exact Hn|exact Hb1|apply no_trivia_char; discriminate|reflexivity].
Qed.

Lemma en_function m n args e s r : args <> [] -> def_at m (mkDef n args e) s r ->
  entry m s = Ok r (LetFunction (mkFunc None (mkDef n args e))).
Proof.
  intros Hne H. destruct (fn_plain _ _ _ _ H) as [Hf _]. destruct H as (_ & _ & Hb & _).
  apply alt_right; [apply Hb, Hne|]. apply map_intro, Hf.
Qed.

Lemma en_function_sig m sg d s r : func_at m (mkFunc (Some sg) d) s r ->
  entry m s = Ok r (LetFunction (mkFunc (Some sg) d)).
Proof.
  intros [Hf Hb]. apply alt_right; [apply Hb; discriminate|]. apply map_intro, Hf.
Qed.

Lemma ta_list i e s r : list_f expression i s = Ok r e -> target i s = Ok r e.
Proof.
  intros H. destruct (heads_list _ _ _ _ _ H) as (c & s' & -> & Hc). apply N.eqb_eq in Hc. subst c.
  apply alt_right; [nohead heads_variable|]. apply alt_left, H.
Qed.
Lemma ta_tuple i es s r : tuple_at i es s (L ")" ++ r) -> target i (L "(" ++ s) = Ok r (Tuple es).
Proof.
  intros H. apply alt_right; [eapply tuple_var_Err, H|].
  apply alt_right; [nohead heads_list|]. apply alt_left, tuple_ok, H.
Qed.
Lemma ta_names i fs s r : RNames fs s r -> target i (L "{" ++ s) = Ok r (Record_ fs).
Proof.
  intros H. apply alt_right; [nohead heads_variable|]. apply alt_right; [nohead heads_list|].
  apply alt_right; [nohead heads_tuple|]. apply complete_name_record, H.
Qed.
Lemma ta_no_names i r : target i (L "{}" ++ r) = Ok r (Record_ []).
Proof.
  apply alt_right; [nohead heads_variable|]. apply alt_right; [nohead heads_list|].
  apply alt_right; [nohead heads_tuple|]. unfold simplified_record. apply map_intro.
  eapply delimited_intro; [apply (char_intro (C "{"))|apply sep_list_nil|apply char_intro].
  unfold simplified_field. eapply bind_Err2; [apply (multispace0_intro [] (C "}" :: r)); reflexivity|].
  apply bind_Err1. nohead heads_lo_name.
Qed.

(** definitions *)
Lemma args_nil i r : args_at i [] r r.
Proof. split; [auto|left; auto]. Qed.
Lemma args_cons i b e s s' es r : spaces1 b -> term i s = Ok s' e -> args_at i es s' r ->
  args_at i (e :: es) (b ++ s) r.
Proof.
  intros Hb He [Hes _]. split.
  - intros l r' Hl. cbn [app]. eapply manys_cons; [apply eats_arg| |apply Hes, Hl].
    eapply preceded_intro; [apply spaces_intro; [exact Hb|eapply term_ends; [exact He|apply sp_never]]|exact He].
  - right. split; [discriminate|]. eauto 10.
Qed.

Lemma df_intro i n sn args s1 b t j e s r :
  RName n sn s1 -> args_at i args s1 (b ++ L "=" ++ t ++ s) -> spaces1 b -> lay_gt i t j ->
  expression j s = Ok r e -> def_at i (mkDef n args e) sn r.
Proof.
  intros Hn [Hes Hc] Hb Ht He. repeat split.
  - unfold function_definition_f. eapply bind_intro; [apply complete_name, Hn|].
    apply (bind_intro _ _ _ (b ++ L "=" ++ t ++ s) args).
    { eapply many0_ok; [apply eats_arg|]. rewrite <- (app_nil_r args). apply Hes.
      apply manys_stop, many_stop_Err. unfold preceded.
      eapply bind_Err2; [apply spaces_intro; [exact Hb|reflexivity]|].
      apply no_term_Err, never_no_term. reflexivity. }
    eapply bind_intro; [apply spaces_intro; [exact Hb|reflexivity]|].
    eapply bind_intro; [apply char_intro|].
    eapply bind_intro; [apply sp_gt; [exact Ht|eapply expr_no_trivia, He]|].
    eapply bind_intro; [exact He|reflexivity].
  - destruct Hc as [[-> ->]|[_ (b0 & y & r1 & e1 & -> & Hb0 & Hy)]].
    + eapply function_sig_Err; [exact Hn|reflexivity|exact Hb|reflexivity|reflexivity].
    + eapply function_sig_Err; [exact Hn|reflexivity|exact Hb0|..].
      * eapply term_ends; [exact Hy|apply sp_never].
      * eapply term_ends; [exact Hy|]. intros c Hc. apply N.eqb_eq in Hc. subst c. reflexivity.
  - intros Hne. destruct Hc as [[-> ->]|[_ (b0 & y & r1 & e1 & -> & Hb0 & Hy)]]; [congruence|].
    eapply let_binding_Err; [exact Hn|exact Hb0|eapply term_no_trivia, Hy|].
    eapply term_ends; [exact Hy|]. intros c Hc. apply N.eqb_eq in Hc. subst c. reflexivity.
  - eapply RName_sp, Hn.
Qed.

(** branches *)
Lemma br_one m p e s r : case_f expression m s = Ok r (p, e) ->
  sep_stop (sp m IR_EQ) (case_f expression m) r -> branches_at m [(p, e)] s r.
Proof. intros H Hs. split; [apply elems_one, H|exact Hs]. Qed.

Lemma br_cons m p e s t j bs s' r : case_f expression m s = Ok (t ++ s') (p, e) -> lay_eq m t j ->
  branches_at m bs s' r -> branches_at m ((p, e) :: bs) s r.
Proof.
  intros H Ht [Hbs Hst]. split; [|exact Hst]. destruct (elems_head _ _ _ _ _ Hbs) as (sx & x & Hx).
  apply case_expr_Ok in Hx as (sx' & e' & Hx).
  eapply elems_cons; [apply eats_sp|apply eats_case|exact H| |exact Hbs].
  apply sp_eq; [exact Ht|eapply expr_no_trivia, Hx].
Qed.

Lemma br_intro m p s t1 j1 t2 j e s' r :
  expression m s = Ok (t1 ++ L "->" ++ t2 ++ s') p -> lay_ge m t1 j1 -> lay_ge m t2 j ->
  expression j s' = Ok r e -> case_f expression m s = Ok r (p, e).
Proof.
  intros Hp H1 H2 He. unfold case_f. eapply bind_intro; [exact Hp|].
  eapply bind_intro; [apply sp_ge; [exact H1|apply no_trivia_arrow]|].
  eapply bind_intro; [apply tag_intro|].
  eapply bind_intro; [apply sp_ge; [exact H2|eapply expr_no_trivia, He]|].
  eapply bind_intro; [exact He|reflexivity].
Qed.

Lemma nb_next m r t r' : trivia_run r t r' -> case_f expression m r' = Err ->
  sep_stop (sp m IR_EQ) (case_f expression m) r.
Proof.
  intros Hrun H. destruct (sp_cases m IR_EQ _ _ _ Hrun) as [E|[_ E]]; [apply sep_stop_Err, E|].
  eapply sep_stop_next; [exact E|exact H].
Qed.

Lemma nb_layout m r t r' : trivia_run r t r' ->
  t = [] \/ (has_newline t = true /\ width m t <> m) ->
  sep_stop (sp m IR_EQ) (case_f expression m) r.
Proof. intros Hrun H. apply sep_stop_Err. eapply sp_Err; [exact Hrun|exact H]. Qed.

Lemma nb_expr m r t r' : trivia_run r t r' -> no_expr r' ->
  sep_stop (sp m IR_EQ) (case_f expression m) r.
Proof. intros Hrun H. eapply nb_next; [exact Hrun|]. apply bind_Err1, no_expr_Err, H. Qed.

Lemma nb_arrow m r t r' p r2 t2 r3 : trivia_run r t r' -> expression m r' = Ok r2 p ->
  trivia_run r2 t2 r3 ->
  t2 = [] \/ (has_newline t2 = true /\ (width m t2 < m)%N) \/ ~ (exists x, r3 = L "->" ++ x) ->
  sep_stop (sp m IR_EQ) (case_f expression m) r.
Proof.
  intros Hrun Hp Hrun2 Hx. eapply nb_next; [exact Hrun|]. unfold case_f.
  eapply bind_Err2; [exact Hp|].
  destruct (sp_cases m IR_GTE _ _ _ Hrun2) as [E|[Hne E]]; [apply bind_Err1, E|].
  destruct Hx as [->|[[Hn Hw]|Hx]].
  - congruence.
  - apply bind_Err1. eapply sp_Err; [exact Hrun2|]. right. split; [exact Hn|]. cbn. lia.
  - eapply bind_Err2; [exact E|]. apply bind_Err1, tag_Err, Hx.
Qed.

Lemma integer_no_float n r : integer_text n -> ends_integer r -> float (n ++ r) = Err.
Proof.
  intros (sg & d & -> & Hs & Hd) [Hr Hdot]. unfold float. rewrite <- app_assoc.
  destruct (digits1_head _ Hd) as (c & t & -> & Hc). cbn [app].
  eapply bind_Err2; [apply sign_intro; assumption|].
  eapply bind_Err2; [apply (digit_iff (c :: t ++ r) r (c :: t)); auto|].
  destruct r as [|x r]; [reflexivity|].
  destruct (N.eqb_spec x (C ".")) as [->|Hx]; [|apply bind_Err1, char_Err, N.eqb_neq, Hx].
  eapply bind_Err2; [apply (char_intro (C ".") r)|]. apply bind_Err1.
  eapply heads_Err; [apply heads_digit|oks|]. destruct r as [|y r]; [exact I|].
  cbn [ends]. destruct (is_dec y) eqn:Hy; [|reflexivity]. exfalso. apply Hdot. eauto.
Qed.

(** ** All rules together *)

Theorem complete_exprs_all :
  (forall i e s r, RE i e s r -> expression i s = Ok r e) /\
  (forall i e s r, RApp i e s r -> app_at i e s r) /\
  (forall i e s r, RTerm i e s r -> term i s = Ok r e) /\
  (forall i e s r, RList i e s r -> list_f expression i s = Ok r e) /\
  (forall i es s r, RElems i es s r -> elems (comma_sep i) (expression i) s es r) /\
  (forall i es s r, RTupleElems i es s r -> tuple_at i es s r) /\
  (forall i fs s r, RFields i fs s r -> fields_at i fs s r) /\
  (forall i n e s r, RField i n e s r -> field_at i n e s r) /\
  (forall i fs s r, RUpdates i fs s r -> elems (comma2 i) (update_field_f expression i) s fs r) /\
  (forall i n e s r, RUpdate i n e s r -> update_field_f expression i s = Ok r (n, e)) /\
  (forall i es s r, RLamArgs i es s r -> elems space1 (term i) s es r) /\
  (forall m xs s r, REntries m xs s r -> elems (sp m IR_EQ) (entry m) s xs r) /\
  (forall m x s r, REntry m x s r -> entry m s = Ok r x) /\
  (forall i e s r, RTarget i e s r -> target i s = Ok r e) /\
  (forall i f s r, RFunc i f s r -> func_at i f s r) /\
  (forall i d s r, RDef i d s r -> def_at i d s r) /\
  (forall i es s r, RDefArgs i es s r -> args_at i es s r) /\
  (forall m bs s r, RBranches m bs s r -> branches_at m bs s r) /\
  (forall m p e s r, RBranch m p e s r -> case_f expression m s = Ok r (p, e)) /\
  (forall m r, RNoBranch m r -> sep_stop (sp m IR_EQ) (case_f expression m) r).
Proof.
  apply RE_all.
  - eauto using x_app.
  - eauto using x_binop.
  - eauto using x_let.
  - eauto using x_case.
  - eauto using x_if.
  - eauto using x_lambda.
  - eauto using x_app_term.
  - eauto using x_app_app.
  - eauto using t_var.
  - eauto using t_access.
  - eauto using t_access_function.
  - intros. apply t_string, string_iff. eexists. split; [reflexivity|]. left. split; [reflexivity|assumption].
  - intros. apply t_string, string_iff. eexists. split; [reflexivity|]. right. auto.
  - intros. apply t_float, float_iff. eauto.
  - intros i n r Hn Hr. apply t_integer; [apply integer_no_float; assumption|].
    apply integer_iff. destruct Hr. eauto.
  - intros. apply t_character, character_iff. eauto 10.
  - eauto using t_parens.
  - eauto using t_list.
  - eauto using t_tuple.
  - eauto using t_tuple_one.
  - eauto using t_update.
  - eauto using t_update_empty.
  - eauto using t_record.
  - eauto using t_record_empty.
  - eauto using t_names.
  - eauto using l_some.
  - eauto using l_empty.
  - eauto using elems_one.
  - eauto using l_cons.
  - eauto using u_nil.
  - eauto using u_one.
  - eauto using u_cons.
  - eauto using f_one.
  - eauto using f_cons.
  - eauto using f_intro.
  - eauto using elems_one.
  - eauto using up_cons.
  - eauto using up_intro.
  - eauto using elems_one.
  - eauto using la_cons.
  - eauto using elems_one.
  - eauto using en_cons.
  - eauto using en_binding.
  - eauto using en_function.
  - eauto using en_function_sig.
  - intros. apply alt_left, complete_variable. assumption.
  - eauto using ta_list.
  - eauto using ta_tuple.
  - eauto using ta_names.
  - eauto using ta_no_names.
  - eauto using fn_plain.
  - eauto using fn_sig.
  - eauto using df_intro.
  - eauto using args_nil.
  - eauto using args_cons.
  - eauto using br_one.
  - eauto using br_cons.
  - eauto using br_intro.
  - eauto using nb_layout.
  - eauto using nb_expr.
  - eauto using nb_arrow.
Qed.

Theorem complete_expression i e s r : RE i e s r -> expression i s = Ok r e.
Proof. apply complete_exprs_all. Qed.
Theorem complete_term i e s r : RTerm i e s r -> term i s = Ok r e.
Proof. apply complete_exprs_all. Qed.
Theorem complete_function i f s r : RFunc i f s r -> function i s = Ok r f.
Proof. intros H. apply complete_exprs_all in H. apply H. Qed.
