(** * The statement and file parsers read every rendering *)
From Verif Require Import Base Nom Regex Ast Good Spec Helpers Types Expr Stmt Lexers Total
  Layout Seqs Grammar Follow Sound SoundE SoundS LexProps Heads Rules Render CompleteT CompleteE
  CompleteX.

(** ** Exports *)

Definition item : parser export_set := function_export <|> type_export.
Definition item_sep : parser char :=
  delimited (opt spaces_and_newlines) (char_ (C ",")) (opt spaces_and_newlines).

Definition item0 (c : char) : bool := is_lower c || is_upper c || (c =? C "_")%N || (c =? C "(")%N.
Lemma heads_item : heads item0 item.
Proof.
  apply heads_alt.
  - apply heads_map, heads_alt.
    + apply heads_map. eapply heads_weaken; [|apply heads_lo_name]. unfold item0, name0. intros; chr.
    + eapply heads_weaken; [|apply heads_delimited, heads_char]. unfold item0. intros; chr.
  - eapply heads_weaken; [|apply heads_bind, heads_up_name]. unfold item0. intros; chr.
Qed.

Lemma opt_sn b r : ospnl b -> ends is_space_or_newline r ->
  exists o, opt spaces_and_newlines (b ++ r) = Ok r o.
Proof.
  intros Hb Hr. destruct b as [|c b].
  - exists None. apply opt_None. unfold spaces_and_newlines, is_a, take_while1. cbn [app].
    rewrite (span_ext _ is_space_or_newline).
    2:{ intros x. unfold mem_char, is_space_or_newline. cbn [existsb]. rewrite orb_false_r.
        reflexivity. }
    assert (H : span is_space_or_newline r = ([], r)).
    { apply (span_all is_space_or_newline [] r); [reflexivity|exact Hr]. }
    rewrite H. reflexivity.
  - exists (Some (c :: b)). apply opt_Some, sn_intro; [|exact Hr]. split; [discriminate|exact Hb].
Qed.

Lemma eats_item : eats item.
Proof. apply ok_eats. intros n. unfold item. oks. Qed.
Lemma eats_item_sep : eats item_sep.
Proof. apply ok_eats. intros n. ok0. unfold item_sep. oks. Qed.

Lemma item_sep_intro b1 b2 s : ospnl b1 -> ospnl b2 -> ends is_space_or_newline s ->
  item_sep (b1 ++ L "," ++ b2 ++ s) = Ok s (C ",").
Proof.
  intros H1 H2 Hs. destruct (opt_sn b1 (L "," ++ b2 ++ s) H1) as [o1 E1]; [reflexivity|].
  destruct (opt_sn b2 s H2 Hs) as [o2 E2].
  eapply delimited_intro; [exact E1|apply char_intro|exact E2].
Qed.

Lemma item_sep_Err t c r : trivia t -> is_space_or_newline c = false -> c <> C "," ->
  item_sep (t ++ c :: r) = Err.
Proof.
  intros Ht Hc Hc'.
  assert (H : exists a b, t ++ c :: r = a ++ b /\ ospnl a /\ ends is_space_or_newline b /\
                not_char (C ",") b).
  { induction Ht as [|t _ (a & b & E & Ha & Hb & Hb')|t _ (a & b & E & Ha & Hb & Hb')|d t _ _ _ _].
    - exists [], (c :: r). repeat split; auto. apply N.eqb_neq, Hc'.
    - exists (space :: a), b. cbn [app]. rewrite E. auto.
    - exists (newline :: a), b. cbn [app]. rewrite E. auto.
    - exists [], ((L "--" ++ d ++ t) ++ c :: r). repeat split; auto. }
  destruct H as (a & b & -> & Ha & Hb & Hb'). destruct (opt_sn a b Ha Hb) as [o Ho].
  unfold item_sep, delimited. eapply bind_Err2; [exact Ho|]. apply bind_Err1, char_Err, Hb'.
Qed.

Lemma upper_head n : upper_name n -> exists c t, n = c :: t /\ is_upper c = true.
Proof. intros (c & t & -> & H & _). eauto. Qed.

Lemma up_no_function n s : upper_name n -> function_export (n ++ s) = Err.
Proof.
  intros Hn. destruct (upper_head n Hn) as (c & t & -> & Hc). apply map_Err, alt_Err.
  - apply map_Err. eapply heads_Err; [apply heads_lo_name|oks|]. cbn [app ends]. unfold name0. chr.
  - apply bind_Err1, char_Err. cbn [app ends]. chr.
Qed.

Lemma seps_constructors cs : forall r, Forall upper_name cs -> ends is_name_char r ->
  (forall x, r <> L ", " ++ x) ->
  seps (tag (L ", ")) (map_ FunctionExport up_name)
    (concat (map (fun n => L ", " ++ n) cs) ++ r) (map FunctionExport cs) r.
Proof.
  induction cs as [|n cs IH]; intros r Hf Hr Hx.
  - apply seps_stop, sep_stop_Err, tag_Err. intros [x E]. exact (Hx x E).
  - inversion Hf as [|? ? Hn Hcs]; subst. cbn [map concat]. rewrite <- !app_assoc.
    eapply seps_cons.
    + apply ok_eats. intros k. oks.
    + apply ok_eats. intros k. oks.
    + apply tag_intro.
    + apply map_intro, up_name_intro; [exact Hn|]. destruct cs; [exact Hr|reflexivity].
    + apply IH; assumption.
Qed.

Lemma join_concat (sep : str) n q : join sep (n :: q) = n ++ concat (map (fun n => sep ++ n) q).
Proof.
  revert n. induction q as [|m q IH]; intros n; [cbn; rewrite app_nil_r; reflexivity|].
  change (join sep (n :: m :: q)) with (n ++ sep ++ join sep (m :: q)). rewrite IH.
  cbn [map concat]. rewrite <- app_assoc. reflexivity.
Qed.

Lemma complete_item e s r : RExportItem e s r -> item s = Ok r e.
Proof.
  intros [n r' Hn Hr|o r' Ho|n r' Hn Hr|n r' Hn|n cs r' Hn [Hne Hcs]].
  - apply alt_left, map_intro, alt_left. apply (map_intro (fun s : str => s)).
    apply lo_name_intro; assumption.
  - apply alt_left, map_intro. apply alt_right; [apply map_Err; nohead heads_lo_name|].
    eapply delimited_intro; [apply char_intro|apply operator_intro; [exact Ho|reflexivity]|apply char_intro].
  - apply alt_right; [apply up_no_function, Hn|].
    eapply bind_intro; [apply up_name_intro; [exact Hn|]|].
    { destruct r' as [|c r']; [exact I|]. cbn [ends] in *. apply orb_false_iff in Hr. apply Hr. }
    eapply bind_intro; [apply opt_None|reflexivity]. apply bind_Err1, char_Err.
    destruct r' as [|c r']; [exact I|]. cbn [ends] in *. apply orb_false_iff in Hr. apply Hr.
  - apply alt_right; [apply up_no_function, Hn|].
    eapply bind_intro; [apply up_name_intro; [exact Hn|reflexivity]|]. reflexivity.
  - apply alt_right; [apply up_no_function, Hn|].
    eapply bind_intro; [apply up_name_intro; [exact Hn|reflexivity]|].
    eapply bind_intro; [|reflexivity]. apply opt_Some.
    eapply delimited_intro; [apply char_intro| |apply char_intro].
    destruct cs as [|n0 cs]; [congruence|]. inversion Hcs as [|? ? Hn0 Hcs']; subst.
    apply alt_right.
    { apply map_Err. destruct (upper_head n0 Hn0) as (c & t & -> & Hc).
      eapply heads_Err; [apply heads_tag|oks|]. rewrite join_concat. cbn [app ends]. chr. }
    apply map_intro. rewrite join_concat, <- app_assoc. cbn [map].
    eapply sep_nonempty.
    + apply ok_eats. intros k. oks.
    + apply ok_eats. intros k. oks.
    + apply map_intro, up_name_intro; [exact Hn0|]. destruct cs; reflexivity.
    + apply seps_constructors; [exact Hcs'|reflexivity|discriminate].
Qed.

Lemma item0_ends c : item0 c = true -> is_space_or_newline c = false.
Proof. unfold item0. intros; chr. Qed.

Lemma item_ends s r x : item s = Ok r x -> ends is_space_or_newline s.
Proof. intros H. apply heads_item in H as (c & s' & -> & Hc). apply item0_ends, Hc. Qed.

Lemma complete_items es s r : RExportItems es s r -> elems item_sep item s es r.
Proof.
  induction 1 as [e s r H|e s b1 b2 es s' r H H1 H2 _ IH].
  - apply elems_one, complete_item, H.
  - destruct (elems_head _ _ _ _ _ IH) as (sx & x & Hx).
    eapply elems_cons; [apply eats_item_sep|apply eats_item|apply complete_item, H| |exact IH].
    apply item_sep_intro; [exact H1|exact H2|eapply item_ends, Hx].
Qed.

Lemma olay_trivia i t : olay i t -> trivia t.
Proof. intros [->|[j [H _]]]; [constructor|exact H]. Qed.

Lemma complete_exports e s r : RExports e s r -> exports s = Ok r e.
Proof.
  intros [t1 t2 r' H1 H2|t1 es s' t2 r' H1 H H2]; unfold exports.
  - destruct (open_ok 0 (C "(") t1 (L ".." ++ t2 ++ L ")" ++ r') H1) as [o1 E1];
      [apply no_trivia_char; discriminate|].
    destruct (close_ok 0 t2 (C ")") r' H2) as [o2 E2]; [apply no_trivia_char; discriminate|].
    eapply delimited_intro; [exact E1| |exact E2]. apply alt_left.
    eapply (map_intro (fun _ : str => AllExport)). apply tag_intro.
  - apply complete_items in H. destruct (elems_head _ _ _ _ _ H) as (sx & x & Hx).
    pose proof Hx as Hx'. apply heads_item in Hx' as (c & y & -> & Hc).
    destruct (open_ok 0 (C "(") t1 (c :: y) H1) as [o1 E1].
    { unfold item0 in Hc. apply no_trivia_char; chr. }
    destruct (close_ok 0 t2 (C ")") r' H2) as [o2 E2]; [apply no_trivia_char; discriminate|].
    eapply delimited_intro; [exact E1| |exact E2]. apply alt_right.
    { apply map_Err. eapply heads_Err; [apply heads_tag|oks|]. unfold item0 in Hc. cbn [ends]. chr. }
    apply map_intro. eapply elems_nonempty; [apply eats_item_sep|apply eats_item|exact H|].
    apply sep_stop_Err. apply (item_sep_Err t2 (C ")") r'); [eapply olay_trivia, H2|reflexivity|discriminate].
Qed.

(** ** Module declarations *)

Lemma sp0_intro t s : lay0 t -> no_trivia s -> exists j, sp_gt0 (t ++ s) = Ok s j.
Proof. intros [j H] Hs. exists j. apply sp_gt; assumption. Qed.

Lemma exports_no_trivia s r e : exports s = Ok r e -> no_trivia s.
Proof.
  intros H. apply delimited_Ok in H as (s1 & x1 & s2 & x2 & H & _).
  apply preceded_Ok in H as (s3 & c & H & _). apply char_Ok in H as [-> _].
  apply no_trivia_char; discriminate.
Qed.

Lemma dotted_head q : qualified q -> exists c t, dotted q = c :: t /\ is_upper c = true.
Proof.
  intros [Hne Hq]. destruct q as [|n q]; [congruence|]. inversion Hq as [|? ? Hn _]; subst.
  destruct (upper_head n Hn) as (c & t & -> & Hc). rewrite dotted_concat. cbn [app]. eauto.
Qed.

Lemma dotted_no_trivia q s : qualified q -> no_trivia (dotted q ++ s).
Proof.
  intros H. destruct (dotted_head q H) as (c & t & -> & Hc). cbn [app]. apply no_trivia_char; chr.
Qed.
Lemma dotted_sp q s : qualified q -> ends is_sp_char (dotted q ++ s).
Proof.
  intros H. destruct (dotted_head q H) as (c & t & -> & Hc). cbn [app ends]. chr.
Qed.

Lemma ends_dotted_lay R i t j s : lay R i t j -> ends_dotted (t ++ s).
Proof.
  intros H. split; [eapply ends_lay; [exact H|reflexivity..]|].
  intros (n & r' & E & _). destruct (lay_head _ _ _ _ H) as (c & t' & -> & Hc).
  cbn [app] in E. injection E as -> _. destruct Hc as [Hc|[Hc|Hc]]; discriminate Hc.
Qed.

Lemma ends_dotted_lay0 t s : lay0 t -> ends_dotted (t ++ s).
Proof. intros [j H]. eapply ends_dotted_lay, H. Qed.

Lemma m_tail {A} (F : list str -> export_set -> A) t1 q t2 t3 e s r :
  lay0 t1 -> qualified q -> lay0 t2 -> lay0 t3 -> exports s = Ok r e ->
  (sp_gt0 ;;; name <- module_name ;; sp_gt0 ;;; tag (L "exposing") ;;; sp_gt0 ;;;
   e <- exports ;; ret (F name e)) (t1 ++ dotted q ++ t2 ++ L "exposing" ++ t3 ++ s) = Ok r (F q e).
Proof.
  intros H1 Hq H2 H3 He.
  destruct (sp0_intro t1 (dotted q ++ t2 ++ L "exposing" ++ t3 ++ s) H1) as [j1 E1];
    [apply dotted_no_trivia, Hq|].
  destruct (sp0_intro t2 (L "exposing" ++ t3 ++ s) H2) as [j2 E2]; [apply letter_no_trivia; reflexivity|].
  destruct (sp0_intro t3 s H3) as [j3 E3]; [eapply exports_no_trivia, He|].
  eapply bind_intro; [exact E1|].
  eapply bind_intro; [apply module_name_intro; [exact Hq|apply ends_dotted_lay0, H2]|].
  eapply bind_intro; [exact E2|]. eapply bind_intro; [apply tag_intro|].
  eapply bind_intro; [exact E3|]. eapply bind_intro; [exact He|reflexivity].
Qed.

Lemma s_module t1 q t2 t3 e s r :
  lay0 t1 -> qualified q -> lay0 t2 -> lay0 t3 -> exports s = Ok r e ->
  statement (L "module" ++ t1 ++ dotted q ++ t2 ++ L "exposing" ++ t3 ++ s) =
  Ok r (ModuleDeclaration q e).
Proof.
  intros H1 Hq H2 H3 He. unfold statement.
  apply alt_right; [reflexivity|]. apply alt_right; [reflexivity|]. apply alt_left.
  unfold module_declaration. eapply bind_intro; [apply tag_intro|]. apply m_tail; assumption.
Qed.

Lemma s_port_module t0 t1 q t2 t3 e s r :
  lay0 t0 -> lay0 t1 -> qualified q -> lay0 t2 -> lay0 t3 -> exports s = Ok r e ->
  statement (L "port" ++ t0 ++ L "module" ++ t1 ++ dotted q ++ t2 ++ L "exposing" ++ t3 ++ s) =
  Ok r (PortModuleDeclaration q e).
Proof.
  intros H0 H1 Hq H2 H3 He. unfold statement. apply alt_left.
  unfold port_module_declaration. eapply bind_intro; [apply tag_intro|].
  destruct (sp0_intro t0 (L "module" ++ t1 ++ dotted q ++ t2 ++ L "exposing" ++ t3 ++ s) H0)
    as [j0 E0]; [apply letter_no_trivia; reflexivity|].
  eapply bind_intro; [exact E0|]. eapply bind_intro; [apply tag_intro|]. apply m_tail; assumption.
Qed.

(** ** Effect modules *)

Lemma eats_effect : eats effect_field.
Proof. apply ok_eats. intros n. ok0. unfold effect_field. oks. Qed.

Lemma opt_spaces_intro b r : ospaces b -> ends is_sp_char r -> exists o, opt spaces (b ++ r) = Ok r o.
Proof.
  intros Hb Hr. destruct b as [|c b].
  - exists None. apply opt_None. eapply heads_Err; [apply heads_spaces|oks|exact Hr].
  - exists (Some (c :: b)). apply opt_Some, spaces_intro; [split; [discriminate|exact Hb]|exact Hr].
Qed.

Lemma ends_ospaces P b x : ospaces b -> P space = false -> ends P x -> ends P (b ++ x).
Proof.
  intros Hb HP Hx. destruct b as [|c b]; [exact Hx|]. cbn [app ends]. unfold ospaces, all_spaces in Hb.
  simpl in Hb. apply andb_true_iff in Hb as [Hc _]. apply N.eqb_eq in Hc. subst c. exact HP.
Qed.

Lemma complete_effect_field f s r : REffectField f s r -> effect_field s = Ok r f.
Proof.
  intros [n b1 b2 u r' Hn H1 H2 Hu Hr]. unfold effect_field.
  eapply bind_intro; [apply lo_name_intro; [exact Hn|right]|].
  { apply ends_ospaces; [exact H1|reflexivity|reflexivity]. }
  destruct (opt_spaces_intro b1 (L "=" ++ b2 ++ u ++ r') H1) as [o1 E1]; [reflexivity|].
  destruct (opt_spaces_intro b2 (u ++ r') H2) as [o2 E2].
  { destruct (upper_head u Hu) as (c & t & -> & Hc). cbn [app ends]. chr. }
  eapply bind_intro; [exact E1|]. eapply bind_intro; [apply char_intro|].
  eapply bind_intro; [exact E2|]. eapply bind_intro; [apply up_name_intro; assumption|reflexivity].
Qed.

Lemma complete_effect_fields fs s r : REffectFields fs s r ->
  exists r', r = L "}" ++ r' /\
    ((fs = [] /\ s = r) \/ elems (tag (L ", ")) effect_field s fs r).
Proof.
  induction 1 as [r|f s r H|f s fs s' r H Hne _ (r' & -> & IH)].
  - eauto.
  - exists r. split; [reflexivity|]. right. apply elems_one, complete_effect_field, H.
  - exists r'. split; [reflexivity|]. destruct IH as [[-> _]|IH]; [congruence|]. right.
    eapply elems_cons; [|apply eats_effect|apply complete_effect_field, H|apply tag_intro|exact IH].
    apply ok_eats. intros n. oks.
Qed.

Lemma s_effect_module t0 t1 q t2 t3 fs sf t4 t5 e s r :
  lay0 t0 -> lay0 t1 -> qualified q -> lay0 t2 -> lay0 t3 ->
  REffectFields fs sf (L "}" ++ t4 ++ L "exposing" ++ t5 ++ s) -> lay0 t4 -> lay0 t5 ->
  exports s = Ok r e ->
  statement (L "effect" ++ t0 ++ L "module" ++ t1 ++ dotted q ++ t2 ++ L "where" ++ t3 ++ L "{" ++ sf)
  = Ok r (EffectModuleDeclaration q fs e).
Proof.
  intros H0 H1 Hq H2 H3 Hf H4 H5 He. unfold statement.
  apply alt_right; [reflexivity|]. apply alt_left. unfold effect_module_declaration.
  eapply bind_intro; [apply tag_intro|].
  destruct (sp0_intro t0 (L "module" ++ t1 ++ dotted q ++ t2 ++ L "where" ++ t3 ++ L "{" ++ sf) H0)
    as [j0 E0]; [apply letter_no_trivia; reflexivity|].
  destruct (sp0_intro t1 (dotted q ++ t2 ++ L "where" ++ t3 ++ L "{" ++ sf) H1) as [j1 E1];
    [apply dotted_no_trivia, Hq|].
  destruct (sp0_intro t2 (L "where" ++ t3 ++ L "{" ++ sf) H2) as [j2 E2];
    [apply letter_no_trivia; reflexivity|].
  destruct (sp0_intro t3 (L "{" ++ sf) H3) as [j3 E3]; [apply no_trivia_char; discriminate|].
  destruct (sp0_intro t4 (L "exposing" ++ t5 ++ s) H4) as [j4 E4]; [apply letter_no_trivia; reflexivity|].
  destruct (sp0_intro t5 s H5) as [j5 E5]; [eapply exports_no_trivia, He|].
  eapply bind_intro; [exact E0|]. eapply bind_intro; [apply tag_intro|].
  eapply bind_intro; [exact E1|].
  eapply bind_intro; [apply module_name_intro; [exact Hq|apply ends_dotted_lay0, H2]|].
  eapply bind_intro; [exact E2|]. eapply bind_intro; [apply tag_intro|].
  eapply bind_intro; [exact E3|].
  apply (bind_intro _ _ _ (t4 ++ L "exposing" ++ t5 ++ s) fs).
  { apply (delimited_intro _ _ _ _ sf (C "{") (L "}" ++ t4 ++ L "exposing" ++ t5 ++ s) fs _ (C "}"));
      [apply char_intro| |apply char_intro].
    destruct (complete_effect_fields _ _ _ Hf) as (r' & E & [[-> ->]|Hel]).
    - apply sep_list_nil. apply bind_Err1. nohead heads_lo_name.
    - eapply elems_list; [|apply eats_effect|exact Hel|apply sep_stop_Err; reflexivity].
      apply ok_eats. intros n. oks. }
  eapply bind_intro; [exact E4|]. eapply bind_intro; [apply tag_intro|].
  eapply bind_intro; [exact E5|]. eapply bind_intro; [exact He|reflexivity].
Qed.

(** ** Imports *)

Lemma line_blank_word w s : line_blank s -> w <> [] -> forallb is_lower w = true ->
  delimited spaces (tag w) spaces s = Err.
Proof.
  intros (b & r' & -> & Hb & Hr) Hne Hw. destruct w as [|x w]; [congruence|]. simpl in Hw.
  apply andb_true_iff in Hw as [Hx _].
  assert (Hsp : ends is_sp_char r').
  { destruct r' as [|c r']; [exact I|]. destruct Hr as [->|[->| ->]]; reflexivity. }
  unfold delimited. destruct b as [|c b].
  - apply bind_Err1. eapply heads_Err; [apply heads_spaces|oks|exact Hsp].
  - eapply bind_Err2; [apply spaces_intro; [split; [discriminate|exact Hb]|exact Hsp]|].
    apply bind_Err1. eapply heads_Err; [apply heads_tag|oks|].
    destruct r' as [|d r']; [exact I|]. cbn [ends]. destruct Hr as [->|[->| ->]]; chr.
Qed.

Lemma s_import b q al sa ex sx r :
  spaces1 b -> qualified q -> ends_dotted sa -> RAlias al sa sx -> RExposing ex sx r ->
  statement (L "import" ++ b ++ dotted q ++ sa) = Ok r (ImportStatement q al ex).
Proof.
  intros Hb Hq Hd Ha Hx. unfold statement.
  do 3 (apply alt_right; [reflexivity|]). apply alt_left. unfold import_statement.
  eapply bind_intro; [apply tag_intro|].
  eapply bind_intro; [apply spaces_intro; [exact Hb|apply dotted_sp, Hq]|].
  eapply bind_intro; [apply module_name_intro; assumption|].
  apply (bind_intro _ _ _ sx al).
  { destruct Ha as [s [Hl|(b1 & x & -> & Hb1)]|b1 b2 n r' H1 H2 Hn Hr].
    - apply opt_None. apply bind_Err1, line_blank_word; [exact Hl|discriminate|reflexivity].
    - apply opt_None. apply bind_Err1. unfold delimited.
      eapply bind_Err2; [apply spaces_intro; [exact Hb1|reflexivity]|]. reflexivity.
    - apply opt_Some. eapply preceded_intro; [|apply up_name_intro; assumption].
      eapply delimited_intro; [apply spaces_intro; [exact H1|reflexivity]|apply tag_intro|].
      apply spaces_intro; [exact H2|]. destruct (upper_head n Hn) as (c & t & -> & Hc). cbn [app ends]. chr. }
  apply (bind_intro _ _ _ r ex); [|reflexivity].
  destruct Hx as [r' Hl|b1 b2 e s r' H1 H2 He].
  - apply opt_None. apply bind_Err1, line_blank_word; [exact Hl|discriminate|reflexivity].
  - apply opt_Some. eapply preceded_intro; [|apply complete_exports, He].
    eapply delimited_intro; [apply spaces_intro; [exact H1|reflexivity]|apply tag_intro|].
    apply spaces_intro; [exact H2|]. destruct He; reflexivity.
Qed.

(** ** Type declarations *)

Lemma type_sp i s r t : type_ i s = Ok r t -> ends is_sp_char s.
Proof.
  intros H. apply heads_type in H as (c & s' & -> & Hc). unfold type0 in Hc. cbn [ends]. chr.
Qed.

Lemma ann_type i s r t : type_annotation i s = Ok r t -> exists s1 a, type_ i s = Ok s1 a.
Proof.
  intros H. unfold type_annotation, type_annotation_f in H. apply map_res_Ok in H as (l & H & _).
  apply separated_nonempty_list_Ok in H as (x & l' & s1 & _ & Hx & _). eauto.
Qed.

Lemma s_alias b1 b2 n sn b3 t j d s r :
  spaces1 b1 -> spaces1 b2 -> RTy 0 n sn (b3 ++ L "=" ++ t ++ s) -> spaces1 b3 ->
  lay_ge 1 t j -> RAnn 1 d s r ->
  statement (L "type" ++ b1 ++ L "alias" ++ b2 ++ sn) = Ok r (TypeAliasDeclaration n d).
Proof.
  intros H1 H2 Hn H3 Ht Hd. apply complete_type in Hn. apply complete_ann in Hd. unfold statement.
  do 4 (apply alt_right; [reflexivity|]). apply alt_left. unfold type_alias_declaration.
  eapply bind_intro; [apply tag_intro|].
  eapply bind_intro; [apply spaces_intro; [exact H1|reflexivity]|].
  eapply bind_intro; [apply tag_intro|].
  eapply bind_intro; [apply spaces_intro; [exact H2|eapply type_sp, Hn]|].
  eapply bind_intro; [exact Hn|].
  eapply bind_intro; [apply spaces_intro; [exact H3|reflexivity]|].
  eapply bind_intro; [apply char_intro|].
  destruct (ann_type _ _ _ _ Hd) as (s1 & a & Ha).
  eapply bind_intro; [apply sp_ge; [exact Ht|eapply type_no_trivia, Ha]|].
  eapply bind_intro; [exact Hd|reflexivity].
Qed.

(** after the spaces of a layout: no type starts there *)
Lemma lay_no_type t c x : trivia t -> type0 c = false -> c <> space ->
  exists a y, t ++ c :: x = a ++ y /\ all_spaces a = true /\ ends is_sp_char y /\ ends type0 y.
Proof.
  intros Ht Hc Hs. induction Ht as [|t _ (a & b & E & Ha & Hb & Hb')|t _ _|d t _ _ _ _].
  - exists [], (c :: x). repeat split; auto. cbn. apply N.eqb_neq, Hs.
  - exists (space :: a), b. cbn [app]. rewrite E. auto.
  - exists [], ((newline :: t) ++ c :: x). repeat split; auto.
  - exists [], ((L "--" ++ d ++ t) ++ c :: x). repeat split; auto.
Qed.

Lemma alias_Err b sn n t1 x : spaces1 b -> type_ 0 sn = Ok (t1 ++ C "=" :: x) n -> trivia t1 ->
  type_alias_declaration (L "type" ++ b ++ sn) = Err.
Proof.
  intros Hb Hn Ht. unfold type_alias_declaration.
  eapply bind_Err2; [apply tag_intro|].
  eapply bind_Err2; [apply spaces_intro; [exact Hb|eapply type_sp, Hn]|].
  destruct (tag (L "alias") sn) as [s1 a| |w] eqn:E; [|apply bind_Err1; exact E|].
  2:{ unfold tag in E. destruct (strip (L "alias") sn); discriminate. }
  eapply bind_Err2; [exact E|]. apply tag_Ok in E as [-> _].
  destruct (spaces s1) as [s2 b2| |w] eqn:E; [|apply bind_Err1; exact E|].
  2:{ exfalso. destruct (ok_spaces (S (length s1)) s1 (le_n _)) as [_ Ho]. rewrite E in Ho. exact Ho. }
  eapply bind_Err2; [exact E|]. apply spaces_iff in E as (-> & Hb2 & Hs2).
  assert (Hv : type_ 0 (L "alias" ++ b2 ++ s2) = Ok (b2 ++ s2) (TypeVariable (L "alias"))).
  { rewrite type_alt. apply alt_right; [nohead (heads_T_constructor 0)|]. apply alt_left.
    apply type_variable_intro; [exists (C "a"), (L "lias"); auto|].
    destruct Hb2 as [Hne Hb2]. destruct b2 as [|c b2]; [congruence|].
    simpl in Hb2. apply andb_true_iff in Hb2 as [Hc _]. apply N.eqb_eq in Hc. subst c. reflexivity. }
  rewrite Hv in Hn. injection Hn as Hn _.
  destruct (lay_no_type t1 (C "=") x Ht) as (a1 & y & E1 & Ha1 & Hy & Hy'); [reflexivity|discriminate|].
  assert (Hys : s2 = y).
  { assert (Hs : span is_sp_char (b2 ++ s2) = (b2, s2)) by (apply span_all; [apply Hb2|exact Hs2]).
    rewrite Hn, E1, (span_all is_sp_char a1 y Ha1 Hy) in Hs. congruence. }
  apply bind_Err1. eapply heads_Err; [apply heads_type|oks|]. rewrite Hys. exact Hy'.
Qed.

Definition bar_sep (m : N) : parser char :=
  delimited (spaces_or_new_lines_and_indent m IR_GTE) (char_ (C "|")) spaces.

Lemma no_bar_Err m r : no_bar m r -> bar_sep m r = Err.
Proof.
  intros (t & r' & Hrun & H). unfold bar_sep, delimited.
  destruct (sp_cases m IR_GTE _ _ _ Hrun) as [E|[Hne E]]; [apply bind_Err1, E|].
  destruct H as [->|[[Hn Hw]|H]].
  - congruence.
  - apply bind_Err1. eapply sp_Err; [exact Hrun|]. right. split; [exact Hn|]. cbn. lia.
  - eapply bind_Err2; [exact E|]. apply bind_Err1, char_Err, H.
Qed.

Lemma eats_bar m : eats (bar_sep m).
Proof. apply ok_eats. intros n. ok0. unfold bar_sep. oks. Qed.
Lemma eats_constructor m : eats (type_constructor m).
Proof. apply ok_eats. intros n. unfold type_constructor. oks. Qed.

Lemma complete_constructors m cs s r : RConstructors m cs s r ->
  elems (bar_sep m) (type_constructor m) s cs r /\ bar_sep m r = Err /\
  (exists c x, s = c :: x /\ is_upper c = true).
Proof.
  assert (Hhd : forall q s, qualified q -> exists c x, dotted q ++ s = c :: x /\ is_upper c = true).
  { intros q s0 Hq. destruct (dotted_head q Hq) as (c & t & -> & Hc). cbn [app]. eauto. }
  induction 1 as [m q args s r Hq Hs Hp Hb|m q args s t j b cs s' r Hq Hs Hp Ht Hb _ (IH & IHs & IHc)].
  - split; [|split; [apply no_bar_Err, Hb|apply Hhd, Hq]].
    apply elems_one. apply complete_constructor; assumption.
  - split; [|split; [exact IHs|apply Hhd, Hq]].
    eapply elems_cons; [apply eats_bar|apply eats_constructor|apply complete_constructor; eassumption| |exact IH].
    eapply delimited_intro; [apply sp_ge; [exact Ht|apply no_trivia_char; discriminate]|apply char_intro|].
    apply spaces_intro; [exact Hb|]. destruct IHc as (c & x & -> & Hc). cbn [ends]. chr.
Qed.

Lemma s_type b n sn t1 m t2 j cs s r :
  spaces1 b -> RTy 0 n sn (t1 ++ L "=" ++ t2 ++ s) -> lay_gt 0 t1 m -> lay_ge m t2 j ->
  RConstructors m cs s r -> statement (L "type" ++ b ++ sn) = Ok r (TypeDeclaration n cs).
Proof.
  intros Hb Hn H1 H2 Hc. apply complete_type in Hn.
  destruct (complete_constructors _ _ _ _ Hc) as (Hel & Hst & c0 & x0 & -> & Hc0). unfold statement.
  do 4 (apply alt_right; [reflexivity|]).
  apply alt_right; [eapply alias_Err; [exact Hb|exact Hn|apply H1]|]. apply alt_left.
  unfold type_declaration.
  eapply bind_intro; [apply tag_intro|].
  eapply bind_intro; [apply spaces_intro; [exact Hb|eapply type_sp, Hn]|].
  eapply bind_intro; [exact Hn|].
  eapply bind_intro; [apply sp_gt; [exact H1|apply no_trivia_char; discriminate]|].
  eapply bind_intro; [apply char_intro|].
  eapply bind_intro; [apply sp_ge; [exact H2|apply no_trivia_char; chr]|].
  eapply bind_intro; [|reflexivity].
  eapply elems_nonempty; [apply eats_bar|apply eats_constructor|exact Hel|apply sep_stop_Err, Hst].
Qed.

(** ** Words before keywords *)

Lemma keyword_spaces {B} w (f : str -> parser B) s w' r' :
  longest is_name_char w' s r' -> forallb is_name_char w = true -> w' <> w ->
  (tag w ;;; n <- spaces ;; f n) s = Err.
Proof.
  intros (-> & Hw' & Hr') Hw Hne. unfold bind.
  destruct (tag w (w' ++ r')) as [s1 a| |a] eqn:Ht; [|reflexivity|].
  2:{ unfold tag in Ht. destruct (strip w (w' ++ r')); discriminate. }
  apply tag_Ok in Ht as [He _].
  destruct (spaces s1) as [s2 j| |x] eqn:Hs; [|reflexivity|].
  - exfalso. apply Hne. apply heads_spaces in Hs as (c & s' & -> & Hc).
    assert (Hcn : ends is_name_char (c :: s')) by (cbn [ends]; chr).
    assert (H1 : span is_name_char (w' ++ r') = (w', r')) by (apply span_all; assumption).
    rewrite He, (span_all is_name_char w (c :: s') Hw Hcn) in H1. congruence.
  - exfalso. destruct (ok_spaces (S (length s1)) s1 (le_n _)) as [_ Ho]. rewrite Hs in Ho. exact Ho.
Qed.

Lemma lower_longest n s : lower_name n -> ends is_name_char s -> longest is_name_char n (n ++ s) s.
Proof.
  intros Hn Hs. split; [reflexivity|]. split; [|exact Hs].
  destruct Hn as [->|[(c & t & -> & Hc & Ht) _]]; [reflexivity|].
  simpl. rewrite Ht. assert (H : is_name_char c = true) by chr. rewrite H. reflexivity.
Qed.

Lemma lower_not_reserved n w : lower_name n -> In w reserved_words -> n <> w.
Proof.
  intros [->|[_ H]] Hin; [|congruence].
  intros <-. simpl in Hin. repeat (destruct Hin as [E|Hin]; [discriminate E|]). exact Hin.
Qed.

Lemma ends_spaces1 P b x : spaces1 b -> P space = false -> ends P (b ++ x).
Proof.
  intros [Hne Hb] HP. destruct b as [|c b]; [congruence|]. cbn [app ends].
  simpl in Hb. apply andb_true_iff in Hb as [Hc _]. apply N.eqb_eq in Hc. subst c. exact HP.
Qed.

(** ** Ports *)

Lemma port_module_Err b n s : spaces1 b -> lower_name n -> ends is_name_char s ->
  port_module_declaration (L "port" ++ b ++ n ++ s) = Err.
Proof.
  intros Hb Hn Hs. unfold port_module_declaration. eapply bind_Err2; [apply tag_intro|].
  eapply bind_Err2; [apply sp_gt; [apply spaces_lay, Hb|apply lower_no_trivia, Hn]|].
  eapply keyword_sp; [apply lower_longest; eassumption|reflexivity|].
  apply lower_not_reserved; [exact Hn|simpl; auto 25].
Qed.

Lemma lower_sp n s : lower_name n -> ends is_sp_char (n ++ s).
Proof. intros Hn. apply lower_name_ends; [exact Hn|intros; chr|reflexivity]. Qed.

Lemma s_port_type b1 n b2 t j ty s r :
  spaces1 b1 -> lower_name n -> spaces1 b2 -> lay_gt 0 t j -> RAnn j ty s r ->
  statement (L "port" ++ b1 ++ n ++ b2 ++ L ":" ++ t ++ s) = Ok r (PortTypeDeclaration n ty).
Proof.
  intros H1 Hn H2 Ht Hty. apply complete_ann in Hty. unfold statement.
  apply alt_right; [apply port_module_Err; [exact H1|exact Hn|apply ends_spaces1; [exact H2|reflexivity]]|].
  do 5 (apply alt_right; [reflexivity|]). apply alt_left. unfold port_type_declaration.
  eapply bind_intro; [apply tag_intro|].
  eapply bind_intro; [apply spaces_intro; [exact H1|apply lower_sp, Hn]|].
  eapply bind_intro; [apply lo_name_intro; [exact Hn|right; apply ends_spaces1; [exact H2|reflexivity]]|].
  eapply bind_intro; [apply spaces_intro; [exact H2|reflexivity]|].
  eapply bind_intro; [apply char_intro|].
  destruct (ann_type _ _ _ _ Hty) as (s1 & a & Ha).
  eapply bind_intro; [apply sp_gt; [exact Ht|eapply type_no_trivia, Ha]|].
  eapply bind_intro; [exact Hty|reflexivity].
Qed.

Lemma eats_port_arg : eats (preceded spaces lo_name).
Proof. apply ok_eats. intros n. ok0. oks. Qed.

Lemma complete_port_args args s r : RPortArgs args s r ->
  (forall l r', manys (preceded spaces lo_name) r l r' -> manys (preceded spaces lo_name) s (args ++ l) r') /\
  ((args = [] /\ s = r) \/ exists b n x, s = b ++ n ++ x /\ spaces1 b /\ lower_name n).
Proof.
  induction 1 as [r|b n ns s r Hb Hn He _ [IH _]].
  - split; [auto|left; auto].
  - split; [|right; eauto 10]. intros l r' Hl. cbn [app].
    eapply manys_cons; [apply eats_port_arg| |apply IH, Hl].
    eapply preceded_intro; [apply spaces_intro; [exact Hb|apply lower_sp, Hn]|apply lo_name_intro; assumption].
Qed.

Lemma s_port b1 n args sa b2 t j e s r :
  spaces1 b1 -> lower_name n -> ends_lower n sa ->
  RPortArgs args sa (b2 ++ L "=" ++ t ++ s) -> spaces1 b2 -> lay_gt 0 t j -> RE j e s r ->
  statement (L "port" ++ b1 ++ n ++ sa) = Ok r (PortDeclaration n args e).
Proof.
  intros H1 Hn Hel Ha H2 Ht He. apply complete_expression in He.
  destruct (complete_port_args _ _ _ Ha) as [Hm Hsa].
  assert (Hsp : exists b y, sa = b ++ y /\ spaces1 b /\ ends is_sp_char y /\ not_char (C ":") y).
  { destruct Hsa as [[_ ->]|(b & m & x & -> & Hb & Hm')].
    - exists b2, (L "=" ++ t ++ s). repeat split; auto; apply H2.
    - exists b, (m ++ x). repeat split; [apply Hb|apply Hb|apply lower_sp, Hm'|].
      apply lower_name_ends; [exact Hm'|intros; chr|reflexivity]. }
  destruct Hsp as (b & y & -> & Hb & Hy & Hy').
  unfold statement.
  apply alt_right; [apply port_module_Err; [exact H1|exact Hn|apply ends_spaces1; [exact Hb|reflexivity]]|].
  do 5 (apply alt_right; [reflexivity|]).
  apply alt_right.
  { unfold port_type_declaration. eapply bind_Err2; [apply tag_intro|].
    eapply bind_Err2; [apply spaces_intro; [exact H1|apply lower_sp, Hn]|].
    eapply bind_Err2; [apply lo_name_intro; [exact Hn|exact Hel]|].
    eapply bind_Err2; [apply spaces_intro; [exact Hb|exact Hy]|].
    apply bind_Err1, char_Err, Hy'. }
  apply alt_left. unfold port_declaration.
  eapply bind_intro; [apply tag_intro|].
  eapply bind_intro; [apply spaces_intro; [exact H1|apply lower_sp, Hn]|].
  eapply bind_intro; [apply lo_name_intro; [exact Hn|exact Hel]|].
  apply (bind_intro _ _ _ (b2 ++ L "=" ++ t ++ s) args).
  { eapply many0_ok; [apply eats_port_arg|]. rewrite <- (app_nil_r args). apply Hm.
    apply manys_stop, many_stop_Err. unfold preceded.
    eapply bind_Err2; [apply spaces_intro; [exact H2|reflexivity]|]. nohead heads_lo_name. }
  eapply bind_intro; [apply spaces_intro; [exact H2|reflexivity]|].
  eapply bind_intro; [apply char_intro|].
  eapply bind_intro; [apply sp_gt; [exact Ht|eapply expr_no_trivia, He]|].
  eapply bind_intro; [exact He|reflexivity].
Qed.

(** ** Functions *)

Lemma word_no_term w s r : longest is_name_char w s r -> In w reserved_words -> no_term s.
Proof.
  intros H Hin. pose proof H as (-> & _ & _).
  assert (Hex : exists w' r', longest is_name_char w' (w ++ r) r' /\ In w' reserved_words) by eauto.
  simpl in Hin. repeat (destruct Hin as [<-|Hin];
    [repeat split; intros Hx; first [exact Hex | discriminate Hx | destruct Hx as [Hx|Hx]; discriminate Hx]|]).
  contradiction.
Qed.

Definition after_name (y : str) : Prop :=
  (exists c x, y = c :: x /\ (c = C "=" \/ c = C ":")) \/ exists r e, term 0 y = Ok r e.

Lemma def_shape d s r : RDef 0 d s r ->
  exists n b y, RName n s (b ++ y) /\ spaces1 b /\ after_name y.
Proof.
  intros H. inversion H as [i n sn args s1 b t j e s' r' Hn Ha Hb Ht He]; subst.
  assert (Ha' : args_at 0 args s1 (b ++ L "=" ++ t ++ s')) by (apply complete_exprs_all, Ha).
  destruct Ha' as [_ [[_ ->]|[_ (b0 & y & r1 & e1 & -> & Hb0 & Hy)]]].
  - exists n, b, (L "=" ++ t ++ s'). split; [exact Hn|]. split; [exact Hb|]. left. do 2 eexists; split; [reflexivity|auto].
  - exists n, b0, y. split; [exact Hn|]. split; [exact Hb0|]. right. eauto.
Qed.

Lemma func_shape f s r : RFunc 0 f s r ->
  exists n b y, RName n s (b ++ y) /\ spaces1 b /\ after_name y.
Proof.
  intros H. inversion H as [i d s0 r0 Hd|i sg s0 b0 d s1 r0 Hs Hb0 Hi Hd]; subst.
  - eapply def_shape, Hd.
  - inversion Hs as [i' n sn b t1 j t s2 r2 Hn Hb Ht Hann]; subst.
    exists n, b, (L ":" ++ t1 ++ s2). split; [exact Hn|]. split; [exact Hb|]. left. do 2 eexists; split; [reflexivity|auto].
Qed.

Lemma after_name_no_trivia y : after_name y -> no_trivia y.
Proof.
  intros [(c & x & -> & Hc)|(r & e & H)]; [|eapply term_no_trivia, H].
  destruct Hc as [->| ->]; apply no_trivia_char; discriminate.
Qed.

Lemma after_name_word y w r : after_name y -> longest is_name_char w y r -> In w reserved_words -> False.
Proof.
  intros [(c & x & -> & Hc)|(r' & e & H)] Hl Hin.
  - pose proof Hl as Hl'. apply longest_head in Hl'; [|destruct Hc as [->| ->]; reflexivity]. subst w.
    simpl in Hin. repeat (destruct Hin as [E|Hin]; [discriminate E|]). exact Hin.
  - eapply term_some; [exact H|]. eapply word_no_term; eassumption.
Qed.

Lemma effect_Err n s b y : lower_name n -> s = n ++ b ++ y -> spaces1 b -> after_name y ->
  effect_module_declaration s = Err.
Proof.
  intros Hn -> Hb Hy. unfold effect_module_declaration.
  assert (Hl : longest is_name_char n (n ++ b ++ y) (b ++ y)).
  { apply lower_longest; [exact Hn|apply ends_spaces1; [exact Hb|reflexivity]]. }
  destruct (list_eq_dec N.eq_dec n (L "effect")) as [->|Hne];
    [|eapply keyword_sp; [exact Hl|reflexivity|exact Hne]].
  eapply bind_Err2; [apply tag_intro|].
  eapply bind_Err2; [apply sp_gt; [apply spaces_lay, Hb|apply after_name_no_trivia, Hy]|].
  destruct (longest_exists is_name_char y) as (w & r & Hw).
  eapply keyword_sp; [exact Hw|reflexivity|]. intros ->.
  eapply after_name_word; [exact Hy|exact Hw|simpl; auto 25].
Qed.

Lemma s_function f s r : RFunc 0 f s r -> statement s = Ok r (Function_ f).
Proof.
  intros H. pose proof (complete_function _ _ _ _ H) as Hf.
  destruct (func_shape _ _ _ H) as (n & b & y & Hn & Hb & Hy).
  assert (Hm : map_ Function_ (function 0) s = Ok r (Function_ f)) by (apply map_intro, Hf).
  remember (b ++ y) as s1 eqn:E1.
  destruct Hn as [n r1 Hn Hr1|o r1 Ho].
  - subst r1. assert (Hl : longest is_name_char n (n ++ b ++ y) (b ++ y)).
    { apply lower_longest; [exact Hn|apply ends_spaces1; [exact Hb|reflexivity]]. }
    assert (Hres : forall w, In w reserved_words -> n <> w) by (intros; apply lower_not_reserved; assumption).
    unfold statement.
    apply alt_right; [eapply keyword_sp; [exact Hl|reflexivity|apply Hres; simpl; auto 25]|].
    apply alt_right; [eapply effect_Err; [exact Hn|reflexivity|exact Hb|exact Hy]|].
    apply alt_right; [eapply keyword_sp; [exact Hl|reflexivity|apply Hres; simpl; auto 25]|].
    apply alt_right; [eapply keyword_spaces; [exact Hl|reflexivity|apply Hres; simpl; auto 25]|].
    apply alt_right; [eapply keyword_spaces; [exact Hl|reflexivity|apply Hres; simpl; auto 25]|].
    apply alt_right; [eapply keyword_spaces; [exact Hl|reflexivity|apply Hres; simpl; auto 25]|].
    apply alt_right; [eapply keyword_spaces; [exact Hl|reflexivity|apply Hres; simpl; auto 25]|].
    apply alt_right; [eapply keyword_spaces; [exact Hl|reflexivity|apply Hres; simpl; auto 25]|].
    apply alt_left, Hm.
  - unfold statement. do 8 (apply alt_right; [reflexivity|]). apply alt_left, Hm.
Qed.

(** ** Infix declarations *)

Lemma dec_sp d s : digits1 d -> ends is_sp_char (d ++ s).
Proof. intros Hd. destruct (digits1_head d Hd) as (c & t & -> & Hc). cbn [app ends]. chr. Qed.

Lemma digit_term d b s : digits1 d -> spaces1 b -> term 0 (d ++ b ++ s) = Ok (b ++ s) (Integer d).
Proof.
  intros Hd Hb.
  assert (Ht : integer_text d) by (exists [], d; split; [reflexivity|split; [left; reflexivity|exact Hd]]).
  assert (He : ends_integer (b ++ s)).
  { split; [apply ends_spaces1; [exact Hb|reflexivity]|]. intros (x & r & E & _).
    destruct Hb as [Hne Hb]. destruct b as [|c b]; [congruence|]. cbn [app] in E. injection E as -> _.
    discriminate Hb. }
  apply t_integer; [apply integer_no_float; assumption|]. apply integer_iff. destruct He. eauto.
Qed.

Lemma infix_function_Err a b1 d b2 z l y :
  spaces1 b1 -> digits1 d -> spaces1 b2 ->
  manys (preceded spaces (term 0)) (b2 ++ z) l y ->
  (spaces ;;; char_ (C "=") ;;; new_indent <- sp_gt0 ;; body <- expression new_indent ;; ret body) y = Err ->
  function 0 (assoc_word a ++ b1 ++ d ++ b2 ++ z) = Err.
Proof.
  intros H1 Hd H2 Hm Hy.
  assert (Hw : lower_name (assoc_word a)).
  { right. split; [|intros Hin; destruct a; simpl in Hin;
      repeat (destruct Hin as [E|Hin]; [discriminate E|]); exact Hin].
    destruct a; do 2 eexists; (split; [reflexivity|]); auto. }
  assert (Hn : binding_name (assoc_word a ++ b1 ++ d ++ b2 ++ z) = Ok (b1 ++ d ++ b2 ++ z) (assoc_word a)).
  { apply alt_left, lo_name_intro; [exact Hw|]. right. apply ends_spaces1; [exact H1|reflexivity]. }
  assert (Hs : forall X (g : str -> parser X), g b1 (d ++ b2 ++ z) = Err ->
             bind spaces g (b1 ++ d ++ b2 ++ z) = Err).
  { intros X g Hg. eapply bind_Err2; [apply spaces_intro; [exact H1|apply dec_sp, Hd]|exact Hg]. }
  unfold function, function_f. eapply bind_Err2; [apply opt_None|].
  - apply bind_Err1. unfold function_signature. eapply bind_Err2; [exact Hn|]. apply Hs.
    apply bind_Err1, char_Err. destruct (digits1_head d Hd) as (c & t & -> & Hc). cbn [app ends]. chr.
  - apply bind_Err1. unfold function_definition_f. eapply bind_Err2; [exact Hn|].
    assert (Hargs : many0 (preceded spaces (term 0)) (b1 ++ d ++ b2 ++ z) = Ok y (Integer d :: l)).
    { eapply many0_ok; [apply eats_arg|]. eapply manys_cons; [apply eats_arg| |exact Hm].
      eapply preceded_intro; [apply spaces_intro; [exact H1|apply dec_sp, Hd]|apply digit_term; assumption]. }
    eapply bind_Err2; [exact Hargs|].
    revert Hy. unfold bind. destruct (spaces y) as [s1 x1| |]; try congruence.
    destruct (char_ (C "=") s1) as [s2 x2| |]; try congruence.
    change sp_gt0 with (spaces_or_new_lines_and_indent 0 IR_GT).
    destruct (spaces_or_new_lines_and_indent 0 IR_GT s2) as [s3 x3| |]; try congruence.
    destruct (expression x3 s3) as [s4 x4| |]; try congruence. discriminate.
Qed.

Lemma s_infix a b1 d b2 n r :
  spaces1 b1 -> digits1 d -> (dec_value d <= 2 ^ 63 - 1)%N -> spaces1 b2 -> name_or_operator_at n r ->
  function 0 (assoc_word a ++ b1 ++ d ++ b2 ++ n ++ r) = Err ->
  statement (assoc_word a ++ b1 ++ d ++ b2 ++ n ++ r) = Ok r (InfixDeclaration a (dec_value d) n).
Proof.
  intros H1 Hd Hv H2 Hn Hf. unfold statement.
  do 8 (apply alt_right; [destruct a; reflexivity|]).
  apply alt_right; [apply map_Err, Hf|]. apply alt_left. apply infix_declaration_iff.
  exists a, (assoc_word a), b1, d, b2, n. split; [reflexivity|]. split; [reflexivity|].
  split; [destruct a; constructor|]. auto 8.
Qed.

Lemma line_blank_cases r : line_blank r ->
  exists b y, r = b ++ y /\ ospaces b /\ ends is_sp_char y /\
    match y with [] => True | c :: _ => c = newline \/ c = 13%N \/ c = 9%N end.
Proof.
  intros (b & y & -> & Hb & Hy). exists b, y. repeat split; auto.
  destruct y as [|c y]; [exact I|]. destruct Hy as [->|[->| ->]]; reflexivity.
Qed.

Lemma ends_line_blank P r : line_blank r -> P space = false -> P newline = false ->
  P 13%N = false -> P 9%N = false -> ends P r.
Proof.
  intros (b & y & -> & Hb & Hy) H1 H2 H3 H4. apply ends_ospaces; [exact Hb|exact H1|].
  destruct y as [|c y]; [exact I|]. cbn [ends]. destruct Hy as [->|[->| ->]]; assumption.
Qed.

Lemma s_infix_name a b1 d b2 n r :
  spaces1 b1 -> digits1 d -> (dec_value d <= 2 ^ 63 - 1)%N -> spaces1 b2 -> lower_name n ->
  line_blank r ->
  statement (assoc_word a ++ b1 ++ d ++ b2 ++ n ++ r) = Ok r (InfixDeclaration a (dec_value d) n).
Proof.
  intros H1 Hd Hv H2 Hn Hr.
  assert (Hel : ends_lower n r) by (right; apply ends_line_blank; [exact Hr|reflexivity..]).
  apply s_infix; try assumption; [left; auto|].
  assert (Hacc : no_access r).
  { assert (Hd' : ends (fun c => (c =? C ".")%N) r) by (apply ends_line_blank; [exact Hr|reflexivity..]).
    destruct r as [|c r]; [exact I|]. intros ->. discriminate Hd'. }
  destruct (line_blank_cases r Hr) as (b & y & -> & Hb & Hy & Hyc).
  assert (Hyt : no_term y /\ ends (fun c => (c =? C "=")%N) y).
  { destruct y as [|c y]; [split; exact I|]. destruct Hyc as [->|[->| ->]];
      (split; [apply never_no_term; reflexivity|reflexivity]). }
  destruct Hyt as [Hyt Hye].
  eapply infix_function_Err with (l := [Variable_ [n]]) (y := b ++ y); try assumption.
  - eapply manys_cons; [apply eats_arg| |].
    + eapply preceded_intro; [apply spaces_intro; [exact H2|apply lower_sp, Hn]|].
      apply t_var; [constructor; assumption|exact Hacc].
    + apply manys_stop, many_stop_Err. unfold preceded. destruct b as [|c b].
      * apply bind_Err1. eapply heads_Err; [apply heads_spaces|oks|exact Hy].
      * eapply bind_Err2; [apply spaces_intro; [split; [discriminate|exact Hb]|exact Hy]|].
        apply no_term_Err, Hyt.
  - destruct b as [|c b].
    + apply bind_Err1. eapply heads_Err; [apply heads_spaces|oks|exact Hy].
    + eapply bind_Err2; [apply spaces_intro; [split; [discriminate|exact Hb]|exact Hy]|].
      apply bind_Err1, char_Err, Hye.
Qed.

Lemma op_term_Err o r : operator_name o -> blank_next r -> no_term (o ++ r).
Proof.
  intros (Hne & Ho & _) Hr. destruct o as [|c o]; [congruence|]. simpl in Ho.
  apply andb_true_iff in Ho as [Hc Ho]. destruct r as [|d r].
  - rewrite app_nil_r. cut (no_term (c :: o ++ C ")" :: [])).
    { intros (A1 & A2 & A3 & _ & A5 & A6). repeat split; try assumption.
      - intros Hl. exfalso. assert (H' : is_lower c = false) by opc Hc. congruence.
      - intros E. specialize (A5 E). destruct o; [exact I|exact A5].
      - intros E. specialize (A6 E). destruct o; [exact I|exact A6]. }
    apply op_no_term; try assumption; reflexivity || discriminate.
  - cbn [blank_next] in Hr. apply op_no_term; try assumption; clear -Hr; chr.
Qed.

Lemma op_sp o s : operator_name o -> ends is_sp_char (o ++ s).
Proof.
  intros (Hne & Ho & _). destruct o as [|c o]; [congruence|]. simpl in Ho.
  apply andb_true_iff in Ho as [Hc _]. cbn [app ends]. opc Hc.
Qed.

Lemma s_infix_operator a b1 d b2 o r :
  spaces1 b1 -> digits1 d -> (dec_value d <= 2 ^ 63 - 1)%N -> spaces1 b2 -> operator_name o ->
  blank_next r -> no_definition o r ->
  statement (assoc_word a ++ b1 ++ d ++ b2 ++ o ++ r) = Ok r (InfixDeclaration a (dec_value d) o).
Proof.
  intros H1 Hd Hv H2 Ho Hr Hnd.
  assert (Hor : ends is_op_char r).
  { destruct r as [|c r]; [exact I|]. cbn [blank_next] in Hr. cbn [ends]. clear -Hr. chr. }
  apply s_infix; try assumption; [right; auto|].
  eapply infix_function_Err with (l := []) (y := b2 ++ o ++ r); try assumption.
  - apply manys_stop, many_stop_Err. unfold preceded.
    eapply bind_Err2; [apply spaces_intro; [exact H2|apply op_sp, Ho]|].
    apply no_term_Err, op_term_Err; assumption.
  - eapply bind_Err2; [apply spaces_intro; [exact H2|apply op_sp, Ho]|].
    destruct Ho as (Hne & _). destruct o as [|c o]; [congruence|].
    destruct (N.eqb_spec c (C "=")) as [->|Hc]; [|apply bind_Err1, char_Err, N.eqb_neq, Hc].
    eapply bind_Err2; [apply (char_intro (C "=") (o ++ r))|].
    destruct (trivia_run_exists (o ++ r)) as (t & r' & Hrun).
    destruct (sp_cases 0 IR_GT _ _ _ Hrun) as [E|[Hne' E]]; [apply bind_Err1, E|].
    destruct (Hnd o eq_refl t r' Hrun) as [->|[[Hn Hw]|Hx]].
    + congruence.
    + apply bind_Err1. eapply sp_Err; [exact Hrun|]. right. split; [exact Hn|]. cbn. lia.
    + eapply bind_Err2; [exact E|]. apply bind_Err1, no_expr_Err, Hx.
Qed.

(** ** Comments *)

Lemma binding_Err c s : name0 c = false -> c <> C "(" -> binding_name (c :: s) = Err.
Proof.
  intros H1 H2. apply alt_Err.
  - eapply heads_Err; [apply heads_lo_name|oks|exact H1].
  - apply bind_Err1, char_Err, N.eqb_neq, H2.
Qed.

Lemma function_head_Err i c s : name0 c = false -> c <> C "(" -> function i (c :: s) = Err.
Proof.
  intros H1 H2. unfold function, function_f. eapply bind_Err2; [apply opt_None|].
  - apply bind_Err1, bind_Err1, binding_Err; assumption.
  - apply bind_Err1, bind_Err1, binding_Err; assumption.
Qed.

Lemma s_comment s r st : comment s = Ok r st -> statement s = Ok r st.
Proof.
  intros H. pose proof H as H'. apply comment_iff in H as (c & _ & [(-> & _)|[-> _]]); unfold statement.
  - do 8 (apply alt_right; [reflexivity|]).
    apply alt_right; [apply map_Err, function_head_Err; [reflexivity|discriminate]|].
    apply alt_right; [reflexivity|]. exact H'.
  - do 8 (apply alt_right; [reflexivity|]).
    apply alt_right; [apply map_Err, function_head_Err; [reflexivity|discriminate]|].
    apply alt_right; [reflexivity|]. exact H'.
Qed.

(** ** Statements and files *)

Theorem complete_statement st s r : RStmt st s r -> statement s = Ok r st.
Proof.
  intros []; eauto using s_module, s_port_module, s_effect_module, complete_exports, s_import, s_alias,
    s_type, s_port_type, s_port, s_function, s_infix_name, s_infix_operator.
  - apply s_comment, comment_iff. eexists. split; [reflexivity|]. left. auto.
  - apply s_comment, comment_iff. eexists. split; [reflexivity|]. right. split; [reflexivity|assumption].
Qed.

Definition statement0 (c : char) : bool := name0 c || mem_char c (L "({-").

Lemma statement0_lower c : is_lower c = true -> statement0 c = true.
Proof. unfold statement0, name0. intros; chr. Qed.

Lemma heads_statement : heads statement0 statement.
Proof.
  assert (Htag : forall c t {B} (f : str -> parser B), is_lower c = true -> heads statement0 (bind (tag (c :: t)) f)).
  { intros c t B f Hc. apply heads_bind. eapply heads_weaken; [|apply heads_tag].
    intros d Hd. apply N.eqb_eq in Hd. subst d. apply statement0_lower, Hc. }
  unfold statement. do 8 (apply heads_alt; [apply Htag; reflexivity|]).
  apply heads_alt.
  { apply heads_map. intros s r f H.
    destruct s as [|c s].
    - exfalso. vm_compute in H. discriminate H.
    - exists c, s. split; [reflexivity|]. destruct (statement0 c) eqn:Hc; [reflexivity|].
      exfalso. rewrite function_head_Err in H; [discriminate|..].
      + unfold statement0 in Hc. apply orb_false_iff in Hc. apply Hc.
      + intros ->. discriminate Hc. }
  apply heads_alt.
  { unfold infix_declaration. apply heads_bind.
    assert (Hv : forall a c t, is_lower c = true -> heads statement0 (value (A := str) (B := assoc) a (tag (c :: t)))).
    { intros a c t Hc s r x H. apply value_Ok in H as (w & H & _). apply tag_Ok in H as [-> _].
      cbn [app]. do 2 eexists. split; [reflexivity|]. apply statement0_lower, Hc. }
    apply heads_alt; [apply Hv; reflexivity|]. apply heads_alt; apply Hv; reflexivity. }
  intros s r st H. apply comment_iff in H as (c & _ & [(-> & _)|[-> _]]);
    do 2 eexists; split; reflexivity.
Qed.

Lemma statement_ends s r st : statement s = Ok r st -> ends is_blank s.
Proof.
  intros H. apply heads_statement in H as (c & s' & -> & Hc). unfold statement0, name0 in Hc.
  cbn [ends]. chr.
Qed.

Lemma eats_statement : eats statement.
Proof. apply ok_eats. intros n. apply ok_statement. Qed.

Lemma complete_statements sts s r : RStmts sts s r ->
  exists st l s1, sts = st :: l /\ statement s = Ok s1 st /\
    (sep_stop multispace0 statement r -> seps multispace0 statement s1 l r).
Proof.
  induction 1 as [st s r H|st s b sts s' r H Hb _ (st' & l & s1 & -> & Hst & Hl)].
  - exists st, [], r. split; [reflexivity|]. split; [apply complete_statement, H|]. intros Hs.
    apply seps_stop, Hs.
  - exists st, (st' :: l), (b ++ s'). split; [reflexivity|]. split; [apply complete_statement, H|].
    intros Hs. eapply seps_more.
    + apply multispace0_intro; [apply Hb|eapply statement_ends, Hst].
    + destruct (blanks1_head b Hb) as (c & b' & -> & _). cbn [app length]. rewrite app_length. lia.
    + exact Hst.
    + eapply eats_length; [apply eats_statement|exact Hst].
    + apply Hl, Hs.
Qed.

Theorem complete_file sts s : RFile sts s -> file s = Ok [] sts.
Proof.
  intros [b1 sts' s' b2 H1 H H2]. destruct (complete_statements _ _ _ H) as (st & l & s1 & -> & Hst & Hl).
  assert (Hm : multispace0 b2 = Ok [] b2).
  { rewrite <- (app_nil_r b2) at 1. apply multispace0_intro; [exact H2|exact I]. }
  assert (Hstop : sep_stop multispace0 statement b2).
  { unfold sep_stop. rewrite Hm. right. reflexivity. }
  unfold file. apply (terminated_intro _ _ _ [] _ [] []); [|reflexivity].
  eapply delimited_intro.
  - apply multispace0_intro; [exact H1|eapply statement_ends, Hst].
  - eapply separated_nonempty_list_intro; [| |exact Hst| |apply Hl, Hstop].
    + intros s0 s2 x Hx. destruct (ok_multispace0 (S (length s0)) s0 (le_n _)) as [_ Hk].
      rewrite Hx in Hk. cbn in Hk. lia.
    + apply eats_le, eats_statement.
    + eapply eats_length; [apply eats_statement|exact Hst].
  - exact Hm.
Qed.
