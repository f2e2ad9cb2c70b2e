(** * Types, exactly *)
From Verif Require Import Base Nom Regex Ast Good Spec Helpers Types Expr Stmt Lexers Total
  Layout Seqs Grammar Follow Sound SoundE SoundS LexProps Heads Rules Render CompleteT CompleteE
  CompleteX CompleteS Round Language Chains Exact Keywords Decls Brackets.

Definition reads_type (i : N) (s : str) (t : type_ast) (r : str) : Prop := type_ i s = Ok r t.

Lemma type_nil i t r : ~ reads_type i [] t r.
Proof. intros H. apply eats_type in H. cbn in H. lia. Qed.
Lemma type_tot i s : (forall r a, type_ i s <> Ok r a) -> type_ i s = Err.
Proof. apply err_of_no_ok. oks. Qed.

(** ** Arrows *)

Lemma arrows_items i s l r : arrows i s l r <-> items arrow (reads_type i) s l r.
Proof.
  split.
  - induction 1 as [r|b1 b2 s x s' l r H1 H2 Hx _ IH]; [constructor|].
    replace (b1 ++ L "->" ++ b2 ++ s) with ((b1 ++ L "->" ++ b2) ++ s) by (rewrite <- !app_assoc; reflexivity).
    econstructor; [|exact Hx|exact IH]. exists b1, b2. auto.
  - induction 1 as [r|t s x s' l r (b1 & b2 & -> & H1 & H2) Hx _ IH]; [constructor|].
    rewrite <- !app_assoc. econstructor; eassumption.
Qed.
Lemma no_arrows_items i r : no_more_arrows i r <-> no_item arrow (reads_type i) r.
Proof.
  split.
  - intros H t s x r' -> (b1 & b2 & -> & H1 & H2) Hx. eapply (H b1 b2); [|eassumption..].
    rewrite <- !app_assoc. reflexivity.
  - intros H b1 b2 s r' x -> H1 H2 Hx. eapply (H (b1 ++ L "->" ++ b2) s x r'); [|exists b1, b2; auto|exact Hx].
    rewrite <- !app_assoc. reflexivity.
Qed.
Theorem annotation_rule_iff i s r t :
  type_annotation i s = Ok r t <-> annotation_rule reads_type i s t r.
Proof.
  rewrite annotation_iff. unfold annotation_rule.
  split; intros (a & s1 & l & Ha & Hl & Hn & ->); exists a, s1, l.
  - rewrite <- arrows_items, <- no_arrows_items. auto.
  - rewrite arrows_items, no_arrows_items. auto.
Qed.

(** ** Records *)

Lemma type_field_iff i s r f : type_record_pair_f type_ i s = Ok r f <-> type_field_rule reads_type i s f r.
Proof.
  unfold type_record_pair_f. split.
  - intros H. apply bind_Ok in H as (s1 & n & Hn & H). apply bind_Ok in H as (s2 & o1 & H1 & H).
    apply bind_Ok in H as (s3 & x & Hx & H). apply bind_Ok in H as (s4 & o2 & H2 & H).
    apply bind_Ok in H as (s5 & t & Ht & H). apply ret_Ok in H as [-> ->].
    change (type_annotation_f type_) with type_annotation in Ht. apply annotation_rule_iff in Ht.
    apply lo_name_iff in Hn as (-> & Hn & _). apply char_Ok in Hx as [-> _].
    apply opt_sp_lay in H1 as [(t1 & -> & H1)|H1]; [|discriminate H1].
    apply opt_sp_lay in H2 as [(t2 & -> & H2)| ->].
    + exists t1, t2, s4. cbn [fst snd]. auto.
    + exfalso. destruct Ht as (a & s1 & l & Ha & _). eapply type_nil, Ha.
  - intros (t1 & t2 & s1 & -> & Hn & H1 & H2 & Ht). destruct f as [n t]. cbn [fst snd] in *.
    apply annotation_rule_iff in Ht.
    eapply bind_intro; [apply lo_name_intro; [exact Hn|]|].
    { right. apply (ends_olay is_name_char i t1 (C ":")); [exact H1|reflexivity..]. }
    destruct (opt_sp_intro i t1 (L ":" ++ t2 ++ s1) H1) as [o1 E1]; [apply no_trivia_char; discriminate|].
    eapply bind_intro; [exact E1|]. eapply bind_intro; [apply char_intro|].
    destruct (opt_sp_intro i t2 s1 H2) as [o2 E2]; [eapply ann_no_trivia, Ht|].
    eapply bind_intro; [exact E2|]. eapply bind_intro; [exact Ht|reflexivity].
Qed.
Lemma type_fields i s l r : type_record_pairs_f type_ i s = Ok r l <->
  (l = [] /\ r = s /\ forall x s', ~ type_field_rule reads_type i s x s') \/
  exists x l' s1, l = x :: l' /\ type_field_rule reads_type i s x s1 /\
    items (comma i) (type_field_rule reads_type i) s1 l' r /\ no_item (comma i) (type_field_rule reads_type i) r.
Proof.
  apply comma_list; [apply type_field_iff|apply eats_pair| |intros; eapply pair_no_trivia; eassumption].
  intros s0. apply err_of_no_ok. unfold type_record_pair_f. oks.
Qed.
Lemma type_list i s l r : separated_list (comma_sep i) (type_ i) s = Ok r l <->
  (l = [] /\ r = s /\ forall x s', ~ reads_type i s x s') \/
  exists x l' s1, l = x :: l' /\ reads_type i s x s1 /\
    items (comma i) (reads_type i) s1 l' r /\ no_item (comma i) (reads_type i) r.
Proof.
  apply comma_list; [reflexivity|apply eats_type|apply type_tot|intros; eapply type_no_trivia; eassumption].
Qed.
Lemma no_type_comma i t c r : olay i t -> no_trivia (c :: r) -> c <> C "," ->
  no_item (comma i) (reads_type i) (t ++ c :: r).
Proof.
  intros. eapply (no_comma (type_ i)); [reflexivity|apply eats_type|apply type_tot| |assumption..].
  intros; eapply type_no_trivia; eassumption.
Qed.
Lemma no_field_comma i t c r : olay i t -> no_trivia (c :: r) -> c <> C "," ->
  no_item (comma i) (type_field_rule reads_type i) (t ++ c :: r).
Proof.
  intros. eapply (no_comma (type_record_pair_f type_ i)); [apply type_field_iff|apply eats_pair| | |assumption..].
  - intros s0. apply err_of_no_ok. unfold type_record_pair_f. oks.
  - intros; eapply pair_no_trivia; eassumption.
Qed.

Lemma field_head i s f s1 : type_field_rule reads_type i s f s1 ->
  exists t1 s', s = fst f ++ t1 ++ L ":" ++ s' /\ lower_name (fst f) /\ olay i t1.
Proof. intros (t1 & t2 & s2 & -> & Hn & H1 & _). eauto 8. Qed.

Theorem type_brace_iff i s r t : simple i (L "{" ++ s) = Ok r t <-> type_record_rule reads_type i s t r.
Proof.
  unfold simple. split.
  - intros H. apply alt_Ok in H as [H|[_ H]]; [wrong H heads_type_variable|].
    apply alt_Ok in H as [H|[_ H]].
    { right. right. unfold type_record_constructor_f in H.
      apply delimited_Ok in H as (s1 & x1 & s2 & x2 & E1 & H & E2).
      apply char_Ok in E1 as [[= <-] _]. apply char_Ok in E2 as [-> _].
      apply bind_Ok in H as (s3 & j1 & H1 & H). apply bind_Ok in H as (s4 & v & Hv & H).
      apply bind_Ok in H as (s5 & j2 & H2 & H). apply bind_Ok in H as (s6 & x & Hx & H).
      apply bind_Ok in H as (s7 & j3 & H3 & H). apply bind_Ok in H as (s8 & fs & Hfs & H).
      apply bind_Ok in H as (s9 & j4 & H4 & H). apply ret_Ok in H as [<- ->].
      apply type_variable_iff in Hv as (n & -> & -> & Hn & _). apply char_Ok in Hx as [-> _].
      apply sp_ge_inv in H1 as [(t1 & -> & H1)|H1].
      2: { exfalso. destruct Hn as (c & t & -> & _). discriminate H1. }
      lays H2.
      pose proof (no_trivia_sp _ _ _ _ _ H3) as Hnt.
      apply type_fields in Hfs as [(-> & -> & _)|(f & fs' & s3 & -> & Hf & Hfs & _)].
      { rewrite sp_nil in H4 by exact Hnt. discriminate H4. }
      lays H4. apply sp_ge_inv in H3 as [(t3 & -> & H3)| ->].
      2: { exfalso. destruct (field_head _ _ _ _ Hf) as (u & s' & Eu & Hl & _).
           destruct (lower_name_head _ Hl) as (c & y & Ey & _). rewrite Ey in Eu. discriminate Eu. }
      do 13 eexists. split; [reflexivity|]. repeat (split; [eassumption|]). reflexivity. }
    apply alt_Ok in H as [H|[_ H]].
    2: { apply alt_Ok in H as [H|[_ H]]; [wrong H heads_T_tuple|wrong H heads_T_parens]. }
    unfold type_record_f in H. apply delimited_Ok in H as (s1 & o1 & s2 & o2 & H1 & H & H3).
    apply preceded_Ok in H1 as (u & x & Hx & H1). apply char_Ok in Hx as [[= <-] _].
    apply terminated_Ok in H3 as (u & x' & H3 & Hx). apply char_Ok in Hx as [-> _].
    apply map_Ok in H as (l & H & ->).
    apply type_fields in H as [(-> & -> & _)|(f & fs & s3 & -> & Hf & Hfs & _)].
    + left. destruct (opt_sp_twice _ _ _ _ _ _ H1 H3) as [(t & -> & Ht)|Hn]; [eauto|discriminate Hn].
    + right. left. apply opt_sp_lay in H3 as [(t2 & -> & H3)|H3]; [|discriminate H3].
      apply opt_sp_lay in H1 as [(t1 & -> & H1)| ->].
      * exists t1, s1, f, s3, fs, t2. auto 10.
      * exfalso. destruct (field_head _ _ _ _ Hf) as (u & s' & Eu & Hl & _).
        destruct (lower_name_head _ Hl) as (c & y & Ey & _). rewrite Ey in Eu. discriminate Eu.
  - intros [(t1 & -> & H1 & ->)|[(t1 & s1 & f & s2 & fs & t2 & -> & H1 & Hf & Hfs & H2 & ->)|
      (t1 & j1 & n & t2 & j2 & t3 & j3 & s1 & f & s2 & fs & t4 & j4 & -> & H1 & Hn & H2 & H3 & Hf & Hfs & H4 & ->)]].
    + apply alt_right; [nohead heads_type_variable|]. apply alt_right; [apply rc_Err_close; exact H1|].
      apply alt_left. unfold type_record_f.
      destruct (open_ok i (C "{") t1 (L "}" ++ r) H1) as [o Ho]; [apply no_trivia_char; discriminate|].
      destruct (close_ok i [] (C "}") r) as [o2 Ho2]; [left; reflexivity|apply no_trivia_char; discriminate|].
      eapply delimited_intro; [exact Ho| |exact Ho2].
      apply map_intro. apply sep_list_nil. nohead heads_pair.
    + destruct (field_head _ _ _ _ Hf) as (u & s' & Eu & Hl & Hu).
      apply alt_right; [nohead heads_type_variable|]. apply alt_right.
      { rewrite Eu. apply rc_Err; assumption. }
      apply alt_left. unfold type_record_f.
      destruct (open_ok i (C "{") t1 s1 H1) as [o Ho].
      { eapply pair_no_trivia. apply type_field_iff, Hf. }
      destruct (close_ok i t2 (C "}") r H2) as [o2 Ho2]; [apply no_trivia_char; discriminate|].
      eapply delimited_intro; [exact Ho| |exact Ho2].
      apply map_intro. apply type_fields. right. exists f, fs, s2. split; [reflexivity|]. split; [exact Hf|].
      split; [exact Hfs|]. apply no_field_comma; [exact H2|apply no_trivia_char; discriminate|discriminate].
    + apply alt_right; [nohead heads_type_variable|]. apply alt_left. unfold type_record_constructor_f.
      pose proof Hn as (c & n0 & -> & Hc & Hn0).
      eapply delimited_intro; [apply char_intro| |apply char_intro].
      eapply bind_intro; [apply (sp_ge i t1 j1 ((c :: n0) ++ t2 ++ L "|" ++ t3 ++ s1)); [exact H1|]|].
      { apply no_trivia_char; chr. }
      eapply bind_intro; [apply type_variable_intro; [exact Hn|]|].
      { eapply ends_lay; [exact H2|reflexivity..]. }
      eapply bind_intro; [apply sp_ge; [exact H2|apply no_trivia_char; discriminate]|].
      eapply bind_intro; [apply char_intro|].
      eapply bind_intro; [apply (sp_ge i t3 j3 s1); [exact H3|]|].
      { eapply pair_no_trivia. apply type_field_iff, Hf. }
      eapply bind_intro.
      { apply type_fields. right. exists f, fs, s2. split; [reflexivity|]. split; [exact Hf|].
        split; [exact Hfs|]. apply no_field_comma; [right; eauto|apply no_trivia_char; discriminate|discriminate]. }
      eapply bind_intro; [apply sp_ge; [exact H4|apply no_trivia_char; discriminate]|].
      reflexivity.
Qed.

(** ** Parentheses *)

Lemma function_type_iff i s r t : function_type_rule reads_type i s t r <->
  exists a s1 b l, type_ i s = Ok s1 a /\ arrows i s1 (b :: l) r /\ no_more_arrows i r /\
    t = arrow_right a (b :: l).
Proof.
  unfold function_type_rule. split; intros (a & s1 & b & l & Ha & Hl & Hn & ->); exists a, s1, b, l.
  - rewrite arrows_items, no_arrows_items. auto.
  - rewrite <- arrows_items, <- no_arrows_items. auto.
Qed.

Theorem type_paren_iff i s r t : simple i (L "(" ++ s) = Ok r t <-> type_paren_rule reads_type i s t r.
Proof.
  unfold simple. split.
  - intros H. apply alt_Ok in H as [H|[_ H]]; [wrong H heads_type_variable|].
    apply alt_Ok in H as [H|[_ H]]; [wrong H heads_T_rc|].
    apply alt_Ok in H as [H|[_ H]]; [wrong H heads_T_record|].
    apply alt_Ok in H as [H|[Ht H]].
    + unfold type_tuple_f in H. apply map_Ok in H as (l & H & ->).
      apply delimited_Ok in H as (s1 & o1 & s2 & o2 & H1 & H & H3).
      apply preceded_Ok in H1 as (u & x & Hx & H1). apply char_Ok in Hx as [[= <-] _].
      apply terminated_Ok in H3 as (u & x' & H3 & Hx). apply char_Ok in Hx as [-> _].
      apply type_list in H as [(-> & -> & _)|(f & fs & s3 & -> & Hf & Hfs & _)].
      * left. destruct (opt_sp_twice _ _ _ _ _ _ H1 H3) as [(t & -> & Ht)|Hn]; [eauto|discriminate Hn].
      * right. left. apply opt_sp_lay in H3 as [(t2 & -> & H3)|H3]; [|discriminate H3].
        apply opt_sp_lay in H1 as [(t1 & -> & H1)| ->]; [|exfalso; eapply type_nil, Hf].
        exists t1, s1, f, s3, fs, t2. auto 10.
    + right. right. unfold type_parens_f in H. apply delimited_Ok in H as (s1 & o1 & s2 & o2 & H1 & H & H3).
      apply preceded_Ok in H1 as (u & x & Hx & H1). apply char_Ok in Hx as [[= <-] _].
      apply terminated_Ok in H3 as (u & x' & H3 & Hx). apply char_Ok in Hx as [-> _].
      change (type_annotation_f type_) with type_annotation in H.
      apply annotation_iff in H as (a & s3 & l & Ha & Hl & Hn & ->).
      apply opt_sp_lay in H3 as [(t2 & -> & H3)|H3]; [|discriminate H3].
      apply opt_sp_lay in H1 as [(t1 & -> & H1)| ->]; [|exfalso; eapply type_nil, Ha].
      exists t1, s1, t2. split; [reflexivity|]. split; [exact H1|]. split; [|exact H3].
      destruct l as [|b l]; [|apply function_type_iff; eauto 10].
      exfalso. inversion Hl; subst.
      assert (Hc : type_tuple_f type_ i (L "(" ++ t1 ++ s1) = Ok r (TypeTuple [a])).
      { unfold type_tuple_f. destruct (open_ok i (C "(") t1 s1 H1) as [o Ho]; [eapply type_no_trivia, Ha|].
        destruct (close_ok i t2 (C ")") r H3) as [o3 Ho3]; [apply no_trivia_char; discriminate|].
        apply map_intro. eapply delimited_intro; [exact Ho| |exact Ho3].
        apply type_list. right. exists a, [], (t2 ++ L ")" ++ r). split; [reflexivity|]. split; [exact Ha|].
        split; [constructor|]. apply no_type_comma; [exact H3|apply no_trivia_char; discriminate|discriminate]. }
      change (type_tuple_f type_ i (L "(" ++ t1 ++ s1) = Err) in Ht. congruence.
  - intros [(t1 & -> & H1 & ->)|[(t1 & s1 & f & s2 & fs & t2 & -> & H1 & Hf & Hfs & H2 & ->)|
      (t1 & s1 & t2 & -> & H1 & H & H2)]].
    + apply alt_right; [nohead heads_type_variable|]. do 2 (apply alt_right; [reflexivity|]). apply alt_left.
      unfold type_tuple_f.
      destruct (open_ok i (C "(") t1 (L ")" ++ r) H1) as [o Ho]; [apply no_trivia_char; discriminate|].
      destruct (close_ok i [] (C ")") r) as [o2 Ho2]; [left; reflexivity|apply no_trivia_char; discriminate|].
      apply map_intro. eapply delimited_intro; [exact Ho| |exact Ho2].
      apply sep_list_nil. nohead heads_type.
    + apply alt_right; [nohead heads_type_variable|]. do 2 (apply alt_right; [reflexivity|]). apply alt_left.
      unfold type_tuple_f.
      destruct (open_ok i (C "(") t1 s1 H1) as [o Ho]; [eapply type_no_trivia, Hf|].
      destruct (close_ok i t2 (C ")") r H2) as [o2 Ho2]; [apply no_trivia_char; discriminate|].
      apply map_intro. eapply delimited_intro; [exact Ho| |exact Ho2].
      apply type_list. right. exists f, fs, s2. split; [reflexivity|]. split; [exact Hf|].
      split; [exact Hfs|]. apply no_type_comma; [exact H2|apply no_trivia_char; discriminate|discriminate].
    + apply function_type_iff in H as (a & s2 & b & l & Ha & Hl & _ & ->).
      pose proof (type_parens_arrow i t1 s1 s2 a (b :: l) t2 r H1 H2 Ha Hl ltac:(discriminate)) as E.
      rewrite type_alt in E. apply alt_Ok in E as [E|[_ E]]; [|exact E].
      wrong E heads_T_constructor.
Qed.

(** ** Types *)

Theorem simple_iff i s r t : simple i s = Ok r t <-> simple_type_rule reads_type i s t r.
Proof.
  split.
  - intros H. destruct (heads_simple _ _ _ _ H) as (c & s' & -> & Hc).
    destruct (N.eqb_spec c (C "{")) as [->|H1].
    { right. left. exists s'. split; [reflexivity|]. apply type_brace_iff, H. }
    destruct (N.eqb_spec c (C "(")) as [->|H2].
    { right. right. exists s'. split; [reflexivity|]. apply type_paren_iff, H. }
    left. unfold simple in H. apply alt_Ok in H as [H|[_ H]].
    { apply type_variable_iff in H as (n & -> & E & Hn & Hr). exists n. unfold type_variable_at. auto. }
    exfalso. apply alt_Ok in H as [H|[_ H]]; [apply (wrong_head _ _ _ _ _ _ (heads_T_rc i)) in H; chr|].
    apply alt_Ok in H as [H|[_ H]]; [apply (wrong_head _ _ _ _ _ _ (heads_T_record i)) in H; chr|].
    apply alt_Ok in H as [H|[_ H]]; [apply (wrong_head _ _ _ _ _ _ (heads_T_tuple i)) in H; chr|].
    apply (wrong_head _ _ _ _ _ _ (heads_T_parens i)) in H; chr.
  - intros [(n & (-> & Hn & Hr) & ->)|[(s' & -> & H)|(s' & -> & H)]].
    + unfold simple. apply alt_left. apply type_variable_iff. eauto.
    + apply type_brace_iff, H.
    + apply type_paren_iff, H.
Qed.

Lemma constant_iff s r t : type_constant s = Ok r t <-> exists q, dotted_at s q r /\ t = TypeConstructor q [].
Proof.
  unfold type_constant, dotted_at. split.
  - intros H. apply map_Ok in H as (q & H & ->). exists q. split; [|reflexivity]. apply module_name_iff, H.
  - intros (q & H & ->). apply (map_intro (fun v => TypeConstructor v [])). apply module_name_iff, H.
Qed.
Lemma parameter_iff i s r t : type_parameter_f type_ i s = Ok r t <->
  (exists q, dotted_at s q r /\ t = TypeConstructor q []) \/ simple_type_rule reads_type i s t r.
Proof.
  split.
  - intros H. unfold type_parameter_f in H. apply alt_Ok in H as [H|[H0 H]].
    { right. apply simple_iff. unfold simple. apply alt_left, H. }
    apply alt_Ok in H as [H|[_ H]]; [left; apply constant_iff, H|].
    right. apply simple_iff. unfold simple. apply alt_right; [exact H0|exact H].
  - intros [H|H].
    + apply constant_iff in H. unfold type_parameter_f. apply alt_right; [|apply alt_left, H].
      destruct (heads_type_constant _ _ _ H) as (c & s' & -> & Hc).
      skip_first heads_type_variable.
    + apply simple_param, simple_iff, H.
Qed.
Lemma argument_iff i s r t : param_step i s = Ok r t <-> argument_rule reads_type i s t r.
Proof.
  unfold param_step. split.
  - intros H. apply bind_Ok in H as (s1 & j & H1 & H). apply bind_Ok in H as (s2 & t' & Ht & H).
    apply ret_Ok in H as [-> ->]. apply sp_gt_inv in H1 as [(t1 & -> & H1)| ->].
    + exists t1, j, s1. split; [reflexivity|]. split; [exact H1|]. apply parameter_iff, Ht.
    + exfalso. destruct (heads_param _ _ _ _ Ht) as (c & y & E & _). discriminate E.
  - intros (t1 & j & s' & -> & H1 & H). apply parameter_iff in H.
    eapply bind_intro; [apply sp_gt; [exact H1|eapply param_no_trivia, H]|].
    eapply bind_intro; [exact H|reflexivity].
Qed.

Section Many.
  Context {A : Type} (p : parser A) (R : str -> A -> str -> Prop).
  Hypothesis Hp : forall s r a, p s = Ok r a <-> R s a r.
  Hypothesis Ep : eats p.
  Hypothesis Tp : forall s, (forall r a, p s <> Ok r a) -> p s = Err.
  Lemma many_stop_items r : many_stop p r <-> no_item nothing R r.
  Proof.
    split.
    - intros H t s x r' -> -> Hx. apply Hp in Hx. unfold many_stop in H. cbn [app] in H. rewrite Hx in H.
      apply Ep in Hx. lia.
    - intros H. apply many_stop_Err, Tp. intros r' a Ha. apply Hp in Ha. eapply H; [|reflexivity|exact Ha]. reflexivity.
  Qed.
  Lemma manys_items s l r : manys p s l r <-> items nothing R s l r /\ no_item nothing R r.
  Proof.
    split.
    - induction 1 as [s Hst|s s2 a l r Ha _ _ [IH IH']].
      + split; [constructor|apply many_stop_items, Hst].
      + split; [|exact IH']. apply (items_cons nothing R [] s a s2); [reflexivity|apply Hp, Ha|exact IH].
    - intros [H Hn]. induction H as [r|t s a s' l r -> Ha _ IH].
      + apply manys_stop, many_stop_items, Hn.
      + eapply manys_cons; [exact Ep|apply Hp, Ha|apply IH, Hn].
  Qed.
End Many.

Lemma arguments_items i s l r : manys (param_step i) s l r <->
  items nothing (argument_rule reads_type i) s l r /\ no_item nothing (argument_rule reads_type i) r.
Proof.
  apply manys_items; [apply argument_iff|apply eats_param_step|].
  intros s0. apply err_of_no_ok. unfold param_step. oks.
Qed.
Theorem constructed_iff i s r t : type_constructor i s = Ok r t <-> constructed_rule reads_type i s t r.
Proof.
  unfold type_constructor, type_constructor_f, constructed_rule, dotted_at. split.
  - intros H. apply bind_Ok in H as (s1 & q & Hq & H). apply bind_Ok in H as (s2 & ts & Hts & H).
    apply ret_Ok in H as [-> ->]. apply module_name_iff in Hq. apply many0_Ok in Hts.
    apply arguments_items in Hts as [H1 H2]. eauto 10.
  - intros (q & s1 & ts & Hq & H1 & H2 & ->). eapply bind_intro; [apply module_name_iff, Hq|].
    eapply bind_intro; [|reflexivity]. apply many0_ok; [apply eats_param_step|].
    apply arguments_items. auto.
Qed.

Theorem type_iff i s r t : type_ i s = Ok r t <-> type_rule reads_type i s t r.
Proof.
  rewrite type_alt. unfold type_rule. split.
  - intros H. apply alt_Ok in H as [H|[_ H]]; [left; apply constructed_iff, H|right; apply simple_iff, H].
  - rewrite <- type_alt. intros [H|H].
    + rewrite type_alt. apply alt_left, constructed_iff, H.
    + apply simple_type, simple_iff, H.
Qed.
