(** * Names with accesses, lists, parentheses, tuples and records, exactly *)
From Verif Require Import Base Nom Regex Ast Good Spec Helpers Types Expr Stmt Lexers Total
  Layout Seqs Grammar Follow Sound SoundE SoundS LexProps Heads Rules Render CompleteT CompleteE
  CompleteX CompleteS Round Language Chains Exact Keywords.

(** ** Vocabulary *)

(** an expression *)
Definition element (i : N) (s : str) (e : expr) (r : str) : Prop := expression i s = Ok r e.
(** an expression between blanks *)
Definition padded (i : N) (s : str) (e : expr) (r : str) : Prop :=
  exists b1 s1 b2, s = b1 ++ s1 /\ blanks b1 /\ expression i s1 = Ok (b2 ++ r) e /\ blanks b2 /\
    ends is_blank r.
(** [name = expression] in a record *)
Definition record_pair (i : N) (s : str) (f : str * expr) (r : str) : Prop :=
  exists t1 t2 s1, s = fst f ++ t1 ++ L "=" ++ t2 ++ s1 /\ lower_name (fst f) /\
    olay i t1 /\ olay i t2 /\ expression i s1 = Ok r (snd f).
(** [name = expression] in an update *)
Definition update_pair (i : N) (s : str) (f : str * expr) (r : str) : Prop :=
  exists b1 b2 s1, s = fst f ++ b1 ++ L "=" ++ b2 ++ s1 /\ lower_name (fst f) /\
    blanks b1 /\ blanks b2 /\ expression i s1 = Ok r (snd f).

(** ** Layout, backwards *)

Lemma no_trivia_sp i ir s r n : sp i ir s = Ok r n -> no_trivia r.
Proof.
  intros H. destruct (trivia_run_exists s) as (t & r0 & Hrun).
  destruct (sp_run i ir _ _ _ Hrun) as [[_ E]|[(_ & _ & E)|(_ & _ & E)]];
    rewrite E in H; try discriminate H.
  injection H as <- _. apply Hrun.
Qed.
Lemma opt_sp_twice i s r o r' o' : opt_sp i s = Ok r o -> opt_sp i r = Ok r' o' ->
  (exists t, s = t ++ r' /\ olay i t) \/ r' = [].
Proof.
  intros H H'. unfold opt_sp in H. apply opt_Ok in H as [(n & H & ->)|(_ & -> & ->)].
  - pose proof (no_trivia_sp _ _ _ _ _ H) as Hn. rewrite opt_sp_nil in H' by exact Hn. injection H' as <- _.
    apply sp_ge_inv in H as [(t & -> & H)| ->]; [left; exists t; split; [reflexivity|right; eauto]|auto].
  - eapply opt_sp_lay, H'.
Qed.
Lemma opt_lay_inv i s r o : opt_spaces_or_new_lines_and_indent i IR_GTE s = Ok r o ->
  (exists t, s = t ++ r /\ olay i t) \/ r = [].
Proof.
  intros H. unfold opt_spaces_or_new_lines_and_indent in H. apply map_Ok in H as (n & H & _).
  eapply opt_sp_lay, H.
Qed.

Lemma element_nil i e r : ~ element i [] e r.
Proof. apply expression_nil. Qed.

Lemma comma_sep_inv i s s2 x : comma_sep i s = Ok s2 x ->
  (exists t, s = t ++ s2 /\ comma i t) \/ s2 = [].
Proof.
  intros H. apply delimited_Ok in H as (s1 & o1 & s3 & o2 & H1 & H2 & H3).
  apply char_Ok in H2 as [-> _].
  apply opt_sp_lay in H1 as [(t1 & -> & H1)|H1]; [|discriminate H1].
  apply opt_sp_lay in H3 as [(t2 & -> & H3)|H3]; [left|right; exact H3].
  exists (t1 ++ L "," ++ t2). split; [rewrite <- !app_assoc; reflexivity|]. exists t1, t2. auto.
Qed.
Lemma comma2_inv i s s2 x : comma2 i s = Ok s2 x ->
  (exists t, s = t ++ s2 /\ comma i t) \/ s2 = [].
Proof.
  intros H. apply delimited_Ok in H as (s1 & o1 & s3 & o2 & H1 & H2 & H3).
  apply char_Ok in H2 as [-> _].
  apply opt_lay_inv in H1 as [(t1 & -> & H1)|H1]; [|discriminate H1].
  apply opt_lay_inv in H3 as [(t2 & -> & H3)|H3]; [left|right; exact H3].
  exists (t1 ++ L "," ++ t2). split; [rewrite <- !app_assoc; reflexivity|]. exists t1, t2. auto.
Qed.
Lemma comma_fwd i t s : comma i t -> no_trivia s -> exists x, comma_sep i (t ++ s) = Ok s x.
Proof.
  intros (t1 & t2 & -> & H1 & H2) Hs. exists (C ","). rewrite <- !app_assoc.
  apply comma_intro; assumption.
Qed.
Lemma comma2_fwd i t s : comma i t -> no_trivia s -> exists x, comma2 i (t ++ s) = Ok s x.
Proof.
  intros (t1 & t2 & -> & H1 & H2) Hs. exists (C ","). rewrite <- !app_assoc.
  apply comma2_intro; assumption.
Qed.

(** ** Lists *)

Section Commas.
  Context {A : Type} (p : parser A) (itemR : str -> A -> str -> Prop) (i : N).
  Hypothesis Hp : forall s r a, p s = Ok r a <-> itemR s a r.
  Hypothesis Ep : eats p.
  Hypothesis Tp : forall s, (forall r a, p s <> Ok r a) -> p s = Err.
  Hypothesis Np : forall s r a, p s = Ok r a -> no_trivia s.
  Lemma comma_list s l r : separated_list (comma_sep i) p s = Ok r l <->
    (l = [] /\ r = s /\ forall x s', ~ itemR s x s') \/
    exists x l' s1, l = x :: l' /\ itemR s x s1 /\ items (comma i) itemR s1 l' r /\
      no_item (comma i) itemR r.
  Proof.
    apply list_items; [apply comma_sep_inv| |exact Hp|apply eats_comma|exact Ep| |exact Tp].
    - intros t s0 r0 a Ht Ha. apply comma_fwd; [exact Ht|eapply Np, Ha].
    - intros s0. apply err_of_no_ok. unfold comma_sep. oks.
  Qed.
  Lemma comma2_list s l r : separated_list (comma2 i) p s = Ok r l <->
    (l = [] /\ r = s /\ forall x s', ~ itemR s x s') \/
    exists x l' s1, l = x :: l' /\ itemR s x s1 /\ items (comma i) itemR s1 l' r /\
      no_item (comma i) itemR r.
  Proof.
    apply list_items; [apply comma2_inv| |exact Hp|apply eats_comma2|exact Ep| |exact Tp].
    - intros t s0 r0 a Ht Ha. apply comma2_fwd; [exact Ht|eapply Np, Ha].
    - intros s0. apply err_of_no_ok. unfold comma2. oks.
  Qed.
  Lemma no_comma t c r : olay i t -> no_trivia (c :: r) -> c <> C "," ->
    no_item (comma i) itemR (t ++ c :: r).
  Proof.
    intros Ht Hc Hne. eapply (stop_items (comma_sep i) p (comma i) itemR);
      [apply comma_sep_inv| |exact Hp|apply eats_comma|exact Ep| |exact Tp|].
    - intros t0 s0 r0 a Ht0 Ha. apply comma_fwd; [exact Ht0|eapply Np, Ha].
    - intros s0. apply err_of_no_ok. unfold comma_sep. oks.
    - apply (comma_stop' i p t c r Ht Hc Hne).
  Qed.
End Commas.

Lemma expression_tot i s : (forall r a, expression i s <> Ok r a) -> expression i s = Err.
Proof. apply err_of_no_ok. apply ok_0, ok_expression. Qed.

(** in a text that starts with the wrong character, a parser of terms fails *)
Lemma wrong_head {A} P (p : parser A) c s r a : heads P p -> p (c :: s) = Ok r a -> P c = true.
Proof. intros H Hp. destruct (H _ _ _ Hp) as (d & s' & [= <- <-] & Hd). exact Hd. Qed.
Ltac wrong H lem := exfalso; eapply wrong_head in H; [|solve [apply lem]]; discriminate H.

Lemma bracket_list i s r e : term i (C "[" :: s) = Ok r e <-> list_f expression i (C "[" :: s) = Ok r e.
Proof.
  split; [|apply t_list]. intros H. rewrite term_others in H by nohead heads_variable. unfold others in H.
  apply alt_Ok in H as [H|[_ H]]; [wrong H heads_access_function|].
  apply alt_Ok in H as [H|[_ H]]; [wrong H heads_string|].
  apply alt_Ok in H as [H|[_ H]]; [wrong H heads_float|].
  apply alt_Ok in H as [H|[_ H]]; [wrong H heads_integer|].
  apply alt_Ok in H as [H|[_ H]]; [wrong H heads_character|].
  apply alt_Ok in H as [H|[_ H]]; [wrong H heads_parens|].
  apply alt_Ok in H as [H|[_ H]]; [exact H|].
  apply alt_Ok in H as [H|[_ H]]; [wrong H heads_tuple|].
  apply alt_Ok in H as [H|[_ H]]; [wrong H heads_update|].
  apply alt_Ok in H as [H|[_ H]]; [wrong H heads_record|wrong H heads_names].
Qed.

Lemma elements_list i s l r : separated_list (comma_sep i) (expression i) s = Ok r l <->
  (l = [] /\ r = s /\ forall x s', ~ element i s x s') \/
  exists x l' s1, l = x :: l' /\ element i s x s1 /\ items (comma i) (element i) s1 l' r /\
    no_item (comma i) (element i) r.
Proof.
  apply comma_list; [reflexivity|apply eats_expression|apply expression_tot|].
  intros; eapply expr_no_trivia; eassumption.
Qed.

(** what may follow an opening bracket *)
Definition bracketed (i : N) (s : str) (e : expr) (r : str) : Prop :=
  (exists t, s = t ++ L "]" ++ r /\ olay i t /\ e = List_ []) \/
  (exists t1 s1 x s2 xs t2, s = t1 ++ s1 /\ olay i t1 /\ expression i s1 = Ok s2 x /\
     items (comma i) (element i) s2 xs (t2 ++ L "]" ++ r) /\ olay i t2 /\ e = List_ (x :: xs)).

Theorem list_iff i s r e : term i (L "[" ++ s) = Ok r e <-> bracketed i s e r.
Proof.
  unfold bracketed.
  change (L "[" ++ s) with (C "[" :: s). rewrite bracket_list. unfold list_f. rewrite map_Ok. split.
  - intros (o & H & ->). apply delimited_Ok in H as (s1 & o1 & s2 & o2 & H1 & H2 & H3).
    apply preceded_Ok in H1 as (u & x & Hx & H1). apply char_Ok in Hx as [[= <-] _].
    apply terminated_Ok in H3 as (u & x' & H3 & Hx). apply char_Ok in Hx as [-> _].
    assert (Hnil : s2 = s1 -> exists t, s = t ++ L "]" ++ r /\ olay i t).
    { intros ->. destruct (opt_sp_twice _ _ _ _ _ _ H1 H3) as [(t & -> & Ht)|Hn]; [eauto|discriminate Hn]. }
    apply opt_Ok in H2 as [(l & H2 & ->)|(_ & Hs & ->)].
    + apply elements_list in H2 as [(-> & Hs & _)|(y & l' & s3 & -> & Hy & Hl & _)].
      * left. destruct (Hnil Hs) as (t & -> & Ht). eauto.
      * right. apply opt_sp_lay in H3 as [(t2 & -> & H3)|H3]; [|discriminate H3].
        apply opt_sp_lay in H1 as [(t1 & -> & H1)| ->]; [|exfalso; eapply element_nil, Hy].
        exists t1, s1, y, s3, l', t2. auto 10.
    + left. destruct (Hnil Hs) as (t & -> & Ht). eauto.
  - rewrite <- map_Ok. change (map_ _ _) with (list_f expression i).
    intros [(t & -> & Ht & ->)|(t1 & s1 & x & s2 & xs & t2 & -> & H1 & Hx & Hl & H2 & ->)].
    + apply (l_empty i t r Ht).
    + assert (Hls : separated_list (comma_sep i) (expression i) s1 = Ok (t2 ++ L "]" ++ r) (x :: xs)).
      { apply elements_list. right. exists x, xs, s2. repeat split; auto.
        eapply (no_comma (expression i)); [reflexivity|apply eats_expression|apply expression_tot| |exact H2|
          apply no_trivia_char; discriminate|discriminate].
        intros; eapply expr_no_trivia; eassumption. }
      unfold list_f.
      apply (map_intro (fun o : option (list expr) => List_ (match o with Some l => l | None => [] end)) _ _ _ (Some (x :: xs))).
      destruct (open_ok i (C "[") t1 s1 H1) as [o Ho]; [eapply expr_no_trivia, Hx|].
      destruct (close_ok i t2 (C "]") r H2) as [o2 Ho2]; [apply no_trivia_char; discriminate|].
      eapply delimited_intro; [exact Ho| |exact Ho2]. apply opt_Some. exact Hls.
Qed.

(** ** Names and accesses *)

Theorem variable_iff s r e : variable s = Ok r e <-> RVar e s r.
Proof.
  split; [|apply complete_variable]. unfold variable. rewrite alt_Ok. intros [H|[_ H]].
  - apply map_Ok in H as (n & H & ->). apply lo_name_iff in H as (-> & Hn & Hr). constructor; assumption.
  - apply alt_Ok in H as [H|[_ H]].
    + apply map_Ok in H as (q & H & ->). apply module_name_iff in H as (-> & Hq & Hr). constructor; assumption.
    + apply map_Ok in H as (o & H & ->). apply delimited_Ok in H as (s1 & x & s2 & y & H1 & H2 & H3).
      apply char_Ok in H1 as [-> _]. apply char_Ok in H3 as [-> _].
      apply alt_Ok in H2 as [H2|[_ H2]].
      * apply operator_iff in H2 as (-> & Ho & _). apply RVar_operator, Ho.
      * unfold is_a, take_while1 in H2.
        destruct (span (fun c => mem_char c (L ",")) s1) as [a b] eqn:Hs.
        apply span_longest in Hs as (-> & Ha & _). destruct a as [|c a]; [discriminate H2|].
        injection H2 as -> <-. apply RVar_commas; [discriminate|].
        erewrite forallb_ext; [exact Ha|]. intros d. unfold mem_char. cbn. symmetry. apply orb_false_r.
Qed.

Lemma access_step_iff s r f : access_step s = Ok r f <->
  s = L "." ++ f ++ r /\ lower_name f /\ ends_lower f r.
Proof.
  unfold access_step. split.
  - intros H. apply bind_Ok in H as (s1 & x & Hx & H). apply char_Ok in Hx as [-> _].
    apply bind_Ok in H as (s2 & n & Hn & H). apply ret_Ok in H as [-> ->].
    apply lo_name_iff in Hn as (-> & Hn & Hr). auto.
  - intros (-> & Hf & Hr). eapply bind_intro; [apply char_intro|].
    eapply bind_intro; [apply lo_name_iff; auto|reflexivity].
Qed.
Lemma access_stop r : many_stop access_step r <-> no_item dot lower_at r.
Proof.
  unfold many_stop. split.
  - intros H t s f r' -> -> (-> & Hf & Hr).
    rewrite (proj2 (access_step_iff (L "." ++ f ++ r') r' f)) in H by auto.
    cbn in H. rewrite app_length in H. lia.
  - intros H. destruct (access_step r) as [r' f| |w] eqn:E; [|exact I|].
    + apply access_step_iff in E as (-> & Hf & Hr). exfalso.
      eapply H; [reflexivity|reflexivity|split; [reflexivity|split; eassumption]].
    + assert (E' : access_step r = Err); [|congruence].
      eapply err_of_no_ok; [unfold access_step; oks|]. congruence.
Qed.
Lemma accesses_iff s fs r : manys access_step s fs r <->
  items dot lower_at s fs r /\ no_item dot lower_at r.
Proof.
  split.
  - induction 1 as [s Hst|s s2 f fs r Hf _ _ [IH IH']].
    + split; [constructor|apply access_stop, Hst].
    + split; [|exact IH']. apply access_step_iff in Hf as (-> & Hf & Hr).
      econstructor; [reflexivity|split; [reflexivity|split; eassumption]|exact IH].
  - intros [H Hn]. induction H as [r|t s f s' fs r -> (-> & Hf & Hr) _ IH].
    + apply manys_stop, access_stop, Hn.
    + eapply manys_cons; [apply eats_access_step|apply access_step_iff; auto|apply IH, Hn].
Qed.

Lemma accesses_exist n : forall s, length s <= n -> exists fs r, manys access_step s fs r.
Proof.
  induction n as [|n IH]; intros s Hn.
  - destruct s; [|cbn in Hn; lia]. exists [], []. apply manys_stop, many_stop_Err. reflexivity.
  - destruct (access_step s) as [s1 f| |w] eqn:E.
    + pose proof (eats_access_step _ _ _ E) as Hl. destruct (IH s1) as (fs & r & H); [lia|].
      exists (f :: fs), r. eapply manys_cons; [apply eats_access_step|exact E|exact H].
    + exists [], s. apply manys_stop, many_stop_Err, E.
    + assert (E' : access_step s = Err); [|congruence].
      eapply err_of_no_ok; [unfold access_step; oks|]. congruence.
Qed.

Theorem name_term_iff i v s s1 r e : RVar v s s1 ->
  term i s = Ok r e <-> exists fs, items dot lower_at s1 fs r /\ no_item dot lower_at r /\
    e = with_fields v fs.
Proof.
  intros Hv. apply complete_variable in Hv.
  assert (F : forall fs r, manys access_step s1 fs r -> term i s = Ok r (with_fields v fs)).
  { intros fs r0 Hm. unfold term, term_f. destruct Hm as [s1 Hst|s1 s2 f fs r0 Hf _ Hm].
    - apply alt_right; [|apply alt_left, Hv]. unfold access. eapply bind_Err2; [exact Hv|].
      apply bind_Err1. unfold many1. fold access_step. unfold many_stop in Hst.
      destruct (access_step s1) as [s2 f| |w] eqn:E; [|reflexivity|contradiction].
      apply eats_access_step in E. lia.
    - apply alt_left. unfold access. eapply bind_intro; [exact Hv|]. eapply bind_intro; [|reflexivity].
      fold access_step. eapply many1_intro; [apply eats_le, eats_access_step|exact Hf|exact Hm]. }
  split.
  - intros H. destruct (accesses_exist (length s1) s1) as (fs & r0 & Hm); [lia|].
    pose proof (F _ _ Hm) as E. rewrite H in E. injection E as -> ->.
    apply accesses_iff in Hm as [H1 H2]. eauto.
  - intros (fs & H1 & H2 & ->). apply F, accesses_iff. auto.
Qed.

(** ** Parentheses and tuples *)

Lemma multispace0_iff s r b : multispace0 s = Ok r b <-> s = b ++ r /\ blanks b /\ ends is_blank r.
Proof.
  split; [|intros (-> & Hb & Hr); apply multispace0_intro; assumption].
  change (multispace0 s) with (let '(a, x) := span is_blank s in Ok x a).
  destruct (span is_blank s) as [a x] eqn:Hs. apply span_longest in Hs as (-> & Ha & Hx).
  intros [= <- <-]. auto.
Qed.

Lemma elem_iff i s r e : tuple_elem i s = Ok r e <-> padded i s e r.
Proof.
  split.
  - intros H. apply delimited_Ok in H as (s1 & b1 & s2 & b2 & H1 & H2 & H3).
    apply multispace0_iff in H1 as (-> & H1 & _). apply multispace0_iff in H3 as (-> & H3 & Hr).
    exists b1, s1, b2. auto.
  - intros (b1 & s1 & b2 & -> & H1 & He & H2 & Hr). eapply delimited_intro; [|exact He|].
    + apply multispace0_intro; [exact H1|]. eapply expr_ends; [exact He|apply blank_never].
    + apply multispace0_intro; assumption.
Qed.
Lemma elem_tot i s : (forall r a, tuple_elem i s <> Ok r a) -> tuple_elem i s = Err.
Proof. apply err_of_no_ok. unfold tuple_elem. oks. Qed.

Lemma padded_list i s l r : separated_list (char_ (C ",")) (tuple_elem i) s = Ok r l <->
  (l = [] /\ r = s /\ forall x s', ~ padded i s x s') \/
  exists x l' s1, l = x :: l' /\ padded i s x s1 /\ items just_comma (padded i) s1 l' r /\
    no_item just_comma (padded i) r.
Proof.
  apply list_items.
  - intros s0 s2 x H. apply char_Ok in H as [-> _]. left. exists (L ","). split; reflexivity.
  - intros t s0 r0 a -> _. exists (C ","). reflexivity.
  - apply elem_iff.
  - apply eats_char.
  - apply eats_tuple_elem.
  - intros s0. apply err_of_no_ok. oks.
  - apply elem_tot.
Qed.

(** an operator, or commas: what may stand between parentheses as a name *)
Definition operator_or_commas (o : str) : Prop :=
  operator_name o \/ (o <> [] /\ forallb (fun c => (c =? C ",")%N) o = true).

Lemma RVar_paren v s s1 : RVar v (L "(" ++ s) s1 <->
  exists o, s = o ++ L ")" ++ s1 /\ operator_or_commas o /\ v = Variable_ [o].
Proof.
  split.
  - intros H. remember (L "(" ++ s) as w eqn:E.
    destruct H as [n r Hn Hr|q r Hq Hr|o r Ho|o r Hne Ho].
    + exfalso. destruct (lower_name_head n Hn) as (c & t & -> & Hc). injection E as -> _.
      destruct Hc as [Hc|Hc]; discriminate Hc.
    + exfalso. destruct (dotted_head q Hq) as (c & t & Eq & Hc). rewrite Eq in E. injection E as -> _. discriminate Hc.
    + cbn in E. injection E as <-. exists o. unfold operator_or_commas. auto.
    + cbn in E. injection E as <-. exists o. unfold operator_or_commas. auto.
  - intros (o & -> & [Ho|[Hne Ho]] & ->); [apply RVar_operator|apply RVar_commas]; assumption.
Qed.

Lemma t_tuple_at_items i s x s1 xs r : padded i s x s1 -> items just_comma (padded i) s1 xs (L ")" ++ r) ->
  (xs <> [] \/ expression i s <> Ok (L ")" ++ r) x) -> term i (L "(" ++ s) = Ok r (Tuple (x :: xs)).
Proof.
  intros Hx Hxs Hne. pose proof Hx as (b1 & s0 & b2 & -> & H1 & He & H2 & Hr).
  rewrite term_others by (eapply op_Err_expr; eassumption).
  change (L "(" ++ b1 ++ s0) with (C "(" :: b1 ++ s0). rewrite others_paren. apply alt_right.
  - eapply parens_Err; [exact H1|exact He|]. destruct b1 as [|c b1]; [right|left; discriminate].
    destruct b2 as [|c b2].
    + inversion Hxs as [r' E1 E2|t s2 y s3 l r' -> Hy Hl E1 E2]; subst.
      * destruct Hne as [Hne|Hne]; [congruence|]. exfalso. apply Hne. exact He.
      * reflexivity.
    + unfold blanks in H2. simpl in H2. apply andb_true_iff in H2 as [Hc _]. unfold not_char. cbn [app ends]. chr.
  - apply alt_right; [nohead heads_list|]. apply alt_left. unfold tuple_f. apply map_intro.
    eapply delimited_intro; [apply char_intro| |apply char_intro].
    change (delimited multispace0 (expression i) multispace0) with (tuple_elem i).
    apply padded_list. right. exists x, xs, s1. split; [reflexivity|]. split; [exact Hx|].
    split; [exact Hxs|]. intros t s2 y r' E -> _. discriminate E.
Qed.

(** what may follow an opening parenthesis, if it is not an operator or commas *)
Definition parenthesised (i : N) (s : str) (e : expr) (r : str) : Prop :=
  expression i s = Ok (L ")" ++ r) e \/
  (s = L ")" ++ r /\ e = Tuple []) \/
  (exists x s1 xs, padded i s x s1 /\ items just_comma (padded i) s1 xs (L ")" ++ r) /\
     (xs <> [] \/ expression i s <> Ok (L ")" ++ r) x) /\ e = Tuple (x :: xs)).

Theorem paren_iff i s r e : term i (L "(" ++ s) = Ok r e <->
  (exists o s1 fs, s = o ++ L ")" ++ s1 /\ operator_or_commas o /\
     items dot lower_at s1 fs r /\ no_item dot lower_at r /\ e = with_fields (Variable_ [o]) fs) \/
  parenthesised i s e r.
Proof.
  unfold parenthesised.
  split.
  - intros H. destruct (variable (L "(" ++ s)) as [s1 v| |w] eqn:Hv.
    + left. apply variable_iff in Hv. pose proof Hv as Hv'. apply RVar_paren in Hv' as (o & -> & Ho & ->).
      apply (name_term_iff i _ _ _ r e Hv) in H as (fs & H). exists o, s1, fs. tauto.
    + right. rewrite (term_others _ _ Hv) in H. change (L "(" ++ s) with (C "(" :: s) in H.
      rewrite others_paren in H.
      apply alt_Ok in H as [H|[Hp H]].
      { left. apply delimited_Ok in H as (s1 & x1 & s2 & x2 & E1 & E2 & E3).
        apply char_Ok in E1 as [[= <-] _]. apply char_Ok in E3 as [-> _]. exact E2. }
      right. apply alt_Ok in H as [H|[_ H]]; [wrong H heads_list|].
      apply alt_Ok in H as [H|[_ H]].
      2: { apply alt_Ok in H as [H|[_ H]]; [wrong H heads_update|].
           apply alt_Ok in H as [H|[_ H]]; [wrong H heads_record|wrong H heads_names]. }
      apply map_Ok in H as (l & H & ->). apply delimited_Ok in H as (s1 & x1 & s2 & x2 & E1 & E2 & E3).
      apply char_Ok in E1 as [[= <-] _]. apply char_Ok in E3 as [-> _].
      change (delimited multispace0 (expression i) multispace0) with (tuple_elem i) in E2.
      apply padded_list in E2 as [(-> & <- & _)|(y & l' & s3 & -> & Hy & Hl & _)]; [left; auto|right].
      exists y, s3, l'. split; [exact Hy|]. split; [exact Hl|]. split; [|reflexivity].
      right. intros He. unfold parens_f in Hp.
      erewrite delimited_intro in Hp; [discriminate Hp|apply char_intro|exact He|apply char_intro].
    + exfalso. assert (E : variable (L "(" ++ s) = Err); [|congruence].
      eapply err_of_no_ok; [oks|]. congruence.
  - intros [(o & s1 & fs & -> & Ho & H1 & H2 & ->)|[H|[(-> & ->)|(x & s1 & xs & Hx & Hxs & Hne & ->)]]].
    + assert (Hv : RVar (Variable_ [o]) (L "(" ++ o ++ L ")" ++ s1) s1) by (apply RVar_paren; eauto).
      apply (name_term_iff i _ _ _ r _ Hv). eauto.
    + apply t_parens, H.
    + apply t_tuple; [apply u_nil|discriminate].
    + eapply t_tuple_at_items; eassumption.
Qed.

(** ** Records *)

Lemma record_pair_iff i s r f : record_field_f expression i s = Ok r f <-> record_pair i s f r.
Proof.
  split.
  - intros H. unfold record_field_f, separated_pair in H. apply bind_Ok in H as (s1 & n & Hn & H).
    apply bind_Ok in H as (s2 & c & Hc & H). apply bind_Ok in H as (s3 & e & He & H). apply ret_Ok in H as [-> ->].
    apply lo_name_iff in Hn as (-> & Hn & _).
    apply delimited_Ok in Hc as (u1 & o1 & u2 & o2 & E1 & E2 & E3). apply char_Ok in E2 as [-> _].
    apply opt_sp_lay in E1 as [(t1 & -> & E1)|E1]; [|discriminate E1].
    apply opt_sp_lay in E3 as [(t2 & -> & E3)| ->]; [|exfalso; eapply expression_nil, He].
    exists t1, t2, s2. cbn [fst snd]. auto.
  - intros (t1 & t2 & s1 & -> & Hn & H1 & H2 & He). destruct f as [n e]. cbn [fst snd] in *.
    apply (f_intro i n t1 t2 e s1 r); assumption.
Qed.
Lemma update_pair_iff i s r f : update_field_f expression i s = Ok r f <-> update_pair i s f r.
Proof.
  split.
  - intros H. unfold update_field_f in H. apply bind_Ok in H as (s1 & n & Hn & H).
    apply bind_Ok in H as (s2 & b1 & H1 & H). apply bind_Ok in H as (s3 & x & Hx & H).
    apply bind_Ok in H as (s4 & b2 & H2 & H). apply bind_Ok in H as (s5 & e & He & H). apply ret_Ok in H as [-> ->].
    apply lo_name_iff in Hn as (-> & Hn & _). apply multispace0_iff in H1 as (-> & H1 & _).
    apply char_Ok in Hx as [-> _]. apply multispace0_iff in H2 as (-> & H2 & _).
    exists b1, b2, s4. cbn [fst snd]. auto.
  - intros (b1 & b2 & s1 & -> & Hn & H1 & H2 & He). destruct f as [n e]. cbn [fst snd] in *.
    apply up_intro; assumption.
Qed.
Lemma record_pairs i s l r : separated_list (comma_sep i) (record_field_f expression i) s = Ok r l <->
  (l = [] /\ r = s /\ forall x s', ~ record_pair i s x s') \/
  exists x l' s1, l = x :: l' /\ record_pair i s x s1 /\ items (comma i) (record_pair i) s1 l' r /\
    no_item (comma i) (record_pair i) r.
Proof.
  apply comma_list; [apply record_pair_iff|apply eats_field| |intros; eapply field_lo_name; eassumption].
  intros s0. apply err_of_no_ok. unfold record_field_f. oks.
Qed.
Lemma update_pairs i s l r : separated_list (comma2 i) (update_field_f expression i) s = Ok r l <->
  (l = [] /\ r = s /\ forall x s', ~ update_pair i s x s') \/
  exists x l' s1, l = x :: l' /\ update_pair i s x s1 /\ items (comma i) (update_pair i) s1 l' r /\
    no_item (comma i) (update_pair i) r.
Proof.
  apply comma2_list; [apply update_pair_iff|apply eats_update| |intros; eapply update_lo_name; eassumption].
  intros s0. apply err_of_no_ok. unfold update_field_f. oks.
Qed.

Lemma bare_name_iff s r f : simplified_field s = Ok r f <-> bare_name s f r.
Proof.
  unfold simplified_field. split.
  - intros H. apply bind_Ok in H as (s1 & b1 & H1 & H). apply bind_Ok in H as (s2 & n & Hn & H).
    apply bind_Ok in H as (s3 & b2 & H2 & H). apply ret_Ok in H as [-> ->].
    apply multispace0_iff in H1 as (-> & H1 & _). apply lo_name_iff in Hn as (-> & Hn & Hr).
    apply multispace0_iff in H2 as (-> & H2 & Hr2). exists b1, b2. cbn [fst snd]. repeat split; auto.
    intros ->. exact Hr.
  - intros (b1 & b2 & -> & H1 & Hn & H2 & Hr & Hel & Hs). destruct f as [n e]. cbn [fst snd] in *. subst e.
    eapply bind_intro; [apply multispace0_intro; [exact H1|]|].
    { destruct (lower_name_head n Hn) as (c & t & -> & [->|Hc]); cbn [app ends]; [reflexivity|chr]. }
    eapply bind_intro; [apply lo_name_iff; split; [reflexivity|]; split; [exact Hn|]|].
    { destruct b2 as [|c b2]; [exact (Hel eq_refl)|]. right. cbn [app ends]. unfold blanks in H2. simpl in H2.
      apply andb_true_iff in H2 as [Hc _]. chr. }
    eapply bind_intro; [apply multispace0_intro; assumption|reflexivity].
Qed.
Lemma bare_names s l r : separated_list (char_ (C ",")) simplified_field s = Ok r l <->
  (l = [] /\ r = s /\ forall x s', ~ bare_name s x s') \/
  exists x l' s1, l = x :: l' /\ bare_name s x s1 /\ items just_comma bare_name s1 l' r /\
    no_item just_comma bare_name r.
Proof.
  apply list_items.
  - intros s0 s2 x H. apply char_Ok in H as [-> _]. left. exists (L ","). split; reflexivity.
  - intros t s0 r0 a -> _. exists (C ","). reflexivity.
  - apply bare_name_iff.
  - apply eats_char.
  - apply eats_names.
  - intros s0. apply err_of_no_ok. oks.
  - intros s0. apply err_of_no_ok. unfold simplified_field. oks.
Qed.

Lemma layout_no_name i t j x n y : lay_ge i t j -> lower_name n -> t ++ x = n ++ y -> False.
Proof.
  intros (Ht & _ & Hne & _) Hn E. destruct (lower_name_head n Hn) as (c & n' & -> & Hc).
  destruct Ht as [|t Ht|t Ht|c0 t H0 H1 Ht]; [congruence| | |]; cbn in E; injection E as <- _;
    destruct Hc as [Hc|Hc]; discriminate Hc.
Qed.

(** what may follow an opening brace *)
Definition braced (i : N) (s : str) (e : expr) (r : str) : Prop :=
  (* an update *)
  (exists t1 n t2 b s1 fs s2 t3 j3, s = t1 ++ n ++ t2 ++ L "|" ++ b ++ s1 /\ olay i t1 /\ lower_name n /\
     olay i t2 /\ blanks b /\ ends is_blank s1 /\ s2 = t3 ++ L "}" ++ r /\ lay_ge i t3 j3 /\
     ((fs = [] /\ s1 = s2) \/
      exists f fs' s3, fs = f :: fs' /\ update_pair i s1 f s3 /\ items (comma i) (update_pair i) s3 fs' s2) /\
     e = RecordUpdate n fs) \/
  (* an empty record *)
  (exists t, s = t ++ L "}" ++ r /\ olay i t /\ e = Record_ []) \/
  (* a record *)
  (exists t1 s1 f s2 fs t2, s = t1 ++ s1 /\ olay i t1 /\ record_pair i s1 f s2 /\
     items (comma i) (record_pair i) s2 fs (t2 ++ L "}" ++ r) /\ olay i t2 /\ e = Record_ (f :: fs)) \/
  (* names only *)
  (exists f s1 fs, bare_name s f s1 /\ items just_comma bare_name s1 fs (L "}" ++ r) /\
     e = Record_ (f :: fs)).

Theorem brace_iff i s r e : term i (L "{" ++ s) = Ok r e <-> braced i s e r.
Proof.
  unfold braced.
  split.
  - intros H. rewrite term_others in H by apply brace_var_Err. change (L "{" ++ s) with (C "{" :: s) in H.
    rewrite others_brace in H. apply alt_Ok in H as [H|[_ H]]; [left|right].
    { unfold record_update_f in H. apply delimited_Ok in H as (s1 & o1 & s2 & e0 & H1 & H & H2).
      apply preceded_Ok in H1 as (u & x & Hx & H1). apply char_Ok in Hx as [[= <-] _].
      apply terminated_Ok in H2 as (u & x' & H3 & Hx). apply char_Ok in Hx as [-> _].
      apply bind_Ok in H as (u & n & Hn & H). apply lo_name_iff in Hn as (-> & Hn & _).
      apply bind_Ok in H as (u1 & j2 & H2 & H). apply bind_Ok in H as (u2 & x2 & Hx & H).
      apply char_Ok in Hx as [-> _]. apply bind_Ok in H as (u3 & b & Hb & H).
      apply multispace0_iff in Hb as (-> & Hb & Hb').
      apply bind_Ok in H as (u4 & fs & Hfs & H). apply ret_Ok in H as [-> ->].
      apply opt_lay_inv in H2 as [(t2 & -> & H2)|H2]; [|discriminate H2].
      apply opt_lay_inv in H1 as [(t1 & -> & H1)|H1].
      2: { exfalso. destruct (lower_name_head n Hn) as (c & t & -> & _). discriminate H1. }
      lays H3. change (delimited _ _ _) with (comma2 i) in Hfs.
      exists t1, n, t2, b, u3, fs, (x0 ++ L "}" ++ r), x0, e0.
      repeat (split; [first [reflexivity|assumption]|]). split; [|reflexivity].
      apply update_pairs in Hfs as [(-> & Hs & _)|(f & fs' & s3 & -> & Hf & Hfs & _)]; [left; auto|right; eauto 10]. }
    apply alt_Ok in H as [H|[_ H]].
    { unfold record_f in H. apply map_Ok in H as (l & H & ->).
      apply delimited_Ok in H as (s1 & o1 & s2 & o2 & H1 & H2 & H3).
      apply preceded_Ok in H1 as (u & x & Hx & H1). apply char_Ok in Hx as [[= <-] _].
      apply terminated_Ok in H3 as (u & x' & H3 & Hx). apply char_Ok in Hx as [-> _].
      apply record_pairs in H2 as [(-> & -> & _)|(f & l' & s3 & -> & Hf & Hl & _)]; [left|right; left].
      - destruct (opt_sp_twice _ _ _ _ _ _ H1 H3) as [(t & -> & Ht)|Hn]; [eauto|discriminate Hn].
      - apply opt_sp_lay in H3 as [(t2 & -> & H3)|H3]; [|discriminate H3].
        apply opt_sp_lay in H1 as [(t1 & -> & H1)| ->].
        2: { exfalso. destruct Hf as (? & ? & ? & E & Hn & _).
             destruct (lower_name_head _ Hn) as (c & t & En & _). rewrite En in E. discriminate E. }
        exists t1, s1, f, s3, l', t2. auto 10. }
    unfold simplified_record in H. apply map_Ok in H as (l & H & ->).
    apply delimited_Ok in H as (s1 & o1 & s2 & o2 & H1 & H2 & H3).
    apply char_Ok in H1 as [[= <-] _]. apply char_Ok in H3 as [-> _].
    apply bare_names in H2 as [(-> & <- & _)|(f & l' & s3 & -> & Hf & Hl & _)].
    + left. exists []. split; [reflexivity|]. split; [left; reflexivity|reflexivity].
    + right. right. exists f, s3, l'. auto.
  - intros [(t1 & n & t2 & b & s1 & fs & s2 & t3 & j3 & -> & H1 & Hn & H2 & Hb & Hb' & -> & H3 & Hfs & ->)|
     [(t & -> & Ht & ->)|[(t1 & s1 & f & s2 & fs & t2 & -> & H1 & Hf & Hfs & H2 & ->)|(f & s1 & fs & Hf & Hfs & ->)]]].
    + eapply t_update_at; [exact H1|exact Hn|exact H2|exact Hb|exact Hb'| |reflexivity|exact H3].
      apply update_pairs. destruct Hfs as [(-> & ->)|(f & fs' & s3 & -> & Hf & Hfs)]; [left|right].
      * split; [reflexivity|]. split; [reflexivity|].
        intros x s' (? & ? & ? & E & Hx & _). eapply layout_no_name; eassumption.
      * exists f, fs', s3. split; [reflexivity|]. split; [exact Hf|]. split; [exact Hfs|].
        eapply (no_comma (update_field_f expression i)); [apply update_pair_iff|apply eats_update| |
          intros; eapply update_lo_name; eassumption|right; eauto|apply no_trivia_char; discriminate|discriminate].
        intros s0. apply err_of_no_ok. unfold update_field_f. oks.
    + apply t_record_empty, Ht.
    + pose proof Hf as (t3 & t4 & s3 & -> & Hn & H3 & _).
      apply t_brace; [apply update_Err_record; assumption|]. unfold record_f. apply map_intro.
      destruct (open_ok i (C "{") t1 (fst f ++ t3 ++ L "=" ++ t4 ++ s3) H1) as [o Ho]; [apply lower_no_trivia, Hn|].
      destruct (close_ok i t2 (C "}") r H2) as [o2 Ho2]; [apply no_trivia_char; discriminate|].
      eapply delimited_intro; [exact Ho| |exact Ho2].
      apply record_pairs. right. exists f, fs, s2. split; [reflexivity|]. split; [exact Hf|]. split; [exact Hfs|].
      eapply (no_comma (record_field_f expression i)); [apply record_pair_iff|apply eats_field| |
        intros; eapply field_lo_name; eassumption|exact H2|apply no_trivia_char; discriminate|discriminate].
      intros s0. apply err_of_no_ok. unfold record_field_f. oks.
    + apply t_names. revert s f Hf. remember (L "}" ++ r) as y eqn:Ey.
      induction Hfs as [y|t s2 x s3 l y -> Hx _ IH]; intros s f (b1 & b2 & -> & H1 & Hn & H2 & _ & _ & Hs);
        destruct f as [n e]; cbn [fst snd] in *; subst e.
      * subst y. apply RNames_one; assumption.
      * apply RNames_cons; auto.
Qed.

(** ** Every term *)

Lemma integer_not_float n r : integer_text n -> ends is_dec r -> float (n ++ r) = Err -> ends_integer r.
Proof.
  intros (sg & d & -> & Hsg & Hd) Hr Hf. split; [exact Hr|]. intros (c & r' & -> & Hc).
  destruct (span is_dec (c :: r')) as [a b] eqn:Hs. apply span_longest in Hs as (E & Ha & Hb).
  assert (Hx : float ((sg ++ d) ++ C "." :: c :: r') = Ok b (Float (sg ++ d ++ L "." ++ a))); [|congruence].
  apply float_iff. eexists. split; [reflexivity|]. rewrite E. split; [rewrite <- !app_assoc; reflexivity|].
  split; [|exact Hb]. exists sg, d, a. split; [reflexivity|]. split; [exact Hsg|]. split; [exact Hd|].
  split; [|exact Ha]. intros ->. cbn in E. subst b. cbn in Hb. congruence.
Qed.

Theorem term_iff i s r e : term i s = Ok r e <->
  (exists v s1 fs, RVar v s s1 /\ items dot lower_at s1 fs r /\ no_item dot lower_at r /\
     e = with_fields v fs) \/
  (exists n, s = L "." ++ n ++ r /\ lower_name n /\ ends_lower n r /\ e = AccessFunction n) \/
  literal s e r \/
  (exists s', s = L "(" ++ s' /\ parenthesised i s' e r) \/
  (exists s', s = L "[" ++ s' /\ bracketed i s' e r) \/
  (exists s', s = L "{" ++ s' /\ braced i s' e r).
Proof.
  split.
  - intros H. destruct (variable s) as [s1 v| |w] eqn:Hv.
    + left. apply variable_iff in Hv. destruct (proj1 (name_term_iff i _ _ _ r e Hv) H) as (fs & Hfs). exists v, s1, fs. tauto.
    + right. pose proof H as H0. rewrite (term_others _ _ Hv) in H. unfold others in H.
      apply alt_Ok in H as [H|[_ H]].
      { left. unfold access_function in H. apply bind_Ok in H as (s1 & x & Hx & H). apply char_Ok in Hx as [-> _].
        apply bind_Ok in H as (s2 & n & Hn & H). apply ret_Ok in H as [-> ->].
        apply lo_name_iff in Hn as (-> & Hn & Hr). exists n. auto. }
      right. unfold literal.
      apply alt_Ok in H as [H|[_ H]].
      { left. apply string_iff in H as (c & -> & [H|H]); eauto 10. }
      apply alt_Ok in H as [H|[Hf H]].
      { left. apply float_iff in H as (n & H). eauto 10. }
      apply alt_Ok in H as [H|[_ H]].
      { left. left. apply integer_iff in H as (n & -> & -> & Hn & Hr). exists n.
        repeat (split; [first [reflexivity|assumption]|]). eapply integer_not_float; eassumption. }
      apply alt_Ok in H as [H|[_ H]].
      { left. apply character_iff in H as (w & c & H). eauto 10. }
      right.
      assert (Hp : forall s', s = C "(" :: s' -> exists s', s = L "(" ++ s' /\ parenthesised i s' e r).
      { intros s' ->. exists s'. split; [reflexivity|]. change (C "(" :: s') with (L "(" ++ s') in *.
        apply paren_iff in H0 as [(o & s1 & fs & -> & Ho & _)|H0]; [|exact H0].
        assert (Hx : RVar (Variable_ [o]) (L "(" ++ o ++ L ")" ++ s1) s1) by (apply RVar_paren; eauto).
        apply variable_iff in Hx. congruence. }
      assert (Hb : forall s', s = C "{" :: s' -> exists s', s = L "{" ++ s' /\ braced i s' e r).
      { intros s' ->. exists s'. split; [reflexivity|]. apply brace_iff, H0. }
      assert (Hh : forall P (p : parser expr), heads P p -> p s = Ok r e -> exists c s', s = c :: s' /\ P c = true).
      { intros P p Hp' Hok. exact (Hp' _ _ _ Hok). }
      apply alt_Ok in H as [H|[_ H]].
      { left. apply (Hh _ _ (heads_parens _ _)) in H as (c & s' & -> & Hc). apply N.eqb_eq in Hc as ->. eapply Hp. reflexivity. }
      apply alt_Ok in H as [H|[_ H]].
      { right. left. apply (Hh _ _ (heads_list _ _)) in H as (c & s' & -> & Hc). apply N.eqb_eq in Hc as ->.
        exists s'. split; [reflexivity|]. apply list_iff, H0. }
      apply alt_Ok in H as [H|[_ H]].
      { left. apply (Hh _ _ (heads_tuple _ _)) in H as (c & s' & -> & Hc). apply N.eqb_eq in Hc as ->. eapply Hp. reflexivity. }
      right. right.
      apply alt_Ok in H as [H|[_ H]]; [|apply alt_Ok in H as [H|[_ H]]].
      * apply (Hh _ _ (heads_update _ _)) in H as (c & s' & -> & Hc). apply N.eqb_eq in Hc as ->. eapply Hb. reflexivity.
      * apply (Hh _ _ (heads_record _ _)) in H as (c & s' & -> & Hc). apply N.eqb_eq in Hc as ->. eapply Hb. reflexivity.
      * apply (Hh _ _ heads_names) in H as (c & s' & -> & Hc). apply N.eqb_eq in Hc as ->. eapply Hb. reflexivity.
    + exfalso. assert (E : variable s = Err); [|congruence]. eapply err_of_no_ok; [oks|]. congruence.
  - intros [(v & s1 & fs & Hv & H)|[(n & -> & Hn & Hr & ->)|[H|[(s' & -> & H)|[(s' & -> & H)|(s' & -> & H)]]]]].
    + apply (name_term_iff i _ _ _ r e Hv). eauto.
    + apply t_access_function; assumption.
    + destruct H as [(n & -> & -> & Hn & Hr)|[(n & H)|[(c & -> & H)|[(c & -> & H)|(w & c & H)]]]].
      * apply t_integer; [apply integer_no_float; assumption|]. apply integer_iff. exists n. split; [reflexivity|].
        split; [reflexivity|]. split; [exact Hn|apply Hr].
      * apply t_float, float_iff. eauto.
      * apply t_string, string_iff. eauto.
      * apply t_string, string_iff. eauto.
      * apply t_character, character_iff. eauto.
    + apply paren_iff. auto.
    + apply list_iff, H.
    + apply brace_iff, H.
Qed.
