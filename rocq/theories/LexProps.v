(** * The lexical parsers: exact languages *)
From Verif Require Import Base Nom Regex Ast Good Spec Helpers Types Expr Stmt Lexers Total
  Layout Seqs Grammar Follow Sound SoundE SoundS.

(** [exactly p R]: for every text [s] the parser [p] answers [Ok r a] exactly
    when [R s r a] holds, and a recoverable error when there is no such [r], [a]
    (never a panic, Incomplete or Failure). *)
Definition exactly {A} (p : parser A) (R : str -> str -> A -> Prop) : Prop :=
  forall s, (forall r a, p s = Ok r a <-> R s r a) /\
            ((forall r a, ~ R s r a) -> p s = Err).

Lemma exactly_intro {A} (p : parser A) (R : str -> str -> A -> Prop) :
  (forall n, ok 0 n p p) ->
  (forall s r a, p s = Ok r a <-> R s r a) -> exactly p R.
Proof.
  intros Ho H s. split; [apply H|]. intros Hn.
  destruct (p s) as [r a| |w] eqn:Hp; [|reflexivity|].
  - exfalso. apply (Hn r a). apply H. exact Hp.
  - exfalso. destruct (Ho (S (length s)) s (le_n _)) as [_ Hok]. rewrite Hp in Hok. exact Hok.
Qed.

(** ** Names *)

Lemma lo_name_intro n r :
  lower_name n -> n = L "_" \/ ends is_name_char r -> lo_name (n ++ r) = Ok r n.
Proof.
  intros Hn Hr. rewrite lo_name_eq. destruct Hn as [->|[(c & t & -> & Hc & Ht) Hm]].
  - reflexivity.
  - cbn [app]. destruct (N.eqb_spec c (C "_")) as [->|Hu]; [discriminate|].
    rewrite Hc. destruct Hr as [[= -> ->]|Hr]; [congruence|].
    rewrite (span_all _ _ _ Ht Hr).
    destruct (mem_str (c :: t) reserved_words) eqn:He; [|reflexivity].
    apply mem_str_In in He. contradiction.
Qed.

Lemma lo_name_iff s r n :
  lo_name s = Ok r n <->
  s = n ++ r /\ lower_name n /\ (n = L "_" \/ ends is_name_char r).
Proof.
  split.
  - intros H. destruct (sound_lo_name _ _ _ H) as (w & -> & -> & Hn).
    split; [reflexivity|]. split; [exact Hn|].
    destruct Hn as [Hn|[(c & t & -> & Hc & Ht) _]]; [auto|]. right.
    rewrite lo_name_eq in H. cbn [app] in H.
    destruct (N.eqb_spec c (C "_")) as [->|_]; [discriminate|]. rewrite Hc in H.
    destruct (span is_name_char (t ++ r)) as [x y] eqn:Hs.
    apply span_longest in Hs as (_ & _ & He).
    destruct (mem_str (c :: x) reserved_words); [discriminate|]. injection H as <- <-.
    exact He.
  - intros (-> & Hn & Hr). apply lo_name_intro; assumption.
Qed.

Lemma up_name_intro n r : upper_name n -> ends is_name_char r -> up_name (n ++ r) = Ok r n.
Proof.
  intros (c & t & -> & Hc & Ht) Hr. rewrite up_name_eq. cbn [app]. rewrite Hc.
  rewrite (span_all _ _ _ Ht Hr). reflexivity.
Qed.

Lemma up_name_iff s r n :
  up_name s = Ok r n <-> s = n ++ r /\ upper_name n /\ ends is_name_char r.
Proof.
  split.
  - intros H. destruct (sound_up_name _ _ _ H) as (w & -> & -> & Hn).
    split; [reflexivity|]. split; [exact Hn|].
    destruct Hn as (c & t & -> & Hc & Ht). rewrite up_name_eq in H. cbn [app] in H.
    rewrite Hc in H. destruct (span is_name_char (t ++ r)) as [x y] eqn:Hs.
    apply span_longest in Hs as (_ & _ & He). injection H as <- _. exact He.
  - intros (-> & Hn & Hr). apply up_name_intro; assumption.
Qed.

Lemma type_variable_intro n r :
  type_var_name n -> ends is_tyvar_char r -> type_variable (n ++ r) = Ok r (TypeVariable n).
Proof.
  intros (c & t & -> & Hc & Ht) Hr. rewrite type_variable_eq. cbn [app]. rewrite Hc.
  rewrite (span_all _ _ _ Ht Hr). reflexivity.
Qed.

Lemma type_variable_iff s r t :
  type_variable s = Ok r t <->
  exists n, t = TypeVariable n /\ s = n ++ r /\ type_var_name n /\ ends is_tyvar_char r.
Proof.
  split.
  - intros H. destruct (sound_type_variable _ _ _ H) as (w & -> & n & -> & -> & Hn).
    exists n. split; [reflexivity|]. split; [reflexivity|]. split; [exact Hn|].
    destruct Hn as (c & t & -> & Hc & Ht). rewrite type_variable_eq in H. cbn [app] in H.
    rewrite Hc in H. destruct (span is_tyvar_char (t ++ r)) as [x y] eqn:Hs.
    apply span_longest in Hs as (_ & _ & He). injection H as <- _. exact He.
  - intros (n & -> & -> & Hn & Hr). apply type_variable_intro; assumption.
Qed.

Lemma up_name_short s r n : up_name s = Ok r n -> length r < length s.
Proof.
  intros H. apply up_name_iff in H as (-> & (c & t & -> & _) & _).
  rewrite app_length. simpl. lia.
Qed.

Lemma dotted_stop r : ~ (exists n r', r = L "." ++ n ++ r' /\ upper_name n) ->
  sep_stop (char_ (C ".")) up_name r.
Proof.
  intros Hr. unfold sep_stop. destruct (char_ (C ".") r) as [s2 x| |] eqn:Hc; auto.
  - right. apply char_Ok in Hc as [-> ->]. destruct (up_name s2) as [s3 n| |] eqn:Hu; auto.
    + exfalso. apply Hr. apply up_name_iff in Hu as (-> & Hn & _). exists n, s3. auto.
    + rewrite up_name_eq in Hu. destruct s2 as [|c s2]; [discriminate|].
      destruct (is_upper c); [|discriminate]. destruct (span is_name_char s2). discriminate.
  - unfold char_ in Hc. destruct r as [|c r]; [discriminate|].
    destruct (c =? C ".")%N; discriminate.
Qed.

Lemma dotted_cons a l : l <> [] -> dotted (a :: l) = a ++ L "." ++ dotted l.
Proof. destruct l; [congruence|reflexivity]. Qed.

Lemma seps_dotted q r : Forall upper_name q -> ends_dotted r ->
  seps (char_ (C ".")) up_name (concat (map (fun n => L "." ++ n) q) ++ r) q r.
Proof.
  intros Hq [Hr Hd]. induction Hq as [|n q Hn Hq IH]; cbn [map concat].
  - apply seps_stop. apply dotted_stop. exact Hd.
  - rewrite <- !app_assoc. eapply seps_more.
    + apply char_Ok. split; reflexivity.
    + clear. rewrite !app_length. cbn [length]. lia.
    + apply up_name_intro; [exact Hn|]. destruct q as [|m q]; [exact Hr|reflexivity].
    + destruct Hn as (c & t & -> & _). clear. rewrite !app_length. cbn [length]. lia.
    + exact IH.
Qed.

Lemma dotted_concat n q : dotted (n :: q) = n ++ concat (map (fun n => L "." ++ n) q).
Proof.
  revert n. induction q as [|m q IH]; intros n.
  - simpl. symmetry. apply app_nil_r.
  - rewrite dotted_cons by discriminate. rewrite IH. cbn [map concat app]. reflexivity.
Qed.

Lemma module_name_intro q r :
  qualified q -> ends_dotted r -> module_name (dotted q ++ r) = Ok r q.
Proof.
  intros [Hne Hq] Hr. destruct q as [|n q]; [congruence|]. inversion Hq as [|? ? Hn Hq']; subst.
  rewrite dotted_concat, <- app_assoc. unfold module_name.
  eapply separated_nonempty_list_intro.
  - intros s s2 x H. apply char_Ok in H as [-> _]. simpl. lia.
  - intros s s2 x H. apply up_name_short in H. lia.
  - apply up_name_intro; [exact Hn|]. destruct q as [|m q]; [exact (proj1 Hr)|reflexivity].
  - destruct Hn as (c & t & -> & _). rewrite !app_length. simpl. lia.
  - apply seps_dotted; assumption.
Qed.

Lemma seps_dotted_stop s q r : ends is_name_char s ->
  seps (char_ (C ".")) up_name s q r -> ends_dotted r.
Proof.
  intros Hs H. induction H as [s Hst|s s2 x s3 a l r H1 Hl1 H2 Hl2 H3 IH].
  - split; [exact Hs|]. intros (n & r' & -> & Hn).
    unfold sep_stop, char_ in Hst. cbn [app] in Hst.
    change (C "." =? C ".")%N with true in Hst. cbv iota in Hst.
    destruct Hst as [Hst|Hst]; [simpl in Hst; lia|].
    destruct Hn as (c & t & -> & Hc & Ht). rewrite up_name_eq in Hst. cbn [app] in Hst.
    rewrite Hc in Hst. destruct (span is_name_char (t ++ r')) as [a b] eqn:Hsp.
    apply span_app in Hsp. rewrite Hsp in Hst. simpl in Hst. rewrite app_length in Hst. lia.
  - apply IH. apply up_name_iff in H2 as (_ & _ & H2). exact H2.
Qed.

Lemma module_name_iff s r q :
  module_name s = Ok r q <-> s = dotted q ++ r /\ qualified q /\ ends_dotted r.
Proof.
  split.
  - intros H. destruct (sound_module_name _ _ _ H) as (w & -> & -> & Hq).
    split; [reflexivity|]. split; [exact Hq|].
    apply separated_nonempty_list_Ok in H as (a & l & s1 & _ & Ha & _ & Hs).
    eapply seps_dotted_stop; [|exact Hs]. apply up_name_iff in Ha as (_ & _ & Ha). exact Ha.
  - intros (-> & Hq & Hr). apply module_name_intro; assumption.
Qed.

(** ** Operators *)

Lemma operator_intro o r :
  operator_name o -> ends is_op_char r -> operator (o ++ r) = Ok r o.
Proof.
  intros (Hne & Ho & Hm) Hr. rewrite operator_eq, (span_all _ _ _ Ho Hr).
  destruct o as [|c o]; [congruence|].
  destruct (mem_str (c :: o) reserved_operators) eqn:He; [|reflexivity].
  apply mem_str_In in He. contradiction.
Qed.

Lemma operator_iff s r o :
  operator s = Ok r o <-> s = o ++ r /\ operator_name o /\ ends is_op_char r.
Proof.
  split.
  - intros H. destruct (sound_operator _ _ _ H) as (w & -> & -> & Hn).
    split; [reflexivity|]. split; [exact Hn|].
    rewrite operator_eq in H. destruct (span is_op_char (o ++ r)) as [x y] eqn:Hs.
    apply span_longest in Hs as (_ & _ & He).
    destruct x as [|c x]; [discriminate|].
    destruct (mem_str (c :: x) reserved_operators); [discriminate|]. injection H as <- _.
    exact He.
  - intros (-> & Ho & Hr). apply operator_intro; assumption.
Qed.

(** ** Numbers *)

Lemma digit_iff s r d : digit s = Ok r d <-> s = d ++ r /\ digits1 d /\ ends is_dec r.
Proof.
  unfold digit, take_while1. change is_digit with is_dec. split.
  - destruct (span is_dec s) as [x y] eqn:Hs. apply span_longest in Hs as (-> & Hx & He).
    destruct x as [|c x]; [discriminate|]. intros [= <- <-].
    repeat split; [discriminate|exact Hx|exact He].
  - intros (-> & [Hne Hd] & Hr). rewrite (span_all _ _ _ Hd Hr).
    destruct d; [congruence|reflexivity].
Qed.

Lemma digits1_head d : digits1 d -> exists c t, d = c :: t /\ is_dec c = true.
Proof.
  intros [Hne Hd]. destruct d as [|c t]; [congruence|]. simpl in Hd.
  apply andb_true_iff in Hd as [Hc _]. eauto.
Qed.

Lemma sign_intro sg c r :
  sign_text sg -> is_dec c = true -> sign (sg ++ c :: r) = Ok (c :: r) sg.
Proof.
  intros Hs Hc. unfold sign, map_, opt, alt, char_.
  destruct Hs as [->|[->| ->]]; try reflexivity. cbn [app].
  destruct (N.eqb_spec c (C "+")) as [->|_]; [discriminate|].
  destruct (N.eqb_spec c (C "-")) as [->|_]; [discriminate|]. reflexivity.
Qed.

Lemma sign_Ok s r sg : sign s = Ok r sg -> s = sg ++ r /\ sign_text sg.
Proof.
  unfold sign. intros H. inv. apply opt_Ok in H as [(c & H & ->)|(_ & -> & ->)].
  - apply alt_Ok in H as [H|[_ H]]; inv; split; try reflexivity; unfold sign_text; auto.
  - split; [reflexivity|left; reflexivity].
Qed.

Lemma integer_intro sg d r : sign_text sg -> digits1 d -> ends is_dec r ->
  integer ((sg ++ d) ++ r) = Ok r (Integer (sg ++ d)).
Proof.
  intros Hs Hd Hr. unfold integer. rewrite <- app_assoc.
  destruct (digits1_head _ Hd) as (c & t & -> & Hc).
  unfold bind. cbn [app]. rewrite sign_intro by assumption.
  rewrite (proj2 (digit_iff (c :: t ++ r) r (c :: t))); [reflexivity|]. auto.
Qed.

Lemma integer_iff s r e :
  integer s = Ok r e <->
  exists n, e = Integer n /\ s = n ++ r /\ integer_text n /\ ends is_dec r.
Proof.
  split.
  - unfold integer. intros H. inv. apply sign_Ok in H as [-> Hsg].
    apply digit_iff in H0 as (-> & Hd & Hr). eexists. split; [reflexivity|].
    rewrite <- app_assoc. split; [reflexivity|]. split; [|exact Hr]. do 2 eexists; eauto.
  - intros (n & -> & -> & (sg & d & -> & Hs & Hd) & Hr). apply integer_intro; assumption.
Qed.

Lemma float_intro sg d e r : sign_text sg -> digits1 d -> digits1 e -> ends is_dec r ->
  float ((sg ++ d ++ L "." ++ e) ++ r) = Ok r (Float (sg ++ d ++ L "." ++ e)).
Proof.
  intros Hs Hd He Hr. unfold float. rewrite <- !app_assoc.
  destruct (digits1_head _ Hd) as (c & t & -> & Hc).
  unfold bind. cbn [app]. rewrite sign_intro by assumption.
  rewrite (proj2 (digit_iff (c :: t ++ C "." :: e ++ r) (C "." :: e ++ r) (c :: t)))
    by (repeat split; auto; apply Hd).
  unfold char_. change (C "." =? C ".")%N with true. cbv iota.
  rewrite (proj2 (digit_iff (e ++ r) r e)) by auto. reflexivity.
Qed.

Lemma float_iff s r e :
  float s = Ok r e <->
  exists n, e = Float n /\ s = n ++ r /\ float_text n /\ ends is_dec r.
Proof.
  split.
  - unfold float. intros H. inv. apply sign_Ok in H as [-> Hsg].
    apply digit_iff in H0 as (-> & Hd & _). apply digit_iff in H2 as (-> & Hd2 & Hr).
    eexists. split; [reflexivity|].
    rewrite <- !app_assoc. split; [reflexivity|]. split; [|exact Hr]. do 3 eexists; eauto.
  - intros (n & -> & -> & (sg & d & f & -> & Hs & Hd & He) & Hr). apply float_intro; assumption.
Qed.

(** ** Strings *)

Lemma not_quote_iff s : forallb not_quote s = true <-> no_quote s.
Proof.
  rewrite forallb_forall. unfold no_quote, not_quote. split.
  - intros H Hq. apply H in Hq. discriminate.
  - intros H x Hx. destruct (N.eqb_spec x quote) as [->|]; [contradiction|reflexivity].
Qed.

Lemma multi_string_iff s r c :
  multi_string s = Ok r c <-> s = quotes3 ++ c ++ quotes3 ++ r /\ no_quote c.
Proof.
  rewrite multi_string_eq. fold quotes3. split.
  - destruct (strip quotes3 s) as [s'|] eqn:H1; [|discriminate].
    destruct (span not_quote s') as [a b] eqn:Hs.
    destruct (strip quotes3 b) as [r'|] eqn:H2; [|discriminate]. intros [= <- <-].
    apply strip_app in H1, H2. subst. apply span_longest in Hs as (-> & Ha & _).
    split; [reflexivity|]. apply not_quote_iff. exact Ha.
  - intros [-> Hc].
    replace (strip quotes3 (quotes3 ++ c ++ quotes3 ++ r)) with (Some (c ++ quotes3 ++ r))
      by (symmetry; apply strip_app; reflexivity).
    rewrite (span_all not_quote c (quotes3 ++ r)); [|apply not_quote_iff; exact Hc|reflexivity].
    replace (strip quotes3 (quotes3 ++ r)) with (Some r)
      by (symmetry; apply strip_app; reflexivity). reflexivity.
Qed.

Lemma single_string_iff s r c :
  single_string s = Ok r c <-> s = quote :: c ++ quote :: r /\ string_content c.
Proof.
  rewrite single_string_eq. split.
  - destruct s as [|q s]; [discriminate|].
    destruct (N.eqb_spec q quote) as [->|_]; [|discriminate].
    destruct (str_span s) as [a b] eqn:Hs. destruct b as [|d b]; [discriminate|].
    destruct (N.eqb_spec d quote) as [->|_]; [|discriminate]. intros [= <- <-].
    apply str_span_content in Hs as [-> Hs]. auto.
  - intros [-> Hc]. change (quote =? quote)%N with true. cbv iota.
    rewrite str_span_intro by exact Hc. reflexivity.
Qed.

Lemma multi_string_cases s : (exists r c, multi_at s r c) \/ multi_string s = Err.
Proof.
  destruct (multi_string s) as [r c| |] eqn:H; auto.
  - left. exists r, c. apply multi_string_iff. exact H.
  - exfalso. destruct (ok_multi_string (S (length s)) s (le_n _)) as [_ Hok]. rewrite H in Hok.
    exact Hok.
Qed.

Lemma string_iff s r e :
  string_ s = Ok r e <->
  exists c, e = String_ c /\
    (multi_at s r c \/
     no_multi s /\ s = quote :: c ++ quote :: r /\ string_content c).
Proof.
  unfold string_. rewrite map_Ok. split.
  - intros (c & H & ->). exists c. split; [reflexivity|].
    apply alt_Ok in H as [H|[He H]].
    + left. apply multi_string_iff. exact H.
    + right. split.
      * intros (r' & c' & H'). apply multi_string_iff in H'. congruence.
      * apply single_string_iff. exact H.
  - intros (c & -> & H). exists c. split; [|reflexivity]. apply alt_Ok.
    destruct H as [H|[Hn H]].
    + left. apply multi_string_iff. exact H.
    + right. split; [|apply single_string_iff; exact H].
      destruct (multi_string_cases s) as [H'|H']; [contradiction|exact H'].
Qed.

(** ** Characters *)

Lemma hex_digit_iff c v : hex_digit c = Some v <-> hex_value c v.
Proof.
  split; [apply hex_digit_value|]. intros H.
  unfold hex_digit. destruct H as [[Hb ->]|[[Hb ->]|[Hb ->]]]; unfold is_dec, between in Hb.
  - rewrite Hb. reflexivity.
  - apply andb_true_iff in Hb as [H1 H2]. apply N.leb_le in H1, H2.
    replace ((C "0" <=? c) && (c <=? C "9"))%N with false
      by (symmetry; apply andb_false_iff; right; apply N.leb_gt; lia).
    replace ((C "a" <=? c) && (c <=? C "f"))%N with true
      by (symmetry; apply andb_true_iff; split; apply N.leb_le; lia). reflexivity.
  - apply andb_true_iff in Hb as [H1 H2]. apply N.leb_le in H1, H2.
    replace ((C "0" <=? c) && (c <=? C "9"))%N with false
      by (symmetry; apply andb_false_iff; right; apply N.leb_gt; lia).
    replace ((C "a" <=? c) && (c <=? C "f"))%N with false
      by (symmetry; apply andb_false_iff; left; apply N.leb_gt; lia).
    replace ((C "A" <=? c) && (c <=? C "F"))%N with true
      by (symmetry; apply andb_true_iff; split; apply N.leb_le; lia). reflexivity.
Qed.

Lemma hex_value_lt c v : hex_value c v -> (v < 16)%N.
Proof.
  intros [[H ->]|[[H ->]|[H ->]]]; unfold is_dec, between in H;
    apply andb_true_iff in H as [H1 H2]; apply N.leb_le in H1, H2; lia.
Qed.

Lemma hex_value_not_plus c v : hex_value c v -> c <> C "+".
Proof. intros [[H _]|[[H _]|[H _]]] ->; discriminate. Qed.

(** A two-character hexadecimal code *)
Inductive hex_code : str -> char -> Prop :=
| hc_two c d v w : hex_value c v -> hex_value d w -> hex_code [c; d] (v * 16 + w)%N
| hc_plus d w : hex_value d w -> hex_code [C "+"; d] w.

Lemma u8_iff a b v : u8_from_str_radix_16 [a; b] = Some v <-> hex_code [a; b] v.
Proof.
  split.
  - unfold u8_from_str_radix_16. destruct (N.eqb_spec a (C "+")) as [->|Ha].
    + cbn [hex_acc]. destruct (hex_digit b) as [w|] eqn:Hb; [|discriminate].
      apply hex_digit_iff in Hb. pose proof (hex_value_lt _ _ Hb).
      destruct (N.ltb_spec (0 * 16 + w) 256); [|discriminate]. intros [= <-].
      replace (0 * 16 + w)%N with w by lia. apply hc_plus. exact Hb.
    + cbn [hex_acc]. destruct (hex_digit a) as [v1|] eqn:Hv; [|discriminate].
      apply hex_digit_iff in Hv. pose proof (hex_value_lt _ _ Hv).
      destruct (N.ltb_spec (0 * 16 + v1) 256); [|discriminate].
      destruct (hex_digit b) as [w|] eqn:Hb; [|discriminate].
      apply hex_digit_iff in Hb. pose proof (hex_value_lt _ _ Hb).
      destruct (N.ltb_spec ((0 * 16 + v1) * 16 + w) 256); [|discriminate]. intros [= <-].
      replace ((0 * 16 + v1) * 16 + w)%N with (v1 * 16 + w)%N by lia. apply hc_two; assumption.
  - remember [a; b] as l eqn:El. destruct 1 as [c d v1 w Hv Hw|d w Hw];
      injection El as ? ?; subst; unfold u8_from_str_radix_16.
    + destruct (N.eqb_spec a (C "+")) as [->|Ha]; [exfalso; exact (hex_value_not_plus _ _ Hv eq_refl)|].
      cbn [hex_acc]. pose proof (hex_value_lt _ _ Hv). pose proof (hex_value_lt _ _ Hw).
      apply hex_digit_iff in Hv, Hw. rewrite Hv, Hw.
      destruct (N.ltb_spec (0 * 16 + v1) 256); [|lia].
      destruct (N.ltb_spec ((0 * 16 + v1) * 16 + w) 256); [|lia]. reflexivity.
    + change (C "+" =? C "+")%N with true. cbv iota. cbn [hex_acc].
      pose proof (hex_value_lt _ _ Hw). apply hex_digit_iff in Hw. rewrite Hw.
      destruct (N.ltb_spec (0 * 16 + w) 256); [|lia]. reflexivity.
Qed.

(** [s] starts with a hexadecimal escape *)
Definition hex_at (s r : str) (v : char) : Prop :=
  exists code, s = L "\x" ++ code ++ r /\ hex_code code v.

Lemma hex_escape_iff s r v :
  map_res (fun r => r)
    (tag (L "\x") ;;; code <- take 2 ;; ret (u8_from_str_radix_16 code)) s = Ok r v
  <-> hex_at s r v.
Proof.
  rewrite map_res_Ok. split.
  - intros (o & H & ->). inv. unfold take, need_more, at_eof in H0.
    destruct s0 as [|a [|b s]]; try discriminate. cbn [length Nat.ltb Nat.leb] in H0.
    injection H0 as <- <-. exists [a; b]. split; [reflexivity|].
    apply u8_iff. symmetry. assumption.
  - intros (code & -> & Hc). exists (Some v). split; [|reflexivity].
    apply bind_Ok. do 2 eexists. split; [apply tag_Ok; split; reflexivity|].
    assert (Hc' : exists a b, code = [a; b]) by (destruct Hc; eauto).
    destruct Hc' as (a & b & ->).
    apply bind_Ok. exists r, [a; b]. split; [reflexivity|].
    apply ret_Ok. split; [reflexivity|]. symmetry. apply u8_iff. exact Hc.
Qed.

Lemma hex_code_content code v : hex_code code v -> char_content (L "\x" ++ code) v.
Proof. destruct 1; cbn [app]; [apply cc_hex|apply cc_plus]; assumption. Qed.

(** ** The character literal.  Where a hexadecimal escape is possible it is
    taken; this makes no difference for what is accepted, since a one-character
    literal has its closing quote in third place. *)
Lemma character_iff s r e :
  character s = Ok r e <->
  exists w c, e = Character c /\ s = squote :: w ++ squote :: r /\ char_content w c.
Proof.
  unfold character. change 39%N with squote. rewrite map_Ok. split.
  - intros (c & H & ->). apply delimited_Ok in H as (s1 & a & s2 & d & H1 & H2 & H3).
    apply char_Ok in H1 as [-> _], H3 as [-> _]. apply alt_Ok in H2 as [H2|[_ H2]].
    + apply hex_escape_iff in H2 as (code & -> & Hc). exists (L "\x" ++ code), c.
      split; [reflexivity|]. split; [cbn [app]; reflexivity|]. apply hex_code_content. exact Hc.
    + unfold anychar, need_more, at_eof in H2. destruct s1 as [|x s1]; [discriminate|].
      injection H2 as -> ->. exists [c], c. split; [reflexivity|]. split; [reflexivity|]. constructor.
  - intros (w & c & -> & -> & Hw). exists c. split; [|reflexivity].
    apply delimited_Ok. exists (w ++ squote :: r), squote, (squote :: r), squote.
    split; [apply char_Ok; auto|]. split; [|apply char_Ok; auto].
    unfold character_content. apply alt_Ok.
    destruct Hw as [c|c d v w Hc Hd|d w Hd].
    + right. split; [|reflexivity].
      unfold map_res, bind, tag, need_more, at_eof. cbn [app strip].
      destruct (C "\" =? c)%N; [|reflexivity]. reflexivity.
    + left. apply hex_escape_iff. exists [c; d]. split; [reflexivity|]. constructor; assumption.
    + left. apply hex_escape_iff. exists [C "+"; d]. split; [reflexivity|]. constructor; assumption.
Qed.

(** ** Comments *)

Lemma not_newline_ends r : ends not_newline r <-> line_end r.
Proof.
  destruct r as [|c r]; [reflexivity|]. unfold ends, line_end, not_newline.
  destruct (N.eqb_spec c newline); simpl; split; congruence.
Qed.

Lemma single_line_comment_iff s r c :
  single_line_comment s = Ok r c <->
  s = L "--" ++ c ++ r /\ forallb not_newline c = true /\ line_end r.
Proof.
  rewrite single_line_comment_eq. split.
  - destruct (strip (L "--") s) as [s'|] eqn:H1; [|discriminate].
    destruct (span not_newline s') as [a b] eqn:Hs. intros [= <- <-].
    apply strip_app in H1. subst. apply span_longest in Hs as (-> & Ha & Hb).
    split; [reflexivity|]. split; [exact Ha|]. apply not_newline_ends. exact Hb.
  - intros (-> & Hc & Hr).
    replace (strip (L "--") (L "--" ++ c ++ r)) with (Some (c ++ r))
      by (symmetry; apply strip_app; reflexivity).
    rewrite (span_all not_newline c r); [reflexivity|exact Hc|]. apply not_newline_ends. exact Hr.
Qed.

(** [t] does not occur in [s] *)
Definition not_in (t s : str) : Prop := ~ exists a b, s = a ++ t ++ b.

(** the block comment ends at the first [-}] *)
Definition block_comment_at (s r c : str) : Prop :=
  s = L "{-" ++ c ++ L "-}" ++ r /\ not_in (L "-}") c.

Lemma not_in_end c : not_in (L "-}") c -> not_in (L "-}") (c ++ L "-").
Proof.
  induction c as [|x c IH]; intros H (a & b & He).
  - destruct a as [|? [|]]; discriminate.
  - destruct a as [|y a].
    + injection He as -> He. destruct c as [|d c]; [discriminate|].
      injection He as -> He. apply H. exists [], c. reflexivity.
    + injection He as -> He. apply IH; [|exists a, b; exact He].
      intros (a' & b' & ->). apply H. exists (y :: a'), b'. reflexivity.
Qed.

Lemma find_sub_iff c r :
  not_in (L "-}") (c ++ L "-") -> find_sub (L "-}") (c ++ L "-}" ++ r) = Some (c, r).
Proof.
  induction c as [|x c IH]; intros H.
  - reflexivity.
  - cbn [app find_sub]. destruct (strip (L "-}") (x :: c ++ C "-" :: C "}" :: r)) as [y|] eqn:Hs.
    + exfalso. apply H. apply strip_app in Hs. destruct c as [|d c].
      * discriminate.
      * injection Hs as -> -> _. exists [], (c ++ L "-"). reflexivity.
    + cbn [app] in IH. rewrite IH; [reflexivity|]. intros (a & b & He). apply H. exists (x :: a), b.
      cbn [app]. f_equal. exact He.
Qed.

Lemma block_comment_iff s r c :
  preceded (tag (L "{-")) (take_until_and_consume (L "-}")) s = Ok r c <->
  block_comment_at s r c.
Proof.
  unfold block_comment_at. split.
  - intros H. inv. unfold take_until_and_consume, need_more, at_eof in H0.
    destruct (find_sub (L "-}") s0) as [[a b]|] eqn:Hf; [|discriminate]. injection H0 as <- <-.
    pose proof (find_sub_app _ _ _ _ Hf) as ->. split; [reflexivity|].
    intros Hin. assert (Hin' : exists u v, a ++ L "-" = u ++ L "-}" ++ v).
    { destruct Hin as (u & v & ->). exists u, (v ++ L "-"). rewrite <- !app_assoc. reflexivity. }
    clear Hin. revert Hin'. clear - Hf. revert b Hf. induction a as [|x a IH]; intros b Hf (u & v & He).
    + destruct u as [|? [|]]; discriminate.
    + cbn [app find_sub] in Hf.
      destruct (strip (L "-}") (x :: a ++ C "-" :: C "}" :: b)) as [y|] eqn:Hs; [discriminate|].
      destruct (find_sub (L "-}") (a ++ C "-" :: C "}" :: b)) as [[a' b']|] eqn:Hf'; [|discriminate].
      injection Hf as -> ->.
      destruct u as [|x' u].
      * injection He as -> He. destruct a as [|d a]; [discriminate|].
        cbn [app] in He. injection He as -> _. discriminate Hs.
      * injection He as -> He. apply (IH b Hf'). exists u, v. exact He.
  - intros [-> Hn]. apply preceded_Ok. do 2 eexists.
    split; [apply tag_Ok; split; reflexivity|]. unfold take_until_and_consume.
    rewrite find_sub_iff by (apply not_in_end; exact Hn). reflexivity.
Qed.

Lemma comment_iff s r st :
  comment s = Ok r st <->
  exists c, st = Comment c /\
    ((s = L "--" ++ c ++ r /\ forallb not_newline c = true /\ line_end r) \/
     block_comment_at s r c).
Proof.
  unfold comment, single_line_comment_stmt, multi_line_comment. rewrite alt_Ok. split.
  - intros [H|[_ H]]; apply map_Ok in H as (c & H & ->); exists c; (split; [reflexivity|]).
    + left. apply single_line_comment_iff. exact H.
    + right. apply block_comment_iff. exact H.
  - intros (c & -> & [H|H]).
    + left. apply map_Ok. exists c. split; [|reflexivity].
      apply single_line_comment_iff. exact H.
    + right. split.
      * destruct H as [-> _]. reflexivity.
      * apply map_Ok. exists c. split; [|reflexivity]. apply block_comment_iff. exact H.
Qed.

(** ** Infix declarations *)

Definition is_sp_char (c : char) : bool := (c =? space)%N.

Lemma spaces_iff s r b : spaces s = Ok r b <-> s = b ++ r /\ spaces1 b /\ ends is_sp_char r.
Proof.
  assert (Hx : forall c, mem_char c [32%N] = is_sp_char c)
    by (intros c; unfold mem_char, is_sp_char; cbn [existsb]; apply orb_false_r).
  unfold spaces, is_a, take_while1. rewrite (span_ext _ _ _ Hx). split.
  - destruct (span is_sp_char s) as [x y] eqn:Hs. apply span_longest in Hs as (-> & Hb & He).
    destruct x as [|c x]; [discriminate|]. intros [= <- <-].
    split; [reflexivity|]. split; [split; [discriminate|exact Hb]|exact He].
  - intros (-> & [Hne Hb] & Hr). rewrite (span_all is_sp_char _ _ Hb Hr).
    destruct b; [congruence|reflexivity].
Qed.

Lemma spaces_intro b r : spaces1 b -> ends is_sp_char r -> spaces (b ++ r) = Ok r b.
Proof. intros. apply spaces_iff. auto. Qed.

Lemma parse_i64_acc_iff s : forall acc v, (acc <= i64_max)%N -> forallb is_dec s = true ->
  (parse_i64_acc acc s = Some v <->
   v = fold_left (fun acc c => acc * 10 + (c - C "0"))%N s acc /\ (v <= i64_max)%N).
Proof.
  assert (Hmono : forall s acc, (acc <= fold_left (fun acc c => acc * 10 + (c - C "0")) s acc)%N).
  { clear. induction s as [|c s IH]; intros acc; cbn [fold_left]; [lia|].
    specialize (IH (acc * 10 + (c - C "0"))%N). lia. }
  induction s as [|c s IH]; intros acc v Ha Hd; cbn [parse_i64_acc fold_left].
  - split; [intros [= <-]; auto|intros [-> _]; reflexivity].
  - simpl in Hd. apply andb_true_iff in Hd as [Hc Hd]. change is_digit with is_dec. rewrite Hc.
    destruct (N.leb_spec (acc * 10 + (c - C "0")) i64_max) as [Hl|Hl].
    + apply IH; assumption.
    + split; [discriminate|]. intros [-> Hv].
      specialize (Hmono s (acc * 10 + (c - C "0"))%N). lia.
Qed.

Lemma parse_i64_iff d v : digits1 d ->
  (parse_i64 d = Some v <-> v = dec_value d /\ (v <= i64_max)%N).
Proof.
  intros [Hne Hd]. unfold parse_i64. destruct d as [|c d]; [congruence|].
  apply parse_i64_acc_iff; [discriminate|exact Hd].
Qed.

(** a lower-case name or an operator, read as far as it goes *)
Definition name_or_operator_at (n r : str) : Prop :=
  (lower_name n /\ (n = L "_" \/ ends is_name_char r)) \/
  (operator_name n /\ ends is_op_char r).

Lemma lower_name_head n : lower_name n -> exists c t, n = c :: t /\ (c = C "_" \/ is_lower c = true).
Proof. intros [->|[(c & t & -> & Hc & _) _]]; eauto 6. Qed.

Lemma name_or_operator_iff s r n :
  (lo_name <|> operator) s = Ok r n <-> s = n ++ r /\ name_or_operator_at n r.
Proof.
  rewrite alt_Ok, lo_name_iff, operator_iff. unfold name_or_operator_at. split.
  - intros [(-> & H)|[_ (-> & H)]]; auto.
  - intros [-> [H|H]]; [left; auto|]. right. split; [|auto].
    destruct H as [(Hne & Ho & _) _]. destruct n as [|c n]; [congruence|].
    simpl in Ho. apply andb_true_iff in Ho as [Ho _]. rewrite lo_name_eq. cbn [app].
    destruct (N.eqb_spec c (C "_")) as [->|_]; [discriminate|].
    destruct (is_lower c) eqn:Hl; [|reflexivity]. exfalso.
    unfold is_lower, between in Hl. apply andb_true_iff in Hl as [H1 H2].
    apply N.leb_le in H1, H2. apply mem_char_In in Ho. unfold op_chars in Ho. simpl in Ho.
    lia.
Qed.

Lemma infix_word_iff s r a :
  (exists s1, (value AssocL (tag (L "infixl")) <|> value AssocR (tag (L "infixr"))
     <|> value AssocN (tag (L "infix"))) s = Ok s1 a /\ exists b, spaces s1 = Ok r b) <->
  exists w b, infix_word a w /\ s = w ++ b ++ r /\ spaces1 b /\ ends is_sp_char r.
Proof.
  split.
  - intros (s1 & H & b & Hb). apply spaces_iff in Hb as (-> & Hb & Hr).
    apply alt_Ok in H as [H|[_ H]]; [|apply alt_Ok in H as [H|[_ H]]];
      apply value_Ok in H as (x & H & ->); apply tag_Ok in H as [-> _].
    + exists (L "infixl"), b. repeat split; auto; [constructor|apply Hb|apply Hb].
    + exists (L "infixr"), b. repeat split; auto; [constructor|apply Hb|apply Hb].
    + exists (L "infix"), b. repeat split; auto; [constructor|apply Hb|apply Hb].
  - intros (w & b & Hw & -> & Hb & Hr).
    exists (b ++ r). split; [|exists b; apply spaces_intro; assumption].
    destruct Hw; [reflexivity|reflexivity|].
    destruct Hb as [Hne Hb]. destruct b as [|c b]; [congruence|].
    simpl in Hb. apply andb_true_iff in Hb as [Hc _]. apply N.eqb_eq in Hc. subst c. reflexivity.
Qed.

Lemma infix_declaration_iff s r st :
  infix_declaration s = Ok r st <->
  exists a w b d b' n,
    st = InfixDeclaration a (dec_value d) n /\
    s = w ++ b ++ d ++ b' ++ n ++ r /\
    infix_word a w /\ spaces1 b /\ digits1 d /\ spaces1 b' /\
    (dec_value d <= i64_max)%N /\ name_or_operator_at n r.
Proof.
  unfold infix_declaration. split.
  - intros H. apply bind_Ok in H as (s1 & a & H & H1). apply bind_Ok in H1 as (s2 & b & Hb & H1).
    destruct (proj1 (infix_word_iff s s2 a)) as (w & b0 & Hw & -> & Hb0 & _); [eauto|].
    apply bind_Ok in H1 as (s3 & v & Hv & H1). apply map_res_Ok in Hv as (d & Hd & Hv).
    apply digit_iff in Hd as (-> & Hd & _). apply parse_i64_iff in Hv as [-> Hv]; [|exact Hd].
    apply bind_Ok in H1 as (s4 & b' & Hb' & H1). apply spaces_iff in Hb' as (-> & Hb' & _).
    apply bind_Ok in H1 as (s5 & n & Hn & H1). apply name_or_operator_iff in Hn as [-> Hn].
    apply ret_Ok in H1 as [-> ->]. exists a, w, b0, d, b', n. auto 12.
  - intros (a & w & b & d & b' & n & -> & -> & Hw & Hb & Hd & Hb' & Hv & Hn).
    assert (Hnh : ends is_sp_char (n ++ r)).
    { destruct Hn as [[Hn _]|[(Hne & Hn & _) _]].
      - apply lower_name_head in Hn as (c & t & -> & [->|Hc]); [reflexivity|].
        cbn [app ends]. unfold is_sp_char. destruct (N.eqb_spec c space) as [->|]; [discriminate|reflexivity].
      - destruct n as [|c n]; [congruence|]. simpl in Hn. apply andb_true_iff in Hn as [Hn _].
        cbn [app ends]. unfold is_sp_char. destruct (N.eqb_spec c space) as [->|]; [discriminate|reflexivity]. }
    assert (Hdh : ends is_sp_char (d ++ b' ++ n ++ r)).
    { destruct (digits1_head _ Hd) as (c & t & -> & Hc). cbn [app ends]. unfold is_sp_char.
      destruct (N.eqb_spec c space) as [->|]; [discriminate|reflexivity]. }
    destruct (proj2 (infix_word_iff (w ++ b ++ d ++ b' ++ n ++ r) (d ++ b' ++ n ++ r) a))
      as (s1 & H1 & b1 & H2); [exists w, b; auto|].
    apply bind_Ok. exists s1, a. split; [exact H1|]. apply bind_Ok. exists (d ++ b' ++ n ++ r), b1.
    split; [exact H2|]. apply bind_Ok. exists (b' ++ n ++ r), (dec_value d). split.
    { apply map_res_Ok. exists d. split; [|apply parse_i64_iff; auto].
      apply digit_iff. split; [reflexivity|]. split; [exact Hd|].
      destruct Hb' as [Hne Hb']. destruct b' as [|c b']; [congruence|].
      simpl in Hb'. apply andb_true_iff in Hb' as [Hc _]. apply N.eqb_eq in Hc. subst c. reflexivity. }
    apply bind_Ok. exists (n ++ r), b'. split; [apply spaces_intro; assumption|].
    apply bind_Ok. exists r, n. split; [apply name_or_operator_iff; auto|]. reflexivity.
Qed.
