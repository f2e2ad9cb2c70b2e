(** * Soundness of the expression parsers *)
From Verif Require Import Base Nom Regex Ast Good Spec Helpers Types Expr Lexers Total
  Layout Seqs Grammar Sound.

(** ** Names, literals *)

Lemma GVar_nonempty e w : GVar e w -> w <> [].
Proof.
  intros H; destruct H; try discriminate; [apply lower_nonempty|apply dotted_nonempty]; assumption.
Qed.
Lemma GName_nonempty e w : GName e w -> w <> [].
Proof. intros H; destruct H; try discriminate. apply lower_nonempty; assumption. Qed.

Lemma sound_variable : sound GVar variable.
Proof.
  intros s r a H. unfold variable in H.
  apply alt_Ok in H as [H|[_ H]].
  { unfold lower_case in H. use. text. constructor; assumption. }
  apply alt_Ok in H as [H|[_ H]].
  { unfold upper_with_dots in H. use. text. constructor; assumption. }
  unfold op in H. use.
  match goal with H : (operator <|> _) _ = _ |- _ => apply alt_Ok in H as [H|[_ H]] end.
  - use. text. apply GVar_operator; assumption.
  - apply sound_is_a in H0 as (w & -> & -> & Hne & Hf). text. apply GVar_commas; [exact Hne|].
    rewrite <- Hf. apply forallb_ext. intros c. unfold mem_char. simpl. symmetry; apply orb_false_r.
Qed.
#[export] Hint Resolve sound_variable : snddb.

Lemma sound_binding_name : sound GName binding_name.
Proof.
  intros s r a H. unfold binding_name in H. apply alt_Ok in H as [H|[_ H]].
  - use. text. constructor; assumption.
  - use. text. apply GName_operator; assumption.
Qed.
#[export] Hint Resolve sound_binding_name : snddb.

Lemma accesses_manys s l r :
  manys (char_ (C ".") ;;; name <- lo_name ;; ret name) s l r ->
  s = flat_map (fun f => L "." ++ f) l ++ r /\ Forall lower_name l.
Proof.
  induction 1 as [s Hst|s s2 a l r Hp Hl Hrest [-> IH]].
  - split; [reflexivity|constructor].
  - use. split; [|constructor; assumption].
    cbn [flat_map app]. rewrite <- app_assoc. reflexivity.
Qed.

Lemma sound_access :
  sound (fun e w => exists v w' fs, e = Access v fs /\ w = w' ++ flat_map (fun f => L "." ++ f) fs
           /\ GVar v w' /\ fs <> [] /\ Forall lower_name fs) access.
Proof.
  intros s r a H. unfold access in H. use.
  match goal with H : many1 _ _ = _ |- _ => apply many1_Ok in H as (n & l & z & -> & Hn & Hm) end.
  match type of Hm with manys _ _ _ ?r =>
    assert (Ha : manys (char_ (C ".") ;;; name <- lo_name ;; ret name) s0 (n :: l) r) end.
  { econstructor; [exact Hn| |exact Hm]. use. cbn [length]. rewrite app_length. lia. }
  apply accesses_manys in Ha as [-> Hf]. rewrite app_assoc.
  eexists. split; [reflexivity|]. do 3 eexists. repeat split; eauto. discriminate.
Qed.
#[export] Hint Resolve sound_access : snddb.

Lemma str_span_content_n n : forall s a r, length s <= n ->
  str_span s = (a, quote :: r) -> s = a ++ quote :: r /\ string_content a.
Proof.
  induction n as [|n IH]; intros s a b Hl; destruct s as [|c s1]; try discriminate;
    [simpl in Hl; lia|].
  cbn [str_span]. simpl in Hl. destruct (N.eqb_spec c backslash) as [->|Hc].
  - destruct s1 as [|d s2]; [discriminate|].
    destruct ((d =? backslash) || (d =? quote))%N eqn:Hd.
    + destruct (str_span s2) as [x y] eqn:Hs. intros [= <- ->].
      apply IH in Hs as [-> Hs]; [|simpl in Hl; lia]. split; [reflexivity|].
      apply orb_true_iff in Hd as [Hd|Hd]; apply N.eqb_eq in Hd; apply sc_escape; auto.
    + destruct (str_span (d :: s2)) as [x y] eqn:Hs. intros [= <- ->].
      apply IH in Hs as [He Hs]; [|lia].
      apply orb_false_iff in Hd as [Hd1 Hd2]. apply N.eqb_neq in Hd1, Hd2.
      destruct x as [|x0 x]; [injection He as -> _; congruence|].
      injection He as -> ->. split; [reflexivity|]. apply sc_backslash; assumption.
  - destruct ((c =? quote) || (c =? newline))%N eqn:Hq.
    + intros [= <- -> ->]. split; [reflexivity|constructor].
    + destruct (str_span s1) as [x y] eqn:Hs. intros [= <- ->].
      apply IH in Hs as [-> Hs]; [|lia]. split; [reflexivity|].
      apply orb_false_iff in Hq as [Hq Hn]. apply N.eqb_neq in Hq, Hn.
      apply sc_char; auto.
Qed.

Lemma str_span_content s a r :
  str_span s = (a, quote :: r) -> s = a ++ quote :: r /\ string_content a.
Proof. apply (str_span_content_n (length s)). lia. Qed.

Lemma str_span_intro a r : string_content a -> str_span (a ++ quote :: r) = (a, quote :: r).
Proof.
  induction 1 as [|c s Hc Hs IH|c s Hc1 Hc2 Hs IH|c s Hc1 Hc2 Hc3 Hs IH]; cbn [app str_span].
  - reflexivity.
  - change (backslash =? backslash)%N with true. cbv iota. rewrite IH.
    destruct Hc as [->| ->]; reflexivity.
  - change (backslash =? backslash)%N with true. cbv iota.
    apply N.eqb_neq in Hc1, Hc2. rewrite Hc1, Hc2. cbn [orb].
    cbn [app str_span] in IH. rewrite Hc1, Hc2 in IH. cbn [orb] in IH.
    rewrite IH. reflexivity.
  - apply N.eqb_neq in Hc1, Hc2, Hc3. rewrite Hc1, Hc2, Hc3. cbn [orb]. rewrite IH. reflexivity.
Qed.

Lemma sound_string : sound (fun e w => forall i, GTerm i e w) string_.
Proof.
  intros s r a H. unfold string_ in H. inv. apply alt_Ok in H as [H|[_ H]].
  - rewrite multi_string_eq in H. destruct (strip [quote; quote; quote] s) as [s'|] eqn:Hs; [|discriminate].
    destruct (span not_quote s') as [x y] eqn:Hx.
    destruct (strip [quote; quote; quote] y) as [y'|] eqn:Hy; [|discriminate].
    injection H as <- <-. apply strip_app in Hs, Hy. apply span_longest in Hx as (-> & Hf & _). subst.
    text. intros i. apply (GTerm_multi_string i x). intros Hin.
    rewrite forallb_forall in Hf. specialize (Hf _ Hin). discriminate.
  - rewrite single_string_eq in H. destruct s as [|c s]; [discriminate|].
    destruct (N.eqb_spec c quote) as [->|]; [|discriminate].
    destruct (str_span s) as [x y] eqn:Hs. destruct y as [|d y]; [discriminate|].
    destruct (N.eqb_spec d quote) as [->|]; [|discriminate]. injection H as <- <-.
    apply str_span_content in Hs as [-> Hs].
    text. intros i. apply (GTerm_string i x). assumption.
Qed.
#[export] Hint Resolve sound_string : snddb.

Lemma sound_sign : sound (fun a w => w = a /\ sign_text a) sign.
Proof.
  intros s r a H. unfold sign in H. inv. apply opt_Ok in H as [(c & H & ->)|(_ & -> & ->)].
  - apply alt_Ok in H as [H|[_ H]]; use; text; repeat split; unfold sign_text; auto.
  - exists []. repeat split. left; reflexivity.
Qed.
#[export] Hint Resolve sound_sign : snddb.

Lemma sound_float : sound (fun e w => exists s, e = Float s /\ w = s /\ float_text s) float.
Proof.
  intros s r a H. unfold float in H. use. text.
  eexists. split; [reflexivity|]. split; [reflexivity|].
  do 3 eexists. split; [reflexivity|]. auto.
Qed.
Lemma sound_integer : sound (fun e w => exists s, e = Integer s /\ w = s /\ integer_text s) integer.
Proof.
  intros s r a H. unfold integer in H. use. text.
  eexists. split; [reflexivity|]. split; [reflexivity|].
  do 2 eexists. split; [reflexivity|]. auto.
Qed.
#[export] Hint Resolve sound_float sound_integer : snddb.

Lemma hex_digit_value c v : hex_digit c = Some v -> hex_value c v /\ (v < 16)%N.
Proof.
  unfold hex_digit, hex_value, is_dec, between.
  destruct ((C "0" <=? c) && (c <=? C "9"))%N eqn:H1.
  { apply andb_true_iff in H1 as [A B]. apply N.leb_le in A, B. intros [= <-]. split; [auto|lia]. }
  destruct ((C "a" <=? c) && (c <=? C "f"))%N eqn:H2.
  { apply andb_true_iff in H2 as [A B]. apply N.leb_le in A, B. intros [= <-]. split; [auto|lia]. }
  destruct ((C "A" <=? c) && (c <=? C "F"))%N eqn:H3; [|discriminate].
  apply andb_true_iff in H3 as [A B]. apply N.leb_le in A, B. intros [= <-]. split; [auto 6|lia].
Qed.

Lemma sound_character_content : sound (fun c w => char_content w c) character_content.
Proof.
  intros s r a H. unfold character_content in H. apply alt_Ok in H as [H|[_ H]].
  - inv. unfold take, need_more, at_eof in H1. destruct s0 as [|c s0]; [discriminate|].
    destruct s0 as [|d s0]; [discriminate|]. cbn [length Nat.ltb Nat.leb skipn firstn] in H1.
    injection H1 as <- <-. subst. text.
    unfold u8_from_str_radix_16 in H0. destruct (N.eqb_spec c (C "+")) as [->|Hc].
    + cbn [hex_acc] in H0. destruct (hex_digit d) as [w|] eqn:Hd; [|discriminate].
      apply hex_digit_value in Hd as [Hd Hlt].
      destruct ((0 * 16 + w <? 256)%N); [|discriminate]. injection H0 as <-.
      apply cc_plus. exact Hd.
    + cbn [hex_acc] in H0. destruct (hex_digit c) as [v|] eqn:Hv; [|discriminate].
      destruct ((0 * 16 + v <? 256)%N); [|discriminate].
      destruct (hex_digit d) as [w|] eqn:Hd; [|discriminate].
      apply hex_digit_value in Hv as [Hv ?], Hd as [Hd ?].
      match type of H0 with (if ?b then _ else _) = _ => destruct b; [|discriminate] end.
      injection H0 as <-. apply cc_hex; assumption.
  - unfold anychar, need_more, at_eof in H. destruct s as [|c s]; [discriminate|].
    injection H as <- <-. text. constructor.
Qed.
#[export] Hint Resolve sound_character_content : snddb.

Lemma sound_character :
  sound (fun e w => exists c w', e = Character c /\ w = [squote] ++ w' ++ [squote] /\ char_content w' c)
        character.
Proof. intros s r a H. unfold character in H. use. text. do 2 eexists. repeat split; eassumption. Qed.
#[export] Hint Resolve sound_character : snddb.

Lemma sound_access_function :
  sound (fun e w => exists n, e = AccessFunction n /\ w = L "." ++ n /\ lower_name n) access_function.
Proof. intros s r a H. unfold access_function in H. use. text. eexists. repeat split; eassumption. Qed.
#[export] Hint Resolve sound_access_function : snddb.

Lemma names_seps s l r : seps (char_ (C ",")) simplified_field s l r ->
  forall b1 n b2, blanks b1 -> lower_name n -> blanks b2 ->
  exists w, b1 ++ n ++ b2 ++ s = w ++ r /\ GNames ((n, Variable_ [n]) :: l) w.
Proof.
  induction 1 as [s Hst|s s2 c s3 t' l r Hs Hl Hp Hl3 Hrest IH]; intros b1 n b2 H1 H2 H3.
  - text. constructor; assumption.
  - unfold simplified_field in Hp. use.
    edestruct IH as (w & He & Hw); [..|rewrite He]; [eassumption..|].
    text. constructor; assumption.
Qed.

Lemma sound_simplified_record : sound GNameRecord simplified_record.
Proof.
  intros s r a H. unfold simplified_record in H. inv.
  match goal with H : separated_list _ _ _ = _ |- _ =>
    apply separated_list_Ok in H as [(-> & ? & _)|(t & l & z & -> & H & _ & Hs)] end; subst; use.
  - text. constructor.
  - unfold simplified_field in *. use.
    edestruct (names_seps _ _ _ Hs) as (w & He & Hw); [..|rewrite He]; [eassumption..|].
    text. apply GNameRecord_some. assumption.
Qed.
#[export] Hint Resolve sound_simplified_record : snddb.

Lemma sound_function_signature i : sound (GSig i) (function_signature i).
Proof.
  intros s r a H. unfold function_signature in H. use. layouts. text. econstructor; eassumption.
Qed.
#[export] Hint Resolve sound_function_signature : snddb.

Lemma sound_new_line_and_same_indent i :
  sound (fun _ w => exists b, w = [newline] ++ b /\ all_spaces b = true
                    /\ (N.of_nat (length b) mod 2 ^ 32 = i)%N) (new_line_and_same_indent i).
Proof.
  intros s r a H. unfold new_line_and_same_indent in H. use. text.
  eexists. split; [reflexivity|]. split; [assumption|].
  match goal with H : (if (?x =? i)%N then _ else _) = _ |- _ =>
    destruct (N.eqb_spec x i) as [Hx|]; [exact Hx|discriminate] end.
Qed.
#[export] Hint Resolve sound_new_line_and_same_indent : snddb.

(** ** Texts are not empty *)

Lemma GNameRecord_nonempty e w : GNameRecord e w -> w <> [].
Proof. intros H; destruct H; discriminate. Qed.
Lemma GList_nonempty i e w : GList i e w -> w <> [].
Proof. intros H; destruct H; discriminate. Qed.
Lemma GTuple_nonempty i e w : GTuple i e w -> w <> [].
Proof. intros H; destruct H; discriminate. Qed.
Lemma digits_nonempty d : digits1 d -> d <> [].
Proof. intros [H _]; exact H. Qed.
Lemma app_nonempty_r {A} (a b : list A) : b <> [] -> a ++ b <> [].
Proof. destruct a, b; try congruence; discriminate. Qed.
Lemma GTerm_nonempty i e w : GTerm i e w -> w <> [].
Proof.
  intros H; destruct H; try discriminate;
    eauto using GVar_nonempty, GList_nonempty, GTuple_nonempty, GNameRecord_nonempty.
  - apply app_nonempty. eauto using GVar_nonempty.
  - destruct H as (sg & d & e & -> & _ & H & _). apply app_nonempty_r, app_nonempty, digits_nonempty, H.
  - destruct H as (sg & d & -> & _ & H). apply app_nonempty_r, digits_nonempty, H.
Qed.
Lemma GApp_nonempty i e w : GApp i e w -> w <> [].
Proof. induction 1; [eauto using GTerm_nonempty|apply app_nonempty; assumption]. Qed.
Lemma GE_nonempty i e w : GE i e w -> w <> [].
Proof.
  intros H; destruct H; try discriminate; [|apply app_nonempty]; eauto using GApp_nonempty.
Qed.
Lemma GField_nonempty i n e w : GField i n e w -> w <> [].
Proof. intros H; destruct H. apply app_nonempty, lower_nonempty; assumption. Qed.
Lemma GUpdate_nonempty i n e w : GUpdate i n e w -> w <> [].
Proof. intros H; destruct H. apply app_nonempty, lower_nonempty; assumption. Qed.
Lemma GFields_nonempty i fs w : GFields i fs w -> w <> [].
Proof. intros H; destruct H; [|apply app_nonempty]; eauto using GField_nonempty. Qed.
Lemma GUpdates_nonempty i fs w : GUpdates i fs w -> w <> [].
Proof. intros H; destruct H; [|apply app_nonempty]; eauto using GUpdate_nonempty. Qed.
Lemma GElems_nonempty i fs w : GElems i fs w -> w <> [].
Proof. intros H; destruct H; [|apply app_nonempty]; eauto using GE_nonempty. Qed.
Lemma GTarget_nonempty i e w : GTarget i e w -> w <> [].
Proof. intros H; destruct H; eauto using GVar_nonempty, GList_nonempty, GTuple_nonempty, GNameRecord_nonempty. Qed.
Lemma GDef_nonempty i e w : GDef i e w -> w <> [].
Proof. intros H; destruct H. apply app_nonempty. eauto using GName_nonempty. Qed.
Lemma GFunc_nonempty i e w : GFunc i e w -> w <> [].
Proof.
  intros H; destruct H; [eauto using GDef_nonempty|]. apply app_nonempty.
  destruct H. apply app_nonempty. eauto using GName_nonempty.
Qed.
Lemma GEntry_nonempty i e w : GEntry i e w -> w <> [].
Proof.
  intros H; destruct H; [apply app_nonempty|..]; eauto using GTarget_nonempty, GDef_nonempty, GFunc_nonempty.
Qed.
Lemma GEntries_nonempty i e w : GEntries i e w -> w <> [].
Proof. intros H; destruct H; [|apply app_nonempty]; eauto using GEntry_nonempty. Qed.
Lemma GBranch_nonempty i p e w : GBranch i p e w -> w <> [].
Proof. intros H; destruct H. apply app_nonempty. eauto using GE_nonempty. Qed.
Lemma GBranches_nonempty i bs w : GBranches i bs w -> w <> [].
Proof. intros H; destruct H; [|apply app_nonempty]; eauto using GBranch_nonempty. Qed.
Lemma infix_nonempty o : infix_operator o -> o <> [].
Proof. intros [->|[[H _] _]]; [discriminate|exact H]. Qed.

Ltac nonnil ::=
  match goal with
  | |- _ :: _ <> [] => discriminate
  | |- (_ :: _) ++ _ <> [] => discriminate
  | |- (?a ++ ?b) <> [] =>
      first [ apply app_nonempty; solve
        [ eauto 2 using upper_nonempty, lower_nonempty, operator_nonempty, tyvar_nonempty,
            dotted_nonempty, GTySimple_nonempty, GTy_nonempty, GParam_nonempty, GAnn_nonempty,
            GTyField_nonempty, GTyFields_nonempty, GTyElems_nonempty,
            GVar_nonempty, GName_nonempty, GTerm_nonempty, GApp_nonempty, GE_nonempty,
            GField_nonempty, GFields_nonempty, GUpdate_nonempty, GUpdates_nonempty,
            GElems_nonempty, GEntry_nonempty, GEntries_nonempty, GBranch_nonempty,
            GBranches_nonempty, GDef_nonempty, infix_nonempty
        | nonnil ]
      | let H := fresh in intros H; apply app_eq_nil in H; destruct H as [_ H]; revert H;
        change (b <> []); nonnil ]
  end.

(** ** The recursive parsers *)

Section SoundExpr.
  Variable E : N -> parser expr.
  Hypothesis HE : forall i, sound (GE i) (E i).
  Hint Resolve HE : snddb.

  Lemma sound_parens_f i :
    sound (fun e w => exists w', w = L "(" ++ w' ++ L ")" /\ GE i e w') (parens_f E i).
  Proof. intros s r a H. unfold parens_f in H. use. text. eexists. repeat split; eassumption. Qed.
  Hint Resolve sound_parens_f : snddb.

  Lemma tuple_seps i s l r :
    seps (char_ (C ",")) (delimited multispace0 (E i) multispace0) s l r ->
    forall b1 e we b2, blanks b1 -> GE i e we -> blanks b2 ->
    exists w, b1 ++ we ++ b2 ++ s = w ++ r /\ GTupleElems i (e :: l) w.
  Proof.
    induction 1 as [s Hst|s s2 c s3 t' l r Hs Hl Hp Hl3 Hrest IH]; intros b1 e we b2 H1 H2 H3.
    - text. constructor; assumption.
    - use. edestruct IH as (w' & He & Hw); [..|rewrite He]; [eassumption..|].
      text. constructor; assumption.
  Qed.

  Lemma sound_tuple_f i : sound (GTuple i) (tuple_f E i).
  Proof.
    intros s r a H. unfold tuple_f in H. inv.
    match goal with H : separated_list _ _ _ = _ |- _ =>
      apply separated_list_Ok in H as [(-> & ? & _)|(t & l & z & -> & H & _ & Hs)] end; subst; use.
    - text. constructor.
    - edestruct (tuple_seps _ _ _ _ Hs) as (w' & He & Hw); [..|rewrite He]; [eassumption..|].
      text. constructor; assumption.
  Qed.
  Hint Resolve sound_tuple_f : snddb.

  Lemma elems_seps i s l r : seps (comma_sep i) (E i) s l r ->
    forall e we, GE i e we ->
    exists w, we ++ s = w ++ r /\ GElems i (e :: l) w.
  Proof.
    induction 1 as [s Hst|s s2 c s3 t' l r Hs Hl Hp Hl3 Hrest IH]; intros e we Ht.
    - exists we. split; [reflexivity|]. constructor; exact Ht.
    - use. layouts.
      edestruct IH as (w' & He & Hw); [exact Hp|]. rewrite He.
      text. constructor; assumption.
  Qed.

  Lemma sound_list_f i : sound (GList i) (list_f E i).
  Proof.
    intros s r a H. unfold list_f in H. inv.
    match goal with H : opt _ _ = _ |- _ => apply opt_Ok in H as [(o & H & ?)|(_ & ? & ?)] end; subst.
    2:{ use. layouts. text. apply GList_empty; assumption. }
    match goal with H : separated_list _ _ _ = _ |- _ =>
      apply separated_list_Ok in H as [(-> & ? & _)|(t & l & z & -> & H & _ & Hs)] end; subst; use.
    - layouts. text. apply GList_empty; assumption.
    - layouts. edestruct (elems_seps _ _ _ _ Hs) as (w' & He & Hw); [..|rewrite He]; [eassumption|].
      text. apply GList_some; assumption.
  Qed.
  Hint Resolve sound_list_f : snddb.

  Lemma sound_record_field_f i : sound (fun '(n, e) w => GField i n e w) (record_field_f E i).
  Proof.
    intros s r a H. unfold record_field_f in H. use. layouts. text. constructor; assumption.
  Qed.
  Hint Resolve sound_record_field_f : snddb.

  Lemma fields_seps i s l r : seps (comma_sep i) (record_field_f E i) s l r ->
    forall n e we, GField i n e we ->
    exists w, we ++ s = w ++ r /\ GFields i ((n, e) :: l) w.
  Proof.
    induction 1 as [s Hst|s s2 c s3 t' l r Hs Hl Hp Hl3 Hrest IH]; intros n e we Ht.
    - exists we. split; [reflexivity|]. constructor; exact Ht.
    - destruct t' as [n' e']. use. layouts.
      edestruct IH as (w' & He & Hw); [exact Hp|]. rewrite He.
      text. constructor; assumption.
  Qed.

  Lemma sound_record_f i : sound (GTerm i) (record_f E i).
  Proof.
    intros s r a H. unfold record_f in H. inv.
    match goal with H : separated_list _ _ _ = _ |- _ =>
      apply separated_list_Ok in H as [(-> & ? & _)|([n e] & l & z & -> & H & _ & Hs)] end; subst; use.
    - layouts. text. apply GTerm_record_empty; assumption.
    - layouts. edestruct (fields_seps _ _ _ _ Hs) as (w' & He & Hw); [..|rewrite He]; [eassumption|].
      text. apply GTerm_record; assumption.
  Qed.
  Hint Resolve sound_record_f : snddb.

  Lemma sound_update_field_f i : sound (fun '(n, e) w => GUpdate i n e w) (update_field_f E i).
  Proof.
    intros s r a H. unfold update_field_f in H. use. text. constructor; assumption.
  Qed.
  Hint Resolve sound_update_field_f : snddb.

  Lemma updates_seps i s l r :
    seps (delimited (opt_spaces_or_new_lines_and_indent i IR_GTE) (char_ (C ","))
                    (opt_spaces_or_new_lines_and_indent i IR_GTE)) (update_field_f E i) s l r ->
    forall n e we, GUpdate i n e we ->
    exists w, we ++ s = w ++ r /\ GUpdates i ((n, e) :: l) w.
  Proof.
    induction 1 as [s Hst|s s2 c s3 t' l r Hs Hl Hp Hl3 Hrest IH]; intros n e we Ht.
    - exists we. split; [reflexivity|]. constructor; exact Ht.
    - destruct t' as [n' e']. use. layouts.
      edestruct IH as (w' & He & Hw); [exact Hp|]. rewrite He.
      text. constructor; assumption.
  Qed.

  Lemma sound_record_update_f i : sound (GTerm i) (record_update_f E i).
  Proof.
    intros s r a H. unfold record_update_f in H. inv.
    match goal with H : separated_list _ _ _ = _ |- _ =>
      apply separated_list_Ok in H as [(-> & ? & _)|([n e] & l & z & -> & H & _ & Hs)] end; subst; use.
    - layouts. text. eapply GTerm_update_empty; eassumption.
    - layouts. edestruct (updates_seps _ _ _ _ Hs) as (w' & He & Hw); [..|rewrite He]; [eassumption|].
      text. eapply GTerm_update; eassumption.
  Qed.
  Hint Resolve sound_record_update_f : snddb.

  Lemma sound_term_f i : sound (GTerm i) (term_f E i).
  Proof.
    intros s r a H. unfold term_f in H.
    apply alt_Ok in H as [H|[_ H]].
    { use. destruct H as (v & w' & fs & -> & -> & H1 & H2 & H3).
      eexists; split; [reflexivity|]. apply GTerm_access; assumption. }
    apply alt_Ok in H as [H|[_ H]].
    { use. eexists; split; [reflexivity|]. apply GTerm_var; assumption. }
    apply alt_Ok in H as [H|[_ H]].
    { use. destruct H as (n & -> & -> & Hn). eexists; split; [reflexivity|]. constructor; assumption. }
    apply alt_Ok in H as [H|[_ H]].
    { use. eexists; split; [reflexivity|]. apply H. }
    apply alt_Ok in H as [H|[_ H]].
    { apply sound_float in H as (w & -> & x & -> & -> & Hx). eexists; split; [reflexivity|]. constructor; assumption. }
    apply alt_Ok in H as [H|[_ H]].
    { apply sound_integer in H as (w & -> & x & -> & -> & Hx). eexists; split; [reflexivity|]. constructor; assumption. }
    apply alt_Ok in H as [H|[_ H]].
    { use. destruct H as (c & w' & -> & -> & Hx). eexists; split; [reflexivity|]. apply GTerm_char; assumption. }
    apply alt_Ok in H as [H|[_ H]].
    { use. destruct H as (w' & -> & Hx). eexists; split; [reflexivity|]. apply GTerm_parens; assumption. }
    apply alt_Ok in H as [H|[_ H]].
    { use. eexists; split; [reflexivity|]. apply GTerm_list; assumption. }
    apply alt_Ok in H as [H|[_ H]].
    { use. eexists; split; [reflexivity|]. apply GTerm_tuple; assumption. }
    apply alt_Ok in H as [H|[_ H]].
    { use. eexists; split; [reflexivity|]. assumption. }
    apply alt_Ok in H as [H|[_ H]].
    { use. eexists; split; [reflexivity|]. assumption. }
    use. eexists; split; [reflexivity|]. apply GTerm_names; assumption.
  Qed.
  Hint Resolve sound_term_f : snddb.

  Lemma lam_args_seps i s l r : seps space1 (term_f E i) s l r ->
    forall e we, GTerm i e we ->
    exists w, we ++ s = w ++ r /\ GLamArgs i (e :: l) w.
  Proof.
    induction 1 as [s Hst|s s2 c s3 t' l r Hs Hl Hp Hl3 Hrest IH]; intros e we Ht.
    - exists we. split; [reflexivity|]. constructor; exact Ht.
    - use. edestruct IH as (w' & He & Hw); [exact Hp|]. rewrite He.
      text. constructor; assumption.
  Qed.

  Lemma sound_lambda_f i : sound (GE i) (lambda_f E i).
  Proof.
    intros s r a H. unfold lambda_f in H. inv.
    match goal with H : separated_nonempty_list _ _ _ = _ |- _ =>
      apply separated_nonempty_list_Ok in H as (t & l & z & -> & H & _ & Hs) end; subst; use. layouts.
    edestruct (lam_args_seps _ _ _ _ Hs) as (w' & He & Hw); [..|rewrite He]; [eassumption|].
    text. eapply GE_lambda; eassumption.
  Qed.
  Hint Resolve sound_lambda_f : snddb.

  Lemma app_seps i s l r : seps (spaces_or_new_lines_and_indent i IR_GT) (term_f E i) s l r ->
    forall f wf, GApp i f wf ->
    exists w, wf ++ s = w ++ r /\ GApp i (fold_left Application l f) w.
  Proof.
    induction 1 as [s Hst|s s2 c s3 t' l r Hs Hl Hp Hl3 Hrest IH]; intros f wf Hf.
    - exists wf. split; [reflexivity|]. exact Hf.
    - use. layouts.
      edestruct IH as (w' & He & Hw); [eapply GApp_app; eassumption|].
      cbn [fold_left]. exists w'. split; [|exact Hw].
      rewrite <- He, <- !app_assoc. reflexivity.
  Qed.

  Lemma application_of_list_cons x l : application_of_list (x :: l) = Some (fold_left Application l x).
  Proof. destruct l; reflexivity. Qed.

  Lemma sound_application_or_var_f i : sound (GApp i) (application_or_var_f E i).
  Proof.
    intros s r a H. unfold application_or_var_f in H. inv.
    apply separated_list_Ok in H as [(-> & -> & _)|(x & l & z & -> & H & _ & Hs)]; [discriminate|].
    rewrite application_of_list_cons in H0. injection H0 as <-. use.
    edestruct (app_seps _ _ _ _ Hs) as (w' & He & Hw); [..|rewrite He; eauto].
    apply GApp_term; eassumption.
  Qed.
  Hint Resolve sound_application_or_var_f : snddb.

  Lemma operator_or_as_Ok s r e : no_trivia s -> operator_or_as s = Ok r e ->
    exists o, e = Variable_ [o] /\ s = o ++ r /\ infix_operator o.
  Proof.
    intros Hn H. unfold operator_or_as in H. inv. apply alt_Ok in H as [H|[_ H]]; use.
    - eexists. repeat split. left; reflexivity.
    - eexists. repeat split. right. split; [assumption|]. intros (o' & ->).
      apply (proj2 (proj2 Hn)). split; [reflexivity|]. eexists; reflexivity.
  Qed.

  Lemma sound_binary_f i : sound (GE i) (binary_f E i).
  Proof.
    intros s r a H. unfold binary_f in H. use.
    match goal with H : opt _ _ = _ |- _ => apply opt_Ok in H as [([o e] & H & ->)|(_ & -> & ->)] end.
    - unfold operator_exp_f in *. use.
      match goal with H : operator_or_as _ = _, Hn : no_trivia _ |- _ =>
        apply (operator_or_as_Ok _ _ _ Hn) in H as (o' & -> & -> & Ho) end.
      match goal with H : (o, e) = _ |- _ => injection H as -> -> end.
      layouts. text. eapply GE_binop; eassumption.
    - text. apply GE_app; assumption.
  Qed.
  Hint Resolve sound_binary_f : snddb.

  Lemma def_args_manys i s l r : manys (preceded spaces (term_f E i)) s l r ->
    exists w, s = w ++ r /\ GDefArgs i l w.
  Proof.
    induction 1 as [s Hst|s s2 a l r Hp Hl Hrest (w & -> & IH)].
    - exists []. split; [reflexivity|constructor].
    - use. text. constructor; assumption.
  Qed.

  Lemma sound_function_definition_f i : sound (GDef i) (function_definition_f E i).
  Proof.
    intros s r a H. unfold function_definition_f in H. use.
    match goal with H : many0 _ _ = _ |- _ =>
      apply many0_Ok, def_args_manys in H as (wa & -> & H) end.
    layouts. text. econstructor; eassumption.
  Qed.
  Hint Resolve sound_function_definition_f : snddb.

  Lemma sound_function_f i : sound (GFunc i) (function_f E i).
  Proof.
    intros s r a H. unfold function_f in H. use.
    match goal with H : opt _ _ = _ |- _ => apply opt_Ok in H as [(o & H & ?)|(_ & ? & ?)] end; subst.
    - use. match goal with H : exists _, _ |- _ => destruct H as (b & -> & Hb & Hl) end.
      text. apply GFunc_sig; assumption.
    - text. constructor; assumption.
  Qed.
  Hint Resolve sound_function_f : snddb.

  Lemma sound_let_binding_target_f i : sound (GTarget i) (let_binding_target_f E i).
  Proof.
    intros s r a H. unfold let_binding_target_f in H.
    apply alt_Ok in H as [H|[_ H]].
    { use. eexists; split; [reflexivity|]. apply GTarget_var; assumption. }
    apply alt_Ok in H as [H|[_ H]].
    { use. eexists; split; [reflexivity|]. apply GTarget_list; assumption. }
    apply alt_Ok in H as [H|[_ H]].
    { use. eexists; split; [reflexivity|]. apply GTarget_tuple; assumption. }
    use. eexists; split; [reflexivity|]. apply GTarget_names; assumption.
  Qed.
  Hint Resolve sound_let_binding_target_f : snddb.

  Lemma sound_let_binding_f i : sound (GEntry i) (let_binding_f E i).
  Proof.
    intros s r a H. unfold let_binding_f in H. use. layouts. text. econstructor; eassumption.
  Qed.
  Hint Resolve sound_let_binding_f : snddb.

  (** A definition without parameters is read as a binding. *)
  Lemma binding_name_variable s r n : binding_name s = Ok r n -> variable s = Ok r (Variable_ [n]).
  Proof.
    intros H. unfold binding_name in H. unfold variable, alt.
    apply alt_Ok in H as [H|[H0 H]].
    - unfold lower_case, map_. rewrite H. reflexivity.
    - unfold lower_case, map_ at 1. rewrite H0. inv.
      unfold upper_with_dots, map_ at 1, separated_nonempty_list. rewrite up_name_eq.
      cbn [is_upper between N.leb N.compare Pos.compare Pos.compare_cont andb].
      unfold op, map_, delimited, bind, alt. cbn [char_ N.eqb Pos.eqb].
      match goal with H : operator _ = _ |- _ => rewrite H end. cbn [char_ N.eqb Pos.eqb]. reflexivity.
  Qed.

  Lemma function_no_args_is_binding i s r n e :
    function_definition_f E i s = Ok r (mkDef n [] e) ->
    let_binding_f E i s = Ok r (LetBinding (Variable_ [n]) e).
  Proof.
    intros H. unfold function_definition_f in H. inv.
    match goal with H : mkDef _ _ _ = mkDef _ _ _ |- _ => injection H as <- <- <- end.
    apply binding_name_variable in H.
    match goal with H : many0 _ _ = _ |- _ => apply many0_Ok in H; inversion H; subst end.
    assert (Hg : exists j, spaces_or_new_lines_and_indent i IR_GTE s1 = Ok (61%N :: s3) j).
    { match goal with H : spaces _ = _ |- _ => apply sound_spaces in H as (b & -> & -> & Hb & Hs) end.
      assert (Hnl := all_spaces_no_newline _ Hs).
      exists (width i a1). apply sp_iff. exists a1. split; [|split; [exact Hb|split; [|reflexivity]]].
      - split; [reflexivity|]. split; [apply trivia_spaces; exact Hs|]. split.
        + cbn. repeat split; try discriminate. intros [? _]; discriminate.
        + left. rewrite last_line_no_newline by exact Hnl. exact Hs.
      - unfold accepts. congruence. }
    destruct Hg as [j0 Hg].
    assert (Hi : spaces_or_new_lines_and_indent i IR_GTE s3 = Ok s4 a3).
    { match goal with H : spaces_or_new_lines_and_indent i IR_GT _ = _ |- _ =>
        apply sp_iff in H as (t & Hr & Hne & Ha & ->) end.
      apply sp_iff. exists t. repeat split; auto; try apply Hr.
      unfold accepts in *. intros Hx. specialize (Ha Hx). cbn [ir_rel] in *. lia. }
    unfold let_binding_f, let_binding_target_f, bind, alt. rewrite H, Hg.
    cbn [char_ N.eqb Pos.eqb]. rewrite Hi.
    match goal with H : E _ _ = _ |- _ => rewrite H end. reflexivity.
  Qed.

  Lemma sound_let_entry_f i :
    sound (GEntry i) (let_binding_f E i <|> map_ LetFunction (function_f E i)).
  Proof.
    intros s r a H. apply alt_Ok in H as [H|[Hb H]]; [use; eauto|].
    inv. unfold function_f in H. inv.
    match goal with H : opt _ _ = _ |- _ => apply opt_Ok in H as [(o & H & ?)|(_ & ? & ?)] end; subst.
    - use. match goal with H : exists _, _ |- _ => destruct H as (b & -> & Hbb & Hl) end.
      text. apply GEntry_function_sig, GFunc_sig; assumption.
    - match goal with H : function_definition_f _ _ _ = Ok _ ?d |- _ => destruct d as [n args e] end.
      destruct args as [|x args].
      + match goal with H : function_definition_f _ _ _ = _ |- _ =>
          apply function_no_args_is_binding in H end. congruence.
      + use. text. apply GEntry_function; [discriminate|assumption].
  Qed.
  Hint Resolve sound_let_entry_f : snddb.

  Lemma entries_seps i s l r :
    seps (spaces_or_new_lines_and_indent i IR_EQ)
         (let_binding_f E i <|> map_ LetFunction (function_f E i)) s l r ->
    forall x we, GEntry i x we ->
    exists w, we ++ s = w ++ r /\ GEntries i (x :: l) w.
  Proof.
    induction 1 as [s Hst|s s2 c s3 t' l r Hs Hl Hp Hl3 Hrest IH]; intros x we Ht.
    - exists we. split; [reflexivity|]. constructor; exact Ht.
    - apply sound_let_entry_f in Hp as (wp & -> & Hp). use. layouts.
      edestruct IH as (w' & He & Hw); [exact Hp|]. rewrite He.
      text. econstructor; eassumption.
  Qed.

  Lemma sound_let_bindings_f i : sound (GEntries i) (let_bindings_f E i).
  Proof.
    intros s r a H. unfold let_bindings_f in H.
    apply separated_nonempty_list_Ok in H as (t & l & z & -> & H & _ & Hs).
    apply sound_let_entry_f in H as (wp & -> & Hp).
    edestruct (entries_seps _ _ _ _ Hs) as (w' & He & Hw); [..|rewrite He; eauto]. eassumption.
  Qed.
  Hint Resolve sound_let_bindings_f : snddb.

  Lemma sound_let_expression_f i : sound (GE i) (let_expression_f E i).
  Proof.
    intros s r a H. unfold let_expression_f in H. use. layouts. text. eapply GE_let; eassumption.
  Qed.

  Lemma sound_case_f i : sound (fun '(p, e) w => GBranch i p e w) (case_f E i).
  Proof.
    intros s r a H. unfold case_f in H. use. layouts. text. econstructor; eassumption.
  Qed.
  Hint Resolve sound_case_f : snddb.

  Lemma branches_seps i s l r :
    seps (spaces_or_new_lines_and_indent i IR_EQ) (case_f E i) s l r ->
    forall p e we, GBranch i p e we ->
    exists w, we ++ s = w ++ r /\ GBranches i ((p, e) :: l) w.
  Proof.
    induction 1 as [s Hst|s s2 c s3 t' l r Hs Hl Hp Hl3 Hrest IH]; intros p e we Ht.
    - exists we. split; [reflexivity|]. constructor; exact Ht.
    - destruct t' as [p' e']. use. layouts.
      edestruct IH as (w' & He & Hw); [exact Hp|]. rewrite He.
      text. econstructor; eassumption.
  Qed.

  Lemma sound_cases_f i : sound (GBranches i) (cases_f E i).
  Proof.
    intros s r a H. unfold cases_f in H.
    apply separated_nonempty_list_Ok in H as ([p e] & l & z & -> & H & _ & Hs). use.
    edestruct (branches_seps _ _ _ _ Hs) as (w' & He & Hw); [..|rewrite He; eauto]. eassumption.
  Qed.
  Hint Resolve sound_cases_f : snddb.

  Lemma sound_case_expression_f i : sound (GE i) (case_expression_f E i).
  Proof.
    intros s r a H. unfold case_expression_f in H. use. layouts. text. eapply GE_case; eassumption.
  Qed.

  Lemma sound_if_expression_f i : sound (GE i) (if_expression_f E i).
  Proof.
    intros s r a H. unfold if_expression_f in H. use. layouts. text. eapply GE_if; eassumption.
  Qed.

  Lemma sound_expression_f i : sound (GE i) (expression_f E i).
  Proof.
    intros s r a H. unfold expression_f in H.
    apply alt_Ok in H as [H|[_ H]]; [exact (sound_binary_f _ _ _ _ H)|].
    apply alt_Ok in H as [H|[_ H]]; [exact (sound_let_expression_f _ _ _ _ H)|].
    apply alt_Ok in H as [H|[_ H]]; [exact (sound_case_expression_f _ _ _ _ H)|].
    apply alt_Ok in H as [H|[_ H]]; [exact (sound_if_expression_f _ _ _ _ H)|].
    exact (sound_lambda_f _ _ _ _ H).
  Qed.
End SoundExpr.

Lemma sound_expression_n n : forall i, sound (GE i) (expression_n n i).
Proof.
  induction n as [|n IH]; intros i s r a H; [discriminate|].
  cbn [expression_n] in H. exact (sound_expression_f _ IH _ _ _ _ H).
Qed.
Lemma sound_expression i : sound (GE i) (expression i).
Proof. intros s r a H. exact (sound_expression_n _ _ _ _ _ H). Qed.
Lemma sound_function i : sound (GFunc i) (function i).
Proof. apply sound_function_f, sound_expression. Qed.
Lemma sound_term i : sound (GTerm i) (term i).
Proof. apply sound_term_f, sound_expression. Qed.
#[export] Hint Resolve sound_expression sound_function sound_term : snddb.
