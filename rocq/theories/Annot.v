(** * Removing and adding a type annotation *)
From Verif Require Import Base Nom Regex Ast Good Spec Helpers Types Expr Stmt Lexers Total Layout Seqs Grammar Follow Sound SoundE SoundS LexProps Heads Rules
  Render CompleteT CompleteE CompleteX CompleteS Round Language Chains Exact Keywords Decls Brackets TypesExact Solution Errors Front Cut CutS CutFile Trail
  TwoRuns Names Rename RenameSim RenameAll Whole Steps Indep IndepAll IndepTop.

Lemma RName_prefix n s b y : RName n s (b ++ y) -> spaces1 b -> exists p, s = p ++ b ++ y /\ forall y', RName n (p ++ b ++ y') (b ++ y').
Proof.
  intros H Hb. remember (b ++ y) as r eqn:Er. destruct H as [m u Hm Hu|o u Ho].
  - subst u. exists m. split; [reflexivity|]. intros y'. constructor; [exact Hm|]. right. apply ends_spaces1; [exact Hb|reflexivity].
  - exists (L "(" ++ o ++ L ")"). rewrite <- !app_assoc. split; [reflexivity|]. intros y'. rewrite <- !app_assoc. constructor. exact Ho.
Qed.
Lemma definition_start i s r d : function_definition i s = Ok r d -> exists c x, s = c :: x /\ entry0 c = true.
Proof. intros H. destruct (heads_def i _ _ _ H) as (c & x & -> & Hc). eauto. Qed.
(** The text of a signature is the text of a signature before any definition in column 0. *)
Lemma signature_anywhere s w sg : function_signature 0 s = Ok (newline :: w) sg ->
  exists g, s = g ++ newline :: w /\
  forall t r d, function_definition 0 t = Ok r d -> function_signature 0 (g ++ newline :: t) = Ok (newline :: t) sg.
Proof.
  intros H. apply signature_iff in H as (n & b & t1 & j & s' & ty & Hn & Hb & Ht1 & Hty & ->).
  destruct (RName_prefix _ _ _ _ Hn Hb) as (p & -> & Hp). pose proof Hty as Hs. apply sound_type_annotation in Hs as (c & -> & _).
  exists (p ++ b ++ L ":" ++ t1 ++ c). rewrite <- !app_assoc. split; [reflexivity|]. intros t r d Hd.
  apply signature_iff. exists n, b, t1, j, (c ++ newline :: t), ty. rewrite <- !app_assoc. split; [apply Hp|]. split; [exact Hb|]. split; [exact Ht1|]. split; [|reflexivity].
  apply annotation_rule_iff in Hty. apply annotation_rule_iff.
  apply (annotation_cut (newline :: w)) with (r := []) in Hty; [|exists newline, w; auto].
  apply annotation_last; [exists newline, t; auto| |exact Hty].
  destruct (definition_start _ _ _ _ Hd) as (x & t' & -> & Hx). destruct (entry0_trivia _ Hx) as (H1 & H2 & H3).
  exists [newline], (x :: t'). split; [|split; [reflexivity|split; [right; reflexivity|]]].
  - split; [reflexivity|]. split; [repeat constructor|]. split; [|left; reflexivity]. repeat split; auto. intros [H _]. auto.
  - cbn. apply orb_false_iff. split; apply N.eqb_neq; [exact H3|]. intros ->. discriminate Hx.
Qed.

Lemma annotation_removed s r sg d : function 0 s = Ok r (mkFunc (Some sg) d) ->
  exists g b t, s = g ++ newline :: b ++ t /\ all_spaces b = true /\ (N.of_nat (length b) mod 2 ^ 32 = 0)%N /\ function 0 t = Ok r (mkFunc None d) /\
  forall t' r' d', function 0 t' = Ok r' (mkFunc None d') -> function 0 (g ++ newline :: t') = Ok r' (mkFunc (Some sg) d').
Proof.
  intros H. apply function_iff in H as [(d0 & _ & H)|(sg0 & b & t & d0 & H1 & Hb & Hi & H2 & H)]; [discriminate H|]. injection H as <- <-.
  destruct (signature_anywhere _ _ _ H1) as (g & -> & Hg). exists g, b, t. split; [reflexivity|]. split; [exact Hb|]. split; [exact Hi|].
  split; [apply function_iff; left; eauto|]. intros t' r' d' Ht. apply function_iff in Ht as [(d2 & Ht & E)|(? & ? & ? & ? & _ & _ & _ & _ & E)]; [|discriminate E].
  injection E as <-. apply function_iff. right. exists sg, [], t', d'. split; [eapply Hg, Ht|]. auto.
Qed.

Lemma signature_prefix i s r sg : function_signature i s = Ok r sg -> exists g, s = g ++ r.
Proof.
  intros H. apply signature_iff in H as (n & b & t1 & j & s' & ty & Hn & Hb & _ & Hty & _).
  destruct (RName_prefix _ _ _ _ Hn Hb) as (p & -> & _). apply sound_type_annotation in Hty as (c & -> & _).
  exists (p ++ b ++ L ":" ++ t1 ++ c). rewrite <- !app_assoc. reflexivity.
Qed.

(** ** In a let *)
Definition local (d : func_def) : let_entry :=
  match d with mkDef n [] e => LetBinding (Variable_ [n]) e | _ => LetFunction (mkFunc None d) end.
Lemma name_target m n s b y : RName n s (b ++ y) -> spaces1 b -> let_binding_target m s = Ok (b ++ y) (Variable_ [n]).
Proof.
  intros H Hb. apply alt_left. apply variable_iff. remember (b ++ y) as r eqn:Er. destruct H as [k u Hk Hu|o u Ho]; constructor; assumption.
Qed.
Lemma gt_ge i t j : lay_gt i t j -> lay_ge i t j.
Proof. intros (H1 & H2 & H3 & H4 & H5). repeat split; auto. intros H. specialize (H4 H). lia. Qed.
Lemma definition_local m t r d : function_definition m t = Ok r d -> let_item m t (local d) r.
Proof.
  intros H. pose proof H as H0. apply definition_iff in H as (n & s1 & args & b & t1 & j & s' & e & Hn & Ha & Hb & Ht & He & ->).
  destruct args as [|x args]; cbn [local].
  - inversion Ha; subst. left. apply let_binding_iff. exists (Variable_ [n]), b, m, t1, j, s', e. split; [apply name_target; assumption|].
    split; [apply CompleteX.spaces_lay, Hb|]. split; [apply gt_ge, Ht|]. auto.
  - right. apply items_args in Ha. destruct (df_intro _ _ _ _ _ _ _ _ _ _ _ Hn Ha Hb Ht He) as (_ & _ & H & _).
    split; [apply H; discriminate|]. exists (mkFunc None (mkDef n (x :: args) e)). split; [|reflexivity]. apply function_iff. left. eauto.
Qed.
Lemma local_removed m s r sg d : let_item m s (LetFunction (mkFunc (Some sg) d)) r ->
  exists g b t, s = g ++ newline :: b ++ t /\ all_spaces b = true /\ (N.of_nat (length b) mod 2 ^ 32 = m)%N /\ let_item m t (local d) r.
Proof.
  intros [H|(_ & f & H & E)].
  - apply let_binding_iff in H as (p & t1 & j1 & t2 & j2 & s' & e & _ & _ & _ & _ & E). discriminate E.
  - injection E as <-. apply function_iff in H as [(d0 & _ & E)|(sg0 & b & t & d0 & H1 & Hb & Hi & H2 & E)]; [discriminate E|]. injection E as <- <-.
    destruct (signature_prefix _ _ _ _ H1) as (g & ->). exists g, b, t. split; [reflexivity|]. split; [exact Hb|]. split; [exact Hi|].
    apply definition_local, H2.
Qed.

(** ** In a file of pieces *)
Lemma whole_plain b d w : whole b d w -> whole false d w.
Proof.
  induction 1 as [b|b d n w H1 H2 H3 H4 H5 _ IH|b d n w H1 H2 H3 _ IH|d w H1 H2 IH|d w H1 H2 H3 IH|b d c w H1 H2 H3 H4 H5 IH|b d c w H1 H2 H3 _ IH|b d c w H1 _ IH|b d t w H1 _ IH|b d t w H1 _ IH|b d c w H1 H2 _ IH|b d c w H1 _ IH].
  - constructor.
  - constructor; assumption.
  - apply whole_keyword; assumption.
  - apply whole_let; assumption.
  - apply whole_in; assumption.
  - apply whole_operator; try assumption. assert (E : after_op false c w = after_op b c w \/ after_op false c w = false).
    { unfold after_op. destruct (c =? C "=")%N; [auto|]. destruct (c =? C ":")%N; [|auto]. destruct w as [|x w]; [auto|]. destruct (is_op_char x); auto. }
    destruct E as [-> | ->]; assumption.
  - apply whole_open; assumption.
  - apply whole_close; assumption.
  - apply whole_string; assumption.
  - apply whole_char; assumption.
  - apply whole_comment; assumption.
  - apply whole_other; assumption.
Qed.
Lemma signature_whole s b t sg : whole false 0 s -> function_signature 0 (s ++ [newline]) = Ok (newline :: b ++ t ++ [newline]) sg -> all_spaces b = true ->
  whole false 0 t.
Proof.
  intros Hs H Hb. assert (HX : at_ either on 0 [] [] (s ++ [newline]) (s ++ [newline])) by (exists false, s; repeat split; auto).
  destruct (over_ok _ _ (ok_weak1 _ (fun n => ok_function_signature n 0)) _ _ _ _ (over_signature [] [] [] [] nothing_starts nothing_starts 0 0 _ _ HX) H) as (r1 & _ & b1 & w & _ & Hw & _ & E & _).
  destruct w as [|c w]; [injection E as E; destruct b, t; discriminate E|]. injection E as <- E. rewrite app_assoc in E. apply app_inj_tail in E as [<- _].
  apply inv_other in Hw; [|reflexivity]. apply whole_plain in Hw. eapply drop_blanks; [|exact Hw].
  unfold all_spaces in Hb. rewrite forallb_forall in *. intros x Hx. apply Hb, N.eqb_eq in Hx. subst x. reflexivity.
Qed.

Lemma reads_single s st r : reads s [st] r -> statement s = Ok r st.
Proof. intros H. inversion H as [? ? ? H1|? ? ? ? ? ? _ _ _ H1]; subst; [exact H1|]. inversion H1. Qed.
Lemma piece_unsigned c g sg d : piece (c, g) [Function_ (mkFunc (Some sg) d)] ->
  exists a b t, c = a ++ newline :: b ++ t /\ all_spaces b = true /\ (N.of_nat (length b) mod 2 ^ 32 = 0)%N /\ piece (t, g) [Function_ (mkFunc None d)].
Proof.
  intros (Hg & Hc & Hf & Hk). cbn [fst snd] in *.
  assert (Hn : line_end [newline]) by reflexivity.
  assert (H : exists r, statement (c ++ [newline]) = Ok r (Function_ (mkFunc (Some sg) d)) /\ blanks r).
  { assert (Hc' : no_blank (c ++ [newline])) by (destruct c; [discriminate Hf|exact Hc]).
    assert (Hf' : file (c ++ [newline]) = Ok [] [Function_ (mkFunc (Some sg) d)]) by (rewrite file_trail_line; [exact Hf|reflexivity|exact Hn]).
    apply file_at_once in Hf' as (r & Hr & Hb); [|exact Hc']. apply reads_single in Hr. eauto. }
  destruct H as (r & H & Hr). apply statement_function_iff in H. pose proof (heads_function 0 _ _ _ H) as (x & y & Ex & Hx).
  destruct Hk as [(Hw & Hd & _)|[(st & E & _ & [Hh|Hb])|(z & -> & _)]].
  2: { injection E as <-. destruct Hh. }
  2: { injection E as <-. destruct Hb as (? & ? & _ & _ & E). discriminate E. }
  2: { injection Ex as <- _. discriminate Hx. }
  apply function_iff in H as [(d0 & _ & E)|(sg0 & b & t0 & d0 & H1 & Hb & Hi & H2 & E)]; [discriminate E|]. injection E as <- <-.
  destruct (signature_prefix _ _ _ _ H1) as (a & E). destruct (definition_start _ _ _ _ H2) as (h & t1 & Et & Hh).
  assert (Ht : exists t, t0 = t ++ [newline]).
  { destruct (exists_last (l := t0)) as (t & z & ->); [rewrite Et; discriminate|].
    change ([newline] ++ b ++ t ++ [z]) with (newline :: b ++ t ++ [z]) in E. rewrite !app_comm_cons, !app_assoc in E. apply app_inj_tail in E as [_ <-]. eauto. }
  destruct Ht as (t & ->). change ([newline] ++ b ++ t ++ [newline]) with (newline :: b ++ t ++ [newline]) in *.
  assert (Ec : c = (a ++ newline :: b) ++ t).
  { rewrite !app_comm_cons, !app_assoc in E. apply app_inj_tail in E as [-> _]. rewrite <- !app_assoc. reflexivity. }
  assert (Hwt : whole false 0 t) by (eapply signature_whole; eassumption).
  assert (Hh' : exists t2, t = h :: t2).
  { destruct t as [|y0 t2]; [injection Et as <- _; discriminate Hh|]. injection Et as -> _. eauto. }
  destruct Hh' as (t2 & ->). destruct (entry0_trivia _ Hh) as (N1 & N2 & N3).
  assert (Hnb : is_blank h = false).
  { destruct (is_blank h) eqn:Eb; [|reflexivity]. destruct (blank_cases h Eb) as [->|[->|[->| ->]]]; discriminate Hh. }
  exists a, b, (h :: t2). split; [rewrite Ec, <- app_assoc; reflexivity|]. split; [exact Hb|]. split; [exact Hi|]. split; [exact Hg|]. split; [exact Hnb|].
  cbn [fst]. split.
  - rewrite <- (file_trail_line (h :: t2) [newline]); [|reflexivity|exact Hn]. apply file_at_once; [exact Hnb|]. exists r. split; [|exact Hr].
    constructor. apply statement_function_iff, function_iff. left. eauto.
  - left. split; [exact Hwt|]. split; [apply N.eqb_neq; exact N3|]. repeat constructor.
Qed.
