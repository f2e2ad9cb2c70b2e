(** * Definitions and declarations put together *)
From Verif Require Import Base Nom Regex Ast Good Spec Helpers Types Expr Stmt Lexers Total Layout Seqs Grammar Follow Sound SoundE SoundS LexProps Heads Rules
  Render CompleteT CompleteE CompleteX CompleteS Round Language Chains Exact Keywords Decls Brackets TypesExact Solution Errors Front Cut CutS CutFile Trail
  TwoRuns Names Rename RenameSim RenameAll Whole Steps Indep IndepAll.

(** ** With any fuel *)
Lemma rn_same s : renamed (graph (fun n => n)) true s s.
Proof.
  assert (H : forall n s, length s < n -> renamed (graph (fun n => n)) true s s); [|apply (H _ s (le_n _))].
  induction n as [|n IH]; intros t Hn; [lia|].
  destruct (text_cases t) as [->|[(c & r & -> & Hc)|[(p & r & -> & Hp & Hr)|(p & r & -> & Hp & Hr)]]].
  - constructor.
  - apply rn_char; [exact Hc| |apply IH; cbn in Hn; lia]. intros _ _. split; intros w r1 -> _; eauto.
  - apply rn_lower; auto; [reflexivity|]. apply IH. rewrite app_length in Hn. destruct Hp as (c & t & -> & _). cbn in Hn. lia.
  - apply rn_upper; auto; [reflexivity|]. apply IH. rewrite app_length in Hn. destruct Hp as (c & t & -> & _). cbn in Hn. lia.
Qed.
Lemma same_renaming : renaming (fun n => n).
Proof. repeat split; auto. Qed.
Lemma dead_fuel v : no_ok (case_f expression 0 v) -> forall n, no_ok (case_f (expression_n n) 0 v).
Proof.
  intros H n. pose proof (sim_case_f _ same_renaming (expression_n n) expression) as K0. specialize (K0 (fun i s s' Hs => sim_expression_n _ same_renaming n _ i s s' Hs) 0%N v v (rn_same v)).
  destruct (case_f (expression_n n) 0 v) as [r a| |] eqn:E; [|exact I|exact I]. destruct (case_f expression 0 v) as [r' a'| |] eqn:E'; [destruct H|destruct K0|].
  destruct (ok_E_case (S (length v)) 0 v (le_n _)) as [_ K]. rewrite E' in K. destruct K.
Qed.

(** ** Texts that can come after a definition *)
Definition new_start (v v0 : str) : Prop := apart v v0 /\ no_word v0 /\ no_ok (case_f expression 0 v0).
Lemma nothing_starts : new_start [] [].
Proof.
  split; [|split; [|exact I]].
  - split; [exact I|]. split; [exact I|]. split; [exact I|]. exists []. split; [reflexivity|]. split; [constructor|left; reflexivity].
  - intros k r Hk E. repeat (destruct Hk as [<-|Hk]; [discriminate E|]). destruct Hk.
Qed.

Lemma definition_nil i r d : function_definition i [] <> Ok r d.
Proof.
  intros H. unfold function_definition, function_definition_f in H. apply bind_Ok in H as (s1 & n & Hn & _). discriminate Hn.
Qed.
Section Over.
  Variables (v v0 v' v0' : str).
  Hypotheses (Hv : new_start v v0) (Hv' : new_start v' v0').
  Notation X d := (at_ either on d v v').
  Lemma over_E i d : step (X d) (X d) (expression i) (expression i).
  Proof.
    destruct Hv as (H1 & H2 & H3), Hv' as (H1' & H2' & H3'). eapply step_expression; eauto using dead_fuel.
  Qed.
  Lemma over_definition i d : step (X d) (X d) (function_definition i) (function_definition i).
  Proof. destruct Hv as (H1 & _), Hv' as (H1' & _). apply (step_definition_f v v' v0 v0' H1 H1'). apply over_E. Qed.
  Lemma over_signature i d : step (X d) (X d) (function_signature i) (function_signature i).
  Proof. destruct Hv as (H1 & _), Hv' as (H1' & _). apply (step_signature v v' v0 v0' H1 H1'). Qed.
  Lemma over_term i d : step (X d) (X d) (term i) (term i).
  Proof. destruct Hv as (H1 & _), Hv' as (H1' & _). apply (step_term_f v v' v0 v0' H1 H1'). apply over_E. Qed.
  Lemma over_ok {A} (Y : str -> str -> Prop) (p : parser A) (Hp : forall n, ok 0 n p p) s s' r a :
    agree Y s s' (p s) (p s') -> p s = Ok r a -> exists r', p s' = Ok r' a /\ Y r r'.
  Proof.
    intros H E. rewrite E in H. destruct (Hp (S (length s')) s' (le_n _)) as [_ K]. destruct (p s') as [r' a'| |]; [|destruct H|destruct K].
    cbn in H. destruct H as (<- & H & _). eauto.
  Qed.
  Lemma ok_weak1 {A} (p : parser A) : (forall n, ok 1 n p p) -> forall n, ok 0 n p p.
  Proof. intros H n. apply (ok_weaken 1 0 n n); [lia|lia|apply H]. Qed.
  Lemma ok_def i n : ok 0 n (function_definition i) (function_definition i).
  Proof. apply (ok_weaken 1 0 n n); [lia|lia|apply ok_E_def]. Qed.

  (** one statement before [v] and before [v'] *)
  Lemma over_function s s' r f : at_ either on 0 v v' s s' -> v = [] -> function 0 s = Ok r f ->
    exists r', function 0 s' = Ok r' f /\ X 0 r r'.
  Proof.
    intros Hs Ev H. apply function_iff in H as [(d & H & ->)|(sg & b & s2 & d & H1 & Hb & Hi & H2 & ->)].
    - destruct (over_ok _ _ (ok_def 0) _ _ _ _ (over_definition 0 0 s s' Hs) H) as (r' & H' & HX). exists r'. split; [|exact HX].
      apply function_iff. left. eauto.
    - destruct (over_ok _ _ (ok_weak1 _ (fun n => ok_function_signature n 0)) _ _ _ _ (over_signature 0 0 s s' Hs) H1) as (r1 & H1' & HX).
      destruct HX as (b1 & w & _ & Hw & _ & E & ->). rewrite Ev in E.
      destruct w as [|c w]; [injection E as E; apply app_eq_nil in E as [_ ->]; exfalso; eapply definition_nil, H2|].
      injection E as <- E. apply inv_other in Hw; [|reflexivity].
      assert (Hbn : ~ In newline b).
      { intros Hin. unfold all_spaces in Hb. rewrite forallb_forall in Hb. apply Hb in Hin. discriminate Hin. }
      destruct (prefix_in _ _ _ _ E Hbn) as (w2 & -> & ->).
      assert (Hw2 : whole b1 0 w2).
      { eapply drop_blanks; [|exact Hw]. unfold all_spaces in Hb. rewrite forallb_forall in *. intros x Hx. apply Hb, N.eqb_eq in Hx. subst x. reflexivity. }
      assert (Hs2 : X 0 (w2 ++ [newline]) (w2 ++ newline :: v')).
      { exists b1, w2. rewrite Ev. repeat split; auto. }
      destruct (over_ok _ _ (ok_def 0) _ _ _ _ (over_definition 0 0 _ _ Hs2) H2) as (r' & H' & HX). exists r'. split; [|exact HX].
      apply function_iff. right. exists sg, b, (w2 ++ newline :: v'), d. split; [|auto].
      rewrite H1'. cbn [app]. rewrite <- app_assoc. reflexivity.
  Qed.
End Over.

(** ** A definition is no branch of a [case] *)
Lemma spaces_one_line b : all_spaces b = true -> has_newline b = false.
Proof.
  intros Hb. apply not_true_iff_false. intros H. apply existsb_exists in H as (x & Hx & E). unfold all_spaces in Hb. rewrite forallb_forall in Hb. apply Hb in Hx.
  apply N.eqb_eq in E. subst x. discriminate Hx.
Qed.
Lemma spaces_lay b : spaces1 b -> lay_gt 0 b 0.
Proof.
  intros [Hne Hb]. assert (Hn : has_newline b = false) by (apply spaces_one_line, Hb).
  assert (Hl : last_line b = b) by (apply last_line_no_newline, Hn).
  split; [|split; [unfold closed; rewrite Hl; exact Hb|split; [exact Hne|split; [congruence|]]]].
  - clear Hne Hn Hl. induction b as [|c b IH]; [constructor|]. unfold all_spaces in *. cbn in Hb. apply andb_true_iff in Hb as [Hc Hb]. apply N.eqb_eq in Hc. subst c.
    apply trivia_space, IH, Hb.
  - unfold width. rewrite Hl, Hb, Hn. reflexivity.
Qed.
Lemma mark_term i c y : c = C "=" \/ c = C ":" -> term i (c :: y) = Err.
Proof.
  intros Hc. apply no_term_Err. destruct Hc as [->| ->]; repeat split; try discriminate; intros [H|H]; discriminate H.
Qed.
Lemma mark_operator c y : c = C "=" \/ c = C ":" -> ends is_op_char y -> no_operator (c :: y).
Proof.
  intros Hc Hy (o & b & s' & E & Ho & Hb). destruct Ho as [->|(Hne & Ha & Hr)]; [destruct Hc as [->| ->]; discriminate E|].
  destruct o as [|x o]; [congruence|]. injection E as <- E. destruct o as [|z o].
  - apply Hr. destruct Hc as [->| ->]; cbn; tauto.
  - subst y. cbn [app ends] in Hy. cbn [forallb] in Ha. apply andb_true_iff in Ha as [_ Ha]. apply andb_true_iff in Ha as [Ha _]. congruence.
Qed.
Lemma mark_trivia c y : c = C "=" \/ c = C ":" -> no_trivia (c :: y).
Proof. intros [->| ->]; repeat split; try discriminate; intros [H _]; discriminate H. Qed.
Lemma dead_name n s s1 args b c y : RName n s s1 -> items spaces1 (next_argument 0) s1 args (b ++ c :: y) -> spaces1 b ->
  c = C "=" \/ c = C ":" -> ends is_op_char y -> no_ok (case_f expression 0 s).
Proof.
  intros Hn Ha Hb Hc Hy. destruct (case_f expression 0 s) as [r a| |] eqn:E; try exact I. exfalso.
  assert (Hargs : arguments 0 s1 args (b ++ c :: y)).
  { clear -Ha. induction Ha as [|t s x s' l r Ht Hx _ IH]; [constructor|]. econstructor; [apply spaces_lay, Ht|exact Hx|exact IH]. }
  assert (Hsp : forall ir, sp 0 ir (b ++ c :: y) = Ok (c :: y) 0%N \/ sp 0 ir (b ++ c :: y) = Err).
  { intros ir. left. apply sp_iff. exists b. destruct (spaces_lay b Hb) as (H1 & H2 & H3 & H4 & H5). split; [|split; [exact H3|split; [|exact H5]]].
    - split; [reflexivity|]. split; [exact H1|]. split; [apply mark_trivia, Hc|left; exact H2].
    - intros Hnl. rewrite (spaces_one_line b (proj2 Hb)) in Hnl. discriminate Hnl. }
  assert (Hmore : no_more_arguments 0 (b ++ c :: y)).
  { apply stop_arguments. unfold sep_stop. destruct (Hsp IR_GT) as [E1|E1]; rewrite E1; [|exact I]. rewrite mark_term by exact Hc. auto. }
  assert (Hs1 : ends (fun x => (x =? C ".")%N) s1).
  { inversion Ha as [r0 E0|t s0 x s' l r0 Ht _ _ E0]; subst.
    - destruct b as [|x b]; [destruct Hb; congruence|]. destruct Hb as [_ Hb]. cbn in Hb. apply andb_true_iff in Hb as [Hb _]. apply N.eqb_eq in Hb. subst x. reflexivity.
    - destruct t as [|x0 t]; [destruct Ht; congruence|]. destruct Ht as [_ Ht]. cbn in Ht. apply andb_true_iff in Ht as [Ht _]. apply N.eqb_eq in Ht. subst x0. reflexivity. }
  assert (Hvar : exists e, term 0 s = Ok s1 e).
  { assert (Hv : RVar (Variable_ [n]) s s1) by (destruct Hn; constructor; assumption).
    exists (with_fields (Variable_ [n]) []). apply (name_term_iff 0 _ _ _ _ _ Hv). exists []. split; [constructor|]. split; [|reflexivity].
    intros t s0 x r' -> Ht _. unfold dot in Ht. subst t. discriminate Hs1. }
  destruct Hvar as (e & Ht). unfold case_f in E. apply bind_Ok in E as (r1 & e1 & He & E).
  apply (expression_iff 0 s s1 e r1 e1 Ht) in He as (xs & r2 & Hx & Hm & He).
  assert (r2 = b ++ c :: y) as ->.
  { assert (A1 : application_or_var 0 s = Ok (b ++ c :: y) (fold_left Application args e)) by (apply application_iff; eauto 8).
    assert (A2 : application_or_var 0 s = Ok r2 (fold_left Application xs e)) by (apply application_iff; eauto 8). congruence. }
  destruct He as [(-> & _)|(o & e2 & Ho & _)].
  - unfold bind in E. destruct (Hsp IR_GTE) as [E1|E1]; rewrite E1 in E; [|discriminate E]. destruct Hc as [->| ->]; discriminate E.
  - assert (A : operator_exp_f expression 0 (b ++ c :: y) = Ok r1 (Variable_ [o], e2)) by (apply operator_exp_iff; eauto).
    unfold operator_exp_f in A. apply bind_Ok in A as (r3 & j & A1 & A2). destruct (Hsp IR_GTE) as [E1|E1]; rewrite E1 in A1; [|discriminate A1].
    injection A1 as <- <-. rewrite no_operator_Err in A2; [discriminate A2|]. apply mark_operator; assumption.
Qed.

(** ** Statements of a whole text *)
Definition by_hand (st : statement_ast) : Prop := match st with Function_ _ | Comment _ => True | _ => False end.
Lemma over_statement v v0 b w r st : new_start v v0 -> whole b 0 w -> by_hand st -> statement (w ++ [newline]) = Ok r st ->
  exists b2 w2, whole b2 0 w2 /\ r = w2 ++ [newline] /\ statement (w ++ newline :: v) = Ok (w2 ++ newline :: v) st.
Proof.
  intros Hv Hw Hst H. destruct st; try destruct Hst.
  - apply statement_function_iff in H.
    assert (Hs : at_ either on 0 [] v (w ++ [newline]) (w ++ newline :: v)) by (exists b, w; repeat split; auto).
    destruct (over_function [] [] v v0 nothing_starts Hv _ _ _ _ Hs eq_refl H) as (r' & H' & b2 & w2 & _ & Hw2 & _ & -> & ->).
    exists b2, w2. split; [exact Hw2|]. split; [reflexivity|]. apply statement_function_iff, H'.
  - apply statement_comment_iff, comment_iff in H as (c & [= ->] & [(E & Hc & Hl)|(E & _)]).
    + rewrite app_assoc in E. symmetry in E. apply prefix_in in E as (w2 & -> & ->).
      * exists b, w2. rewrite <- app_assoc in Hw. assert (Hle : line_end w2) by (destruct w2; [exact I|exact Hl]).
        split; [apply (drop_comment b 0 c); assumption|]. split; [reflexivity|]. apply statement_comment_iff, comment_iff. exists c. split; [reflexivity|].
        left. split; [rewrite <- !app_assoc; reflexivity|]. split; [exact Hc|]. destruct w2; [reflexivity|exact Hl].
      * intros Hin. apply in_app_iff in Hin as [Hin|Hin]; [repeat (destruct Hin as [Hin|Hin]; [discriminate Hin|]); destruct Hin|].
        rewrite forallb_forall in Hc. apply Hc in Hin. discriminate Hin.
    + exfalso. destruct w as [|x [|y w]]; [discriminate E|discriminate E|]. injection E as -> -> _.
      apply inv_open in Hw; [|reflexivity]. destruct Hw as (_ & Hw & _). specialize (Hw eq_refl). discriminate Hw.
Qed.
Lemma reads_over v v0 l' r' : new_start v v0 -> no_blank v -> reads v l' r' -> forall s l r, reads s l r -> forall b w, s = w ++ [newline] ->
  whole b 0 w -> blanks r -> Forall by_hand l -> reads (w ++ newline :: v) (l ++ l') r'.
Proof.
  intros Hv Hb Hv'. induction 1 as [s st r H|s st t s' l r H Ht Hs' Hl IH]; intros b w -> Hw Hr Hf; inversion Hf as [|? ? Hst Hf']; subst.
  - destruct (over_statement v v0 b w r st Hv Hw Hst H) as (b2 & w2 & Hw2 & -> & H').
    apply (reads_cons _ st (w2 ++ [newline]) v); [rewrite <- app_assoc; exact H'| |exact Hb|exact Hv']. split; [destruct w2; discriminate|exact Hr].
  - destruct (over_statement v v0 b w _ st Hv Hw Hst H) as (b2 & w2 & Hw2 & E & H').
    destruct (split_two _ _ _ _ E) as [(w3 & -> & ->)|(t2 & -> & E2)].
    + apply (reads_cons _ st t (w3 ++ newline :: v)); [rewrite app_assoc; exact H'|exact Ht|destruct w3; [discriminate Hs'|exact Hs']|].
      apply (IH b2 w3); auto. eapply drop_blanks; [apply Ht|exact Hw2].
    + exfalso. symmetry in E2. apply app_eq_nil in E2 as [-> ->].
      assert (Hn : forall st r, statement [] <> Ok r st) by (intros st0 r0 K; destruct (proj1 all_progress _ _ _ K) as (c & Hc & Ec); destruct c; [congruence|discriminate Ec]).
      inversion Hl as [? ? ? K|? ? ? ? ? ? K]; subst; eapply Hn, K.
Qed.
Lemma name_start n s s1 : RName n s s1 -> ends is_blank s /\ ends is_op_char s /\ no_word s.
Proof.
  intros H. destruct H as [n r Hn Hr|o r Ho].
  - destruct (lower_name_head n Hn) as (c & t & En & Hc). split; [|split].
    + rewrite En. cbn [app ends]. destruct Hc as [->|Hc]; [reflexivity|]. destruct (is_blank c) eqn:E; [|reflexivity].
      apply class_blank in E. rewrite (class_name c) in E; [discriminate E|]. unfold is_name_char. rewrite Hc. rewrite ?orb_true_r; reflexivity.
    + rewrite En. cbn [app ends]. destruct Hc as [->|Hc]; [reflexivity|]. destruct (is_op_char c) eqn:E; [|reflexivity].
      apply class_op in E. rewrite (class_name c) in E; [discriminate E|]. unfold is_name_char. rewrite Hc. rewrite ?orb_true_r; reflexivity.
    + intros k r' Hk E. destruct (on_name_dec r') as [Ho|Ho]; [exact Ho|]. exfalso.
      assert (Hkn : forallb is_name_char k = true /\ In k reserved_words /\ k <> []) by (repeat (destruct Hk as [<-|Hk]; [split; [reflexivity|split; [cbn; tauto|discriminate]]|]); destruct Hk).
      destruct Hkn as (Hkn & Hkr & Hke). destruct Hr as [->|Hr].
      * destruct k as [|x k]; [congruence|]. injection E as <- _. repeat (destruct Hk as [Hk|Hk]; [discriminate Hk|]). destruct Hk.
      * assert (n = k /\ r = r') as [-> _].
        { apply (run_unique is_name_char); auto. apply (lower_longest n r Hn Hr). }
        apply (lower_not_reserved k k Hn) in Hkr. congruence.
  - split; [reflexivity|]. split; [reflexivity|]. intros k r' Hk E. repeat (destruct Hk as [<-|Hk]; [discriminate E|]). destruct Hk.
Qed.

(** ** What a text begins with *)
Lemma step_self {A} (X Y : str -> str -> Prop) (p : parser A) s r a : step X Y p p -> X s s -> p s = Ok r a -> Y r r.
Proof. intros H Hs E. specialize (H s s Hs). rewrite E in H. cbn in H. tauto. Qed.
Lemma mark_end v d i c y r j : at_ either on d v v (c :: y) (c :: y) -> c = C "=" \/ c = C ":" -> sp i IR_GT y = Ok r j -> ends is_op_char y.
Proof.
  intros (b & w & _ & Hw & _ & E & _) Hc H. destruct w as [|c' w]; [injection E as -> _; destruct Hc as [Hc|Hc]; discriminate Hc|]. injection E as <- Ey.
  apply inv_op in Hw; [|destruct Hc as [->| ->]; reflexivity].
  apply sp_iff in H as (t & (Et & Ht & _) & Hne & _). destruct Ht as [|t Ht|t Ht|x t Hx Hle Ht]; [congruence|rewrite Et; reflexivity|rewrite Et; reflexivity|].
  exfalso. rewrite Et in Ey. destruct Hw as [(_ & _ & Hd & _)|(x' & w' & E' & _)].
  - apply Hd. destruct w as [|a [|b' w]]; [discriminate Ey|injection Ey as <- Ey; discriminate Ey|]. injection Ey as <- <- _. eexists. reflexivity.
  - injection E' as -> E'. destruct Hc as [Hc|Hc]; discriminate Hc.
Qed.
Lemma start_definition v v0 b w r f : new_start v v0 -> whole b 0 w -> function 0 (w ++ newline :: v) = Ok r f ->
  new_start (w ++ newline :: v) (w ++ newline :: v).
Proof.
  intros Hv Hw H. assert (Hs : at_ either on 0 v v (w ++ newline :: v) (w ++ newline :: v)) by (exists b, w; repeat split; auto).
  revert Hs H. generalize (w ++ newline :: v). clear b w Hw. intros s Hs H.
  assert (Hk : exists n s1 args b c y, RName n s s1 /\ items spaces1 (next_argument 0) s1 args (b ++ c :: y) /\ spaces1 b /\
                 (c = C "=" \/ c = C ":") /\ ends is_op_char y).
  { apply function_iff in H as [(d & H & _)|(sg & b & s' & d & H & _)].
    - unfold function_definition, function_definition_f in H.
      apply bind_Ok in H as (s1 & n & Hn & H). apply bind_Ok in H as (s2 & args & Ha & H). apply bind_Ok in H as (s3 & b & Hb & H).
      apply bind_Ok in H as (s4 & x & Hx & H). apply bind_Ok in H as (s5 & j & Hj & _).
      assert (H1 : at_ either on 0 v v s1 s1) by (eapply step_self; [apply step_binding_name|exact Hs|exact Hn]).
      assert (H2 : at_ either on 0 v v s2 s2).
      { eapply step_self; [|exact H1|exact Ha]. apply step_many0. eapply step_preceded; [apply step_spaces|]. apply (over_term v v0 v v0 Hv Hv). }
      assert (H3 : at_ either on 0 v v s3 s3) by (eapply step_self; [apply step_spaces|exact H2|exact Hb]).
      apply char_Ok in Hx as [-> _]. apply name_iff in Hn. apply many0_Ok in Ha. apply sound_spaces in Hb as (wb & -> & -> & Hb).
      assert (Hgen : forall u l v, manys (preceded spaces (term 0)) u l v -> items spaces1 (next_argument 0) u l v).
      { induction 1 as [u _|u u2 a l v2 Hp _ _ IH]; [constructor|].
        apply preceded_Ok in Hp as (u3 & y & Hy & Hp). apply sound_spaces in Hy as (w' & -> & -> & Hw).
        econstructor; [exact Hw|exact Hp|exact IH]. }
      apply Hgen in Ha. exists n, s1, args, b, (C "="), s4. split; [exact Hn|]. split; [exact Ha|]. split; [exact Hb|]. split; [auto|].
      eapply mark_end; [exact H3|auto|exact Hj].
    - unfold function_signature in H.
      apply bind_Ok in H as (s1 & n & Hn & H). apply bind_Ok in H as (s3 & b' & Hb & H).
      apply bind_Ok in H as (s4 & x & Hx & H). apply bind_Ok in H as (s5 & j & Hj & _).
      assert (H1 : at_ either on 0 v v s1 s1) by (eapply step_self; [apply step_binding_name|exact Hs|exact Hn]).
      assert (H3 : at_ either on 0 v v s3 s3) by (eapply step_self; [apply step_spaces|exact H1|exact Hb]).
      apply char_Ok in Hx as [-> _]. apply name_iff in Hn. apply sound_spaces in Hb as (wb & -> & -> & Hb).
      exists n, (b' ++ C ":" :: s4), [], b', (C ":"), s4. split; [exact Hn|]. split; [constructor|]. split; [exact Hb|]. split; [auto|].
      eapply mark_end; [exact H3|auto|exact Hj]. }
  destruct Hk as (n & s1 & args & b & c & y & Hn & Ha & Hb & Hc & Hy). destruct (name_start _ _ _ Hn) as (N1 & N2 & N3).
  split; [|split; [exact N3|eapply dead_name; eassumption]].
  split; [exact N1|]. split; [exact N1|]. split; [exact N2|]. exists []. split; [reflexivity|]. split; [constructor|left; reflexivity].
Qed.
Lemma start_comment d g v v0 : forallb not_newline d = true -> gap g -> new_start v v0 -> new_start (L "--" ++ d ++ g ++ v) v0.
Proof.
  intros Hd Hg ((H1 & H2 & H3 & z & -> & Hz & He) & Hw & Hc). split; [|auto]. split; [reflexivity|]. split; [exact H2|]. split; [exact H3|].
  destruct Hg as ((g' & Eg) & Hsp & Hl). destruct (spnl_trivia _ Hsp) as [Hgt Hgc].
  exists (L "--" ++ d ++ g ++ z). split; [rewrite <- !app_assoc; reflexivity|]. split.
  - apply trivia_comment; [exact Hd|subst g; reflexivity|]. apply trivia_app_closed; assumption.
  - assert (Hline : last_line (newline :: L "--" ++ d ++ g ++ z) = last_line (newline :: z)).
    { change (newline :: L "--" ++ d ++ g ++ z) with ([newline] ++ L "--" ++ d ++ g ++ z). change (newline :: z) with ([newline] ++ z).
      destruct (has_newline z) eqn:Ez.
      - rewrite !app_assoc. rewrite !last_line_app_newline by exact Ez. reflexivity.
      - rewrite (last_line_app_plain [newline] z Ez), !app_assoc, (last_line_app_plain _ z Ez). f_equal.
        rewrite last_line_app_newline; [exact Hl|]. subst g. reflexivity. }
    rewrite Hline. exact He.
Qed.
Definition openers : list str := [L "module"; L "port"; L "import"; L "type"].
Lemma start_keyword k t : In k openers -> ends is_name_char t -> new_start (k ++ t) (k ++ t).
Proof.
  intros Hk Ht. assert (Hn : forallb is_name_char k = true /\ In k reserved_words) by (repeat (destruct Hk as [<-|Hk]; [split; [reflexivity|cbn; tauto]|]); destruct Hk).
  destruct Hn as [Hn Hr]. assert (Hl : longest is_name_char k (k ++ t) t) by (split; [reflexivity|split; assumption]).
  split; [|split].
  - assert (H : ends is_blank (k ++ t) /\ ends is_op_char (k ++ t)) by (repeat (destruct Hk as [<-|Hk]; [split; reflexivity|]); destruct Hk). destruct H.
    split; [assumption|]. split; [assumption|]. split; [assumption|]. exists []. split; [reflexivity|]. split; [constructor|left; reflexivity].
  - intros k' r Hk' E. exfalso. repeat (destruct Hk as [<-|Hk]; [repeat (destruct Hk' as [<-|Hk']; [discriminate E|]); destruct Hk'|]). destruct Hk.
  - assert (Hx : no_expr (k ++ t)).
    { split; [|split].
      - assert (H : exists c s, k ++ t = c :: s /\ is_upper c = false /\ is_dec c = false /\ mem_char c (quote :: squote :: L "_([{") = false /\ c <> C "." /\ c <> C "+" /\ c <> C "-").
        { repeat (destruct Hk as [<-|Hk]; [do 2 eexists; repeat split; discriminate|]). destruct Hk. }
        destruct H as (c & s & E & H1 & H2 & H3 & H4 & H5 & H6). rewrite E in *. split; [exact H1|]. split; [exact H2|]. split; [exact H3|]. split; [eauto|]. split; [congruence|].
        intros [H|H]; congruence.
      - repeat (destruct Hk as [<-|Hk]; [reflexivity|]). destruct Hk.
      - intros (w & r & Hw & Hin). destruct (longest_unique _ _ _ _ _ _ Hw Hl) as [-> _].
        repeat (destruct Hk as [<-|Hk]; [repeat (destruct Hin as [Hin|Hin]; [discriminate Hin|]); destruct Hin|]). destruct Hk. }
    unfold case_f, bind. rewrite no_expr_Err by exact Hx. exact I.
Qed.

Lemma start_block t : ends (fun c => (c =? C "-")%N) t -> new_start (L "{-" ++ t) (L "{-" ++ t).
Proof.
  intros Ht. split; [|split].
  - split; [reflexivity|]. split; [reflexivity|]. split; [reflexivity|]. exists []. split; [reflexivity|]. split; [constructor|left; reflexivity].
  - intros k' r Hk' E. exfalso. repeat (destruct Hk' as [<-|Hk']; [discriminate E|]). destruct Hk'.
  - unfold case_f, bind. destruct (expression 0 (L "{-" ++ t)) as [r e| |] eqn:He; [exfalso|exact I..].
    assert (Ho : forall u x, olay 0 u -> C "-" :: t = u ++ x -> u = []).
    { intros u x [->|(j & Hu & _)] E; [reflexivity|]. destruct Hu as [|u Hu|u Hu|c u H0 H1 Hu]; [reflexivity|discriminate E..|].
      injection E as E. subst t. discriminate Ht. }
    assert (Hl : forall n x, lower_name n -> C "-" :: t <> n ++ x).
    { intros n x [->|[(c & n' & -> & Hn & _) _]] E; [discriminate E|]. injection E as <- _. discriminate Hn. }
    assert (Hb : forall u x, blanks u -> C "-" :: t = u ++ x -> u = []).
    { intros [|c u] x Hu E; [reflexivity|]. injection E as <- _. discriminate Hu. }
    apply no_term_keyword in He.
    + destruct He as [(s' & He)|(w & s' & He & [->|[->| ->]] & _)]; discriminate He.
    + intros r' f K. change (L "{-" ++ t) with (L "{" ++ C "-" :: t) in K. apply brace_iff in K as [K|[K|[K|K]]].
      * destruct K as (t1 & n & t2 & b & s1 & fs & s2 & t3 & j3 & E & H1 & H2 & _). pose proof (Ho _ _ H1 E) as ->. exact (Hl _ _ H2 E).
      * destruct K as (t1 & E & H1 & _). pose proof (Ho _ _ H1 E) as ->. discriminate E.
      * destruct K as (t1 & s1 & f' & s2 & fs & t2 & E & H1 & (t3 & t4 & s3 & -> & H2 & _) & _). pose proof (Ho _ _ H1 E) as ->. exact (Hl _ _ H2 E).
      * destruct K as (f' & s1 & fs & (b1 & b2 & E & H1 & H2 & _) & _). pose proof (Hb _ _ H1 E) as ->. exact (Hl _ _ H2 E).
Qed.

(** ** Blanks after a whole text *)
Lemma idle_app_blanks w g : idle (w ++ g) -> blanks g -> line_end g -> idle w.
Proof.
  intros H Hg Hl. remember (w ++ g) as t eqn:E. revert w E. induction H as [|c t Hc Ht IH|c t Hc Hle Ht IH]; intros w E.
  - symmetry in E. apply app_eq_nil in E as [-> _]. constructor.
  - destruct w as [|x w]; [constructor|]. injection E as <- E. apply idle_blank; [exact Hc|]. apply IH, E.
  - destruct g as [|y g]; [rewrite app_nil_r in E; subst w; apply idle_comment; assumption|]. cbn in Hl. subst y.
    rewrite app_assoc in E. apply prefix_in in E as (w2 & -> & ->).
    + rewrite <- app_assoc. apply idle_comment; [exact Hc|destruct w2; [exact I|exact Hle]|]. apply IH. reflexivity.
    + intros Hin. apply in_app_iff in Hin as [Hin|Hin]; [repeat (destruct Hin as [Hin|Hin]; [discriminate Hin|]); destruct Hin|].
      rewrite forallb_forall in Hc. apply Hc in Hin. discriminate Hin.
Qed.
Lemma ends_app_blanks (P : char -> bool) w g : (forall c, is_blank c = true -> P c = false) -> ends P w -> blanks g -> ends P (w ++ g).
Proof.
  intros HP Hw Hg. destruct w as [|c w]; [|exact Hw]. destruct g as [|c g]; [exact I|]. apply HP. apply andb_true_iff in Hg. apply Hg.
Qed.
Lemma dashes_app_blanks w g : dashes (w ++ g) -> blanks g -> dashes w.
Proof.
  intros (x & E) Hg. destruct w as [|a [|b w]].
  - cbn [app] in E. subst g. discriminate Hg.
  - injection E as -> E. subst g. discriminate Hg.
  - injection E as -> -> _. exists w. reflexivity.
Qed.
Lemma blank_class P c : (exists k, k <> 7 /\ forall c, P c = true -> class c = k) -> is_blank c = true -> P c = false.
Proof. intros (k & Hk & H) Hc. destruct (P c) eqn:E; [|reflexivity]. apply H in E. rewrite (class_blank _ Hc) in E. congruence. Qed.
Lemma blank_name c : is_blank c = true -> is_name_char c = false.
Proof. apply blank_class. exists 1. split; [discriminate|apply class_name]. Qed.
Lemma blank_op c : is_blank c = true -> is_op_char c = false.
Proof. apply blank_class. exists 2. split; [discriminate|apply class_op]. Qed.
Lemma blank_is c x : is_blank x = false -> is_blank c = true -> (c =? x)%N = false.
Proof. intros Hx Hc. apply N.eqb_neq. intros ->. congruence. Qed.
Lemma whole_blanks b d w g : blanks g -> line_end g -> whole b d w -> whole b d (w ++ g).
Proof.
  intros Hg Hl H. pose proof (fun w H1 => idle_app_blanks w g H1 Hg Hl) as Hi. pose proof (fun w H1 => dashes_app_blanks w g H1 Hg) as Hd.
  assert (Hn : forall w, ends is_name_char w -> ends is_name_char (w ++ g)) by (intros u Hu; apply ends_app_blanks; [exact blank_name|exact Hu|exact Hg]).
  assert (Hle : forall w, line_end w -> line_end (w ++ g)) by (intros [|x u] Hu; [exact Hl|exact Hu]).
  induction H; rewrite <- ?app_assoc; cbn [app].
  - clear -Hg. induction g as [|c g IH]; [constructor|]. apply andb_true_iff in Hg as [Hc Hg]. apply whole_other; [apply other_class, class_blank, Hc|apply IH, Hg].
  - apply whole_word; auto.
  - apply whole_keyword; auto.
  - apply (whole_let d (w ++ g)); auto.
  - apply (whole_in d (w ++ g)); auto.
  - apply whole_operator; [assumption|intros K; apply Hi in K; contradiction|intros K; apply (Hd (c :: w)) in K; contradiction|intros K; apply Hd in K; contradiction|].
    assert (E : after_op b c (w ++ g) = after_op b c w).
    { unfold after_op. destruct w as [|x w]; [|reflexivity]. destruct g as [|x g]; [reflexivity|]. apply andb_true_iff in Hg as [Hx _]. cbn [app]. rewrite (blank_op x Hx). reflexivity. }
    rewrite E. assumption.
  - apply whole_open; [assumption|intros K K1; apply Hd in K1; apply (H0 K), K1| |assumption].
    intros K. apply ends_app_blanks; [intros x; apply blank_is; reflexivity|auto|exact Hg].
  - apply whole_close; auto.
  - apply whole_string; [|assumption]. match goal with H : string_token _ _ |- _ => destruct H as [c Hc|c Hc Hw] end; [apply token_multi, Hc|]. apply token_single; [exact Hc|].
    intros K. apply ends_app_blanks; [intros x; apply blank_is; reflexivity|auto|exact Hg].
  - apply whole_char; auto.
  - apply (whole_comment b d c (w ++ g)); auto.
  - apply whole_other; auto.
Qed.
Lemma gap_split g : gap g -> exists g1, g = g1 ++ [newline] /\ blanks g1 /\ line_end g1.
Proof.
  intros Hg. pose proof (gap_blanks g Hg) as Hb. destruct Hg as ((g' & Eg) & _ & Hl). destruct (@exists_last _ g) as (g1 & x & E); [subst g; discriminate|].
  assert (x = newline) as ->.
  { destruct (N.eqb_spec x newline) as [->|Hx]; [reflexivity|]. rewrite E, last_line_app_plain in Hl; [destruct (last_line g1); discriminate Hl|].
    cbn. rewrite orb_false_r. apply N.eqb_neq, Hx. }
  exists g1. split; [exact E|]. unfold blanks in Hb. rewrite E, forallb_app in Hb. apply andb_true_iff in Hb as [Hb _]. split; [exact Hb|].
  destruct g1 as [|y g1]; [exact I|]. rewrite Eg in E. injection E as <- _. reflexivity.
Qed.

(** ** Putting pieces together *)
Definition headed (st : statement_ast) : Prop :=
  match st with
  | ModuleDeclaration _ _ | PortModuleDeclaration _ _ | ImportStatement _ _ _
  | TypeAliasDeclaration _ _ | TypeDeclaration _ _ | PortTypeDeclaration _ _ => True
  | _ => False
  end.
(** a block comment that does not begin with three signs [{--] *)
Definition block (c : str) (st : statement_ast) : Prop :=
  exists d t, c = L "{-" ++ d /\ ends (fun x => (x =? C "-")%N) d /\ st = Comment t.
(** A piece [c] with the statements [sts], and the gap [g] after it: definitions
    (after the first one there may be line comments too), a declaration or a comment *)
Definition piece (p : str * str) (sts : list statement_ast) : Prop :=
  gap (snd p) /\ no_blank (fst p) /\ file (fst p) = Ok [] sts /\
  ((whole false 0 (fst p) /\ ends (fun c => (c =? C "-")%N) (fst p) /\ Forall by_hand sts) \/
   (exists st, sts = [st] /\ trimmed (fst p) /\ (headed st \/ block (fst p) st)) \/
   (exists d, fst p = L "--" ++ d /\ has_newline d = false)).

Lemma headed_start c st x : statement c = Ok [] st -> headed st -> new_start (c ++ x) (c ++ x).
Proof.
  intros H Hh. apply statement_rule_iff in H.
  assert (Hsp : forall b y, spaces1 b -> ends is_name_char (b ++ y)).
  { intros b y [Hne Hb]. destruct b as [|a b]; [congruence|]. apply andb_true_iff in Hb as [Hb _]. apply N.eqb_eq in Hb. subst a. reflexivity. }
  assert (Hly : forall t y, lay0 t -> ends is_name_char (t ++ y)).
  { intros t y (j & Ht & _ & Hne & _). destruct Ht; [congruence|reflexivity..]. }
  destruct st; try destruct Hh; cbn [statement_rule] in H.
  - destruct H as (u1 & u2 & u3 & s' & H1 & _ & _ & _ & _ & ->). rewrite <- !app_assoc. apply start_keyword; [cbn; tauto|]. auto.
  - destruct H as (u0 & u1 & u2 & u3 & s' & H1 & _ & _ & _ & _ & _ & ->). rewrite <- !app_assoc. apply start_keyword; [cbn; tauto|]. auto.
  - destruct H as (b & s1 & s2 & -> & H1 & _). rewrite <- !app_assoc. apply start_keyword; [cbn; tauto|]. auto.
  - destruct H as (b1 & b2 & s1 & b3 & u & j & s2 & -> & H1 & _). rewrite <- !app_assoc. apply start_keyword; [cbn; tauto|]. auto.
  - destruct H as (b & s1 & u1 & m & u2 & j & s2 & k & cs' & s3 & -> & H1 & _). rewrite <- !app_assoc. apply start_keyword; [cbn; tauto|]. auto.
  - destruct H as (b1 & b2 & u & j & s' & -> & H1 & _). rewrite <- !app_assoc. apply start_keyword; [cbn; tauto|]. auto.
Qed.
Lemma start_new_line v v0 g : new_start v v0 -> gap g -> new_line_at_0 (g ++ v).
Proof.
  intros (Hv & _) ((g' & Eg) & Hsp & Hl). destruct (spnl_trivia _ Hsp) as [Hgt Hgc]. pose proof (apart_no_trivia _ _ Hv) as Hn.
  destruct Hv as (_ & _ & H3 & z & -> & Hz & He). exists (g ++ z), v0.
  assert (Hline : last_line (g ++ z) = last_line (newline :: z)).
  { change (newline :: z) with ([newline] ++ z). destruct (has_newline z) eqn:Ez.
    - rewrite !last_line_app_newline by exact Ez. reflexivity.
    - rewrite (last_line_app_plain [newline] z Ez), (last_line_app_plain g z Ez), Hl. reflexivity. }
  split; [split; [apply app_assoc|split; [apply trivia_app_closed; assumption|split; [exact Hn|]]]|].
  - rewrite Hline. destruct He as [->|[-> _]]; [left; reflexivity|right; reflexivity].
  - split; [subst g; rewrite has_newline_app; reflexivity|]. split; [rewrite Hline; destruct He as [->|[-> _]]; auto|].
    destruct v0 as [|x v0]; [exact I|]. cbn [ends] in *. destruct (N.eqb_spec x (C "-")) as [->|_]; [discriminate H3|]. destruct (N.eqb_spec x (C "|")) as [->|_]; [discriminate H3|]. reflexivity.
Qed.
Lemma file_at_once s l : no_blank s -> file s = Ok [] l <-> exists r, reads s l r /\ blanks r.
Proof.
  intros Hs. rewrite file_reads. split.
  - intros (b & s1 & r & -> & Hb & Hs1 & H & Hr). destruct b as [|c b]; [eauto|]. exfalso. apply andb_true_iff in Hb as [Hb _]. apply not_true_iff_false in Hs. contradiction.
  - intros (r & H & Hr). exists [], s, r. split; [reflexivity|]. split; [reflexivity|]. auto.
Qed.
Lemma reads_nil l r : ~ reads [] l r.
Proof.
  assert (Hn : forall st r, statement [] <> Ok r st) by (intros st0 r0 K; destruct (proj1 all_progress _ _ _ K) as (c & Hc & Ec); destruct c; [congruence|discriminate Ec]).
  intros H. inversion H as [? ? ? K|? ? ? ? ? ? K]; subst; eapply Hn, K.
Qed.
Lemma piece_join c g sts s s0 l : piece (c, g) sts -> new_start s s0 -> no_blank s -> (s = [] /\ l = [] \/ file s = Ok [] l) ->
  (exists t, new_start (c ++ g ++ s) t) /\ no_blank (c ++ g ++ s) /\ file (c ++ g ++ s) = Ok [] (sts ++ l).
Proof.
  intros (Hg & Hc & Hf & Hk) Hs Hsb Hl. cbn [fst snd] in *.
  assert (Hne : c <> []). { intros ->. apply file_at_once in Hf as (r & Hf & _); [|exact I]. eapply reads_nil, Hf. }
  assert (Hcb : forall x, no_blank (c ++ x)) by (intros x; destruct c; [congruence|exact Hc]).
  assert (Hlg : line_end g) by (destruct Hg as ((g' & ->) & _); reflexivity). pose proof (gap_blanks g Hg) as Hbg.
  assert (Hlast : s = [] -> l = [] -> file (c ++ g ++ s) = Ok [] (sts ++ l)).
  { intros -> ->. rewrite !app_nil_r. rewrite file_trail_line; assumption. }
  assert (Hjoin : forall st, sts = [st] -> without_expression st = true -> trimmed c -> file (c ++ g ++ s) = Ok [] (sts ++ l)).
  { intros st -> Hp Ht. destruct Hl as [[-> ->]|Hl]; [apply Hlast; reflexivity|]. apply file_join; auto; [apply Hg|]. eapply start_new_line; eassumption. }
  destruct Hk as [(Hw & Hd & Hb)|[(st & -> & Ht & Hh)|(d & -> & Hd)]].
  - destruct (gap_split g Hg) as (g1 & -> & Hg1 & Hl1). pose proof (whole_blanks false 0 c g1 Hg1 Hl1 Hw) as Hw1.
    assert (Hr : exists r, reads ((c ++ g1) ++ [newline]) sts r /\ blanks r).
    { apply file_at_once; [rewrite <- app_assoc; apply Hcb|]. rewrite <- app_assoc, file_trail_line; assumption. }
    destruct Hr as (r & Hr & Hrb).
    assert (E : c ++ (g1 ++ [newline]) ++ s = (c ++ g1) ++ newline :: s) by (rewrite <- !app_assoc; reflexivity). split; [|split; [apply Hcb|]].
    + assert (Hst : exists st r1, statement ((c ++ g1) ++ [newline]) = Ok r1 st /\ by_hand st).
      { inversion Hr as [? st ? K|? st ? ? l0 ? K]; subst; inversion Hb; subst; eauto. }
      destruct Hst as (st & r1 & Hst & Hh). pose proof Hst as Hst0. destruct (over_statement s s0 false (c ++ g1) r1 st Hs Hw1 Hh Hst) as (b2 & w2 & _ & _ & Hst').
      rewrite E. exists ((c ++ g1) ++ newline :: s). destruct st; try destruct Hh.
      * apply statement_function_iff in Hst'. eapply start_definition; eassumption.
      * exfalso. apply statement_comment_iff, comment_iff in Hst as (x & _ & [(Ex & _)|(Ex & _)]); destruct c as [|a c]; [congruence| |congruence|].
        -- injection Ex as -> _. discriminate Hd.
        -- injection Ex as -> Ex. change (whole false 0 (C "{" :: (c ++ g1))) in Hw1. apply inv_open in Hw1; [|reflexivity]. destruct Hw1 as (_ & Hw1 & _). specialize (Hw1 eq_refl).
           destruct (c ++ g1) as [|y q]; cbn in Ex; [discriminate Ex|]. injection Ex as -> _. cbn in Hw1. discriminate Hw1.
    + destruct Hl as [[E1 E2]|Hl]; [apply Hlast; assumption|]. rewrite E. apply file_at_once; [rewrite <- app_assoc; apply Hcb|].
      apply file_at_once in Hl as (r' & Hl & Hr'); [|exact Hsb]. exists r'. split; [|exact Hr']. eapply reads_over; eauto.
  - pose proof (one_statement c st Hf Hc Ht) as Hst. split; [exists (c ++ g ++ s)|split; [apply Hcb|]].
    + destruct Hh as [Hh|(d & t & -> & Hd & _)]; [eapply headed_start; eassumption|]. rewrite <- app_assoc. apply start_block.
      destruct d as [|x d]; [|exact Hd]. destruct Hg as ((g' & ->) & _). reflexivity.
    + apply (Hjoin st); auto. destruct Hh as [Hh|(d & t & _ & _ & ->)]; [|reflexivity]. destruct st; try destruct Hh; reflexivity.
  - assert (Hn : forallb not_newline d = true).
    { apply forallb_forall. intros x Hx. unfold not_newline. apply negb_true_iff, N.eqb_neq. intros ->.
      apply not_true_iff_false in Hd. apply Hd. apply existsb_exists. exists newline. split; [exact Hx|reflexivity]. }
    split; [exists s0; rewrite <- app_assoc; apply start_comment; assumption|]. split; [apply Hcb|].
    pose proof (file_one _ _ Hc (line_comment_statement d Hd)) as Hf'. rewrite Hf in Hf'. injection Hf' as ->.
    apply (Hjoin (Comment d)); auto. intros c' h _ _. split; [eauto|]. cbn [app]. exact Hd.
Qed.
Theorem pieces_file parts stss : Forall2 piece parts stss -> parts <> [] ->
  file (text_of parts) = Ok [] (concat stss) /\ forall g, gap g -> new_line_at_0 (g ++ text_of parts).
Proof.
  intros HF. assert (H : (exists t, new_start (text_of parts) t) /\ no_blank (text_of parts) /\
    (text_of parts = [] /\ concat stss = [] \/ file (text_of parts) = Ok [] (concat stss)) /\ (parts <> [] -> text_of parts <> [])).
  { induction HF as [|[c g] sts parts stss Hp HF ((t & IH1) & IH2 & IH3 & _)].
    - split; [exists []; exact nothing_starts|]. split; [exact I|]. split; [auto|congruence].
    - destruct (piece_join c g sts (text_of parts) t (concat stss) Hp IH1 IH2 IH3) as (H1 & H2 & H3).
      unfold text_of in *. cbn [map concat fst snd]. rewrite <- app_assoc. split; [exact H1|]. split; [exact H2|]. split; [right; exact H3|].
      intros _ E. apply app_eq_nil in E as [_ E]. apply app_eq_nil in E as [-> _]. destruct Hp as (((g' & Hg) & _) & _). discriminate Hg. }
  intros Hne. destruct H as ((t & H1) & H2 & H3 & H4). split; [|intros g Hg; eapply start_new_line; eassumption].
  destruct H3 as [[H3 _]|H3]; [|exact H3]. exfalso. apply H4; assumption.
Qed.
