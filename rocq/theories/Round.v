(** * Printed text is read back

    Every well-formed syntax tree, printed by Printer.v, is a rendering in the
    sense of Render.v; hence (CompleteS.v) the parser reads it back. *)
From Verif Require Import Base Nom Regex Ast Good Spec Helpers Types Expr Stmt Lexers Total
  Layout Seqs Grammar Follow Sound SoundE SoundS LexProps Heads Rules Render CompleteT CompleteE
  CompleteX CompleteS Wf Printer.

(** ** Blank space and what follows *)

Lemma lay_space R i : lay R i (L " ") i.
Proof.
  split; [repeat constructor|]. split; [reflexivity|]. split; [discriminate|]. split; [discriminate|].
  reflexivity.
Qed.
Lemma gt_space i : lay_gt i (L " ") i.
Proof. exact (lay_space _ _). Qed.
Lemma ge_space i : lay_ge i (L " ") i.
Proof. exact (lay_space _ _). Qed.
Lemma olay_nil i : olay i [].
Proof. left. reflexivity. Qed.
Lemma olay_space i : olay i (L " ").
Proof. right. exists i. apply ge_space. Qed.
Lemma spaces1_space : spaces1 (L " ").
Proof. split; [discriminate|reflexivity]. Qed.
Lemma blanks_nil : blanks [].
Proof. reflexivity. Qed.
Lemma blanks_space : blanks (L " ").
Proof. reflexivity. Qed.
Lemma blanks1_space : blanks1 (L " ").
Proof. split; [discriminate|reflexivity]. Qed.
Lemma blanks1_newline : blanks1 [newline].
Proof. split; [discriminate|reflexivity]. Qed.
Lemma spnl1_space : spnl1 (L " ").
Proof. split; [discriminate|reflexivity]. Qed.
Lemma tabs1_space : tabs1 (L " ").
Proof. split; [discriminate|reflexivity]. Qed.
#[local] Hint Resolve gt_space ge_space olay_nil olay_space spaces1_space blanks_nil blanks_space
  blanks1_space blanks1_newline spnl1_space tabs1_space : lay.

(** [r] is empty or starts with one of the characters that follow a printed
    term *)
Definition delim (r : str) : Prop :=
  match r with [] => True | c :: _ => mem_char c (newline :: L " ),]}") = true end.

Lemma delim_ends P r : delim r -> forallb (fun c => negb (P c)) (newline :: L " ),]}") = true -> ends P r.
Proof.
  destruct r as [|c r]; [auto|]. cbn [delim ends]. intros H HP.
  apply mem_char_In in H. rewrite forallb_forall in HP. apply HP, negb_true_iff in H. exact H.
Qed.

Lemma delim_lower n r : delim r -> ends_lower n r.
Proof. intros H. right. apply delim_ends; [exact H|reflexivity]. Qed.
Lemma delim_no_dot r : delim r -> ends (fun c => (c =? C ".")%N) r.
Proof. intros H. apply delim_ends; [exact H|reflexivity]. Qed.
Lemma delim_dotted r : delim r -> ends_dotted r.
Proof.
  intros H. split; [apply delim_ends; [exact H|reflexivity]|].
  intros (n & r' & -> & _). apply delim_no_dot in H. discriminate H.
Qed.
Lemma delim_integer r : delim r -> ends_integer r.
Proof.
  intros H. split; [apply delim_ends; [exact H|reflexivity]|].
  intros (n & r' & -> & _). apply delim_no_dot in H. discriminate H.
Qed.
Lemma delim_no_access r : delim r -> no_access r.
Proof.
  intros H. apply delim_no_dot in H. destruct r as [|c r]; [exact I|]. intros ->. discriminate H.
Qed.

(** ** Types *)

Lemma no_param_char i c r : mem_char c (L "),]}") = true -> no_type_param i (c :: r).
Proof.
  intros H. exists [], (c :: r). split; [apply trivia_run_nil, no_trivia_char; clear -H; intros ->; discriminate H|auto].
Qed.

Lemma no_param_space i y : no_trivia y ->
  ends (fun c => is_lower c || is_upper c || (c =? C "{")%N || (c =? C "(")%N) y ->
  no_type_param i (L " " ++ y).
Proof.
  intros H1 H2. exists (L " "), y. split; [|auto].
  apply trivia_run_intro; [repeat constructor|reflexivity|exact H1].
Qed.

Lemma no_arrow_char c r : mem_char c (L "),]}") = true -> no_arrow (c :: r).
Proof.
  intros H (b1 & b2 & s & E & [Hne H1] & _). destruct b1 as [|d b1]; [congruence|].
  injection E as -> _. simpl in H1. apply andb_true_iff in H1 as [H1 _]. clear -H H1. chr.
Qed.

Lemma spnl_skip b y x s : forallb is_space_or_newline b = true ->
  b ++ y = x ++ L "->" ++ s -> forallb is_space_or_newline x = true -> exists x' s', y = x' ++ L "->" ++ s' /\
    forallb is_space_or_newline x' = true.
Proof.
  revert x. induction b as [|c b IH]; intros x Hb E Hx; [eauto|].
  simpl in Hb. apply andb_true_iff in Hb as [Hc Hb]. destruct x as [|d x].
  - injection E as -> _. discriminate Hc.
  - injection E as -> E. simpl in Hx. apply andb_true_iff in Hx as [_ Hx]. eapply IH; eassumption.
Qed.

Lemma no_arrow_blank b y : forallb is_space_or_newline b = true -> ends is_space_or_newline y ->
  ~ (exists s, y = L "->" ++ s) -> no_arrow (b ++ y).
Proof.
  intros Hb He Hn (b1 & b2 & s & E & [_ H1] & _).
  destruct (spnl_skip _ _ _ _ Hb E H1) as (x & s' & -> & Hx).
  destruct x as [|c x]; [apply Hn; exists s'; reflexivity|].
  cbn [app ends] in He. simpl in Hx. rewrite He in Hx. discriminate Hx.
Qed.

Definition type_ok (t : type_ast) : Prop :=
  (forall i r, delim r -> no_type_param i r -> RTy i t (print_type t r) r) /\
  (is_param t -> forall i r, delim r -> RParam i t (print_type t r) r).

Lemma simple_ok t : (forall i r, delim r -> RTySimple i t (print_type t r) r) -> type_ok t.
Proof. intros H. split; intros; [apply RTy_simple|apply RParam_simple]; auto. Qed.

Lemma delim_cons c r : mem_char c (newline :: L " ),]}") = true -> delim (c :: r).
Proof. auto. Qed.

Lemma delim_spaced {A} (p : A -> str -> str) l r : delim r -> delim (spaced p l r).
Proof. destruct l; [auto|]. intros _. reflexivity. Qed.

Lemma print_params args : Forall type_ok args -> Forall is_param args ->
  forall i r, delim r -> no_type_param i r -> RParams i args (spaced print_type args r) r.
Proof.
  induction 1 as [|t ts Ht _ IH]; intros Hp i r Hd Hn; [constructor; exact Hn|].
  inversion Hp as [|? ? Hp1 Hp2]; subst. cbn [spaced].
  eapply RParams_cons; [apply gt_space|apply Ht; [exact Hp1|apply delim_spaced, Hd]|].
  apply IH; assumption.
Qed.

Lemma print_types ts : Forall type_ok ts -> ts <> [] -> forall i c r, mem_char c (L "),]}") = true ->
  RTyElems i ts (sep_with (L ", ") print_type ts (c :: r)) (c :: r).
Proof.
  induction 1 as [|t ts Ht Hts IH]; [congruence|]. intros _ i c r Hc.
  destruct ts as [|t' ts].
  - apply RTyElems_one. apply Ht; [cbn [delim]; clear -Hc; chr|apply no_param_char, Hc].
  - cbn [sep_with]. eapply (RTyElems_cons i t _ [] (L " ")).
    + apply Ht; [reflexivity|apply no_param_char; reflexivity].
    + apply olay_nil.
    + apply olay_space.
    + apply IH; [discriminate|exact Hc].
Qed.

Definition print_tfield (f : str * type_ast) (r : str) : str :=
  fst f ++ L " : " ++ print_type (snd f) r.

Lemma ann_of_type t i r : type_ok t -> delim r -> no_type_param i r -> no_arrow r ->
  RAnn i t (print_type t r) r.
Proof. intros Ht H1 H2 H3. apply RAnn_one; [apply Ht; assumption|exact H3]. Qed.

Lemma print_tfields fs : Forall (fun f => lower_name (fst f) /\ type_ok (snd f)) fs -> fs <> [] ->
  forall i z, delim z -> no_type_param i z -> no_arrow z ->
  RTyFields i fs (sep_with (L ", ") print_tfield fs z) z.
Proof.
  induction 1 as [|[n t] fs [Hn Ht] Hfs IH]; [congruence|]. intros _ i z H1 H2 H3. cbn [fst snd] in *.
  assert (Hf : forall z, delim z -> no_type_param i z -> no_arrow z ->
            RTyField i n t (n ++ L " : " ++ print_type t z) z).
  { intros. apply (RTyField_intro i n (L " ") (L " ")); auto with lay.
    apply ann_of_type; assumption. }
  destruct fs as [|f fs].
  - apply RTyFields_one, Hf; assumption.
  - cbn [sep_with]. eapply (RTyFields_cons i n t _ [] (L " ")); auto with lay.
    + apply Hf; [reflexivity|apply no_param_char; reflexivity|apply no_arrow_char; reflexivity].
    + apply IH; [discriminate|assumption..].
Qed.

Lemma no_param_arrow i r : no_type_param i (L " -> " ++ r).
Proof. apply no_param_space; [apply no_trivia_minus; discriminate|reflexivity]. Qed.
Lemma close_brace_type i r : delim (L " }" ++ r) /\ no_type_param i (L " }" ++ r) /\ no_arrow (L " }" ++ r).
Proof.
  split; [reflexivity|]. split.
  - apply no_param_space; [apply no_trivia_char; discriminate|reflexivity].
  - apply (no_arrow_blank (L " ")); [reflexivity|reflexivity|]. intros (s & E). discriminate E.
Qed.

Scheme wf_type_mind := Minimality for wf_type Sort Prop
  with wf_types_mind := Minimality for wf_types Sort Prop
  with wf_tfields_mind := Minimality for wf_tfields Sort Prop.
Combined Scheme wf_type_all from wf_type_mind, wf_types_mind, wf_tfields_mind.

Lemma print_types_ok :
  (forall t, wf_type t -> type_ok t) /\
  (forall ts, wf_types ts -> Forall type_ok ts) /\
  (forall fs, wf_tfields fs -> Forall (fun f => lower_name (fst f) /\ type_ok (snd f)) fs).
Proof.
  apply wf_type_all.
  - intros q args Hq _ IH Hp. split.
    + intros i r Hd Hn. cbn [print_type]. apply RTy_constructor; [exact Hq|apply delim_dotted, delim_spaced, Hd|].
      apply print_params; assumption.
    + intros Hi i r Hd. destruct args; [|contradiction].
      apply RParam_constant; [exact Hq|apply delim_dotted, Hd].
  - intros n Hn. apply simple_ok. intros i r Hd. apply RTy_variable; [exact Hn|].
    apply delim_ends; [exact Hd|reflexivity].
  - intros n fs Hn Hne _ IH. apply simple_ok. intros i r Hd. cbn [print_type].
    apply (RTy_extension i (L " ") i n (L " ") i (L " ") i fs _ (L " ") i);
      try exact (ge_space i); try exact Hn.
    apply print_tfields; [exact IH|exact Hne|apply (close_brace_type i)..].
  - intros fs _ IH. apply simple_ok. intros i r Hd. cbn [print_type]. destruct fs as [|f fs].
    + apply (RTy_record_empty i []), olay_nil.
    + apply (RTy_record i [] (f :: fs) _ []); [apply olay_nil| |apply olay_nil].
      apply (print_tfields (f :: fs) IH) with (z := L "}" ++ r);
        [discriminate|reflexivity|apply no_param_char; reflexivity|apply no_arrow_char; reflexivity].
  - intros ts _ IH. apply simple_ok. intros i r Hd. cbn [print_type]. destruct ts as [|t ts].
    + apply (RTy_unit i []), olay_nil.
    + apply (RTy_tuple i [] (t :: ts) _ []); [apply olay_nil| |apply olay_nil].
      apply (print_types (t :: ts) IH); [discriminate|reflexivity].
  - intros a b _ Ha _ Hb. apply simple_ok. intros i r Hd. cbn [print_type].
    apply (RTy_parens i [] a _ (L " ") (L " ") b (print_type b (L ")" ++ r)) [] r); auto with lay.
    + apply Ha; [reflexivity|apply no_param_arrow].
    + apply ann_of_type; [exact Hb|reflexivity|apply no_param_char; reflexivity|
        apply no_arrow_char; reflexivity].
  - constructor.
  - intros t ts _ Ht _ Hts. constructor; assumption.
  - constructor.
  - intros n t fs Hn _ Ht _ Hfs. constructor; auto.
Qed.

Definition print_type_ok := proj1 print_types_ok.

(** ** Expressions: what follows *)

Lemma term_no_operator i s r e : term i s = Ok r e -> no_operator s.
Proof.
  intros H (o & b & s' & -> & Ho & Hb). eapply term_some; [exact H|]. destruct Ho as [->|Ho].
  - apply (word_no_term (L "as") _ (b :: s')); [|simpl; auto 25]. split; [reflexivity|]. split; [reflexivity|].
    cbn [ends]. clear -Hb. chr.
  - change (o ++ b :: s') with (o ++ [b] ++ s'). apply (op_term_Err o (b :: s') Ho Hb).
Qed.

Lemma no_operator_head c s : is_op_char c = false -> c <> C "a" -> no_operator (c :: s).
Proof.
  intros H1 H2 (o & b & s' & E & Ho & Hb). destruct Ho as [->|(Hne & Ho & _)].
  - injection E as -> _. congruence.
  - destruct o as [|d o]; [congruence|]. injection E as -> _. simpl in Ho. rewrite H1 in Ho. discriminate Ho.
Qed.

Lemma no_operator_lower n r : lower_name n -> ends_lower n r -> no_operator (n ++ r).
Proof.
  intros Hn He (o & b & s' & E & Ho & Hb).
  destruct (lower_name_head n Hn) as (c & t & -> & Hc). destruct Ho as [->|(Hne & Ho & _)].
  - destruct He as [E'|He]; [rewrite E' in E; discriminate E|].
    assert (Hl : longest is_name_char (c :: t) ((c :: t) ++ r) r) by (apply lower_longest; assumption).
    assert (Hl' : longest is_name_char (L "as") ((c :: t) ++ r) (b :: s')).
    { split; [exact E|]. split; [reflexivity|]. cbn [ends]. clear -Hb. chr. }
    destruct (longest_unique _ _ _ _ _ _ Hl Hl') as [Ew _].
    apply (lower_not_reserved _ (L "as") Hn); [simpl; auto 25|exact Ew].
  - destruct o as [|d o]; [congruence|]. injection E as -> _. simpl in Ho.
    apply andb_true_iff in Ho as [Ho _]. clear -Hc Ho.
    destruct Hc as [->|Hc]; [discriminate Ho|].
    assert (H : is_lower d = false) by opc Ho. congruence.
Qed.

Lemma no_operator_reserved o r : In o reserved_operators -> ends is_op_char r -> no_operator (o ++ r).
Proof.
  intros Hin Hr (p & b & s' & E & Hp & Hb).
  assert (Ho : forallb is_op_char o = true).
  { simpl in Hin. repeat (destruct Hin as [<-|Hin]; [reflexivity|]). contradiction. }
  destruct Hp as [->|(Hne & Hp & Hnr)].
  - destruct o as [|c o]; [simpl in Hin; repeat (destruct Hin as [X|Hin]; [discriminate X|]); contradiction|].
    injection E as -> _. discriminate Ho.
  - assert (Hl : longest is_op_char o (o ++ r) r) by (repeat split; assumption).
    assert (Hl' : longest is_op_char p (o ++ r) (b :: s')).
    { split; [exact E|]. split; [exact Hp|]. cbn [ends]. clear -Hb. chr. }
    destruct (longest_unique _ _ _ _ _ _ Hl Hl') as [Ew _]. congruence.
Qed.

(** what may follow a printed expression *)
Definition eclose (r : str) : Prop := delim r /\ no_arg 0 r /\ no_infix 0 r.

Lemma eclose_char c r : mem_char c (L "),]}") = true -> eclose (c :: r).
Proof.
  intros H. assert (Ht : trivia_run (c :: r) [] (c :: r)).
  { apply trivia_run_nil, no_trivia_char; clear -H; intros ->; discriminate H. }
  split; [cbn [delim]; clear -H; chr|]. split; exists [], (c :: r); auto.
Qed.

Lemma eclose_space y : no_trivia y -> no_term y -> no_operator y -> eclose (L " " ++ y).
Proof.
  intros H1 H2 H3. assert (Ht : trivia_run (L " " ++ y) (L " ") y).
  { apply trivia_run_intro; [repeat constructor|reflexivity|exact H1]. }
  split; [reflexivity|]. split; exists (L " "), y; auto.
Qed.

Lemma eclose_newline y : no_trivia y -> no_operator y -> eclose ([newline] ++ y).
Proof.
  intros H1 H3. assert (Ht : trivia_run ([newline] ++ y) [newline] y).
  { apply trivia_run_intro; [repeat constructor|reflexivity|exact H1]. }
  split; [reflexivity|]. split; exists [newline], y; (split; [exact Ht|]); [|auto].
  right. left. split; [reflexivity|]. cbn. lia.
Qed.

Lemma eclose_word w y : In w [L "in"; L "then"; L "else"; L "of"] -> eclose (L " " ++ w ++ L " " ++ y).
Proof.
  intros H. apply eclose_space.
  - simpl in H. repeat (destruct H as [<-|H]; [apply no_trivia_char; discriminate|]). contradiction.
  - eapply (word_no_term w).
    + simpl in H. repeat (destruct H as [<-|H]; [repeat split; reflexivity|]). contradiction.
    + simpl in H. simpl. tauto.
  - simpl in H. repeat (destruct H as [<-|H]; [apply no_operator_head; [reflexivity|discriminate]|]).
    contradiction.
Qed.

Lemma eclose_equals y : eclose (L " = " ++ y).
Proof.
  apply (eclose_space (L "= " ++ y)).
  - apply no_trivia_char; discriminate.
  - apply never_no_term. reflexivity.
  - apply (no_operator_reserved (L "=") (L " " ++ y)); [simpl; auto|reflexivity].
Qed.
Lemma eclose_arrow y : eclose (L " -> " ++ y).
Proof.
  apply (eclose_space (L "-> " ++ y)).
  - apply no_trivia_arrow.
  - repeat split; try reflexivity; try discriminate.
  - apply (no_operator_reserved (L "->") (L " " ++ y)); [simpl; auto|reflexivity].
Qed.
Lemma eclose_brace y : eclose (L " }" ++ y).
Proof.
  apply (eclose_space (L "}" ++ y)).
  - apply no_trivia_char; discriminate.
  - apply never_no_term. reflexivity.
  - apply no_operator_head; [reflexivity|discriminate].
Qed.
Lemma eclose_paren y : eclose (L " )" ++ y).
Proof.
  apply (eclose_space (L ")" ++ y)).
  - apply no_trivia_char; discriminate.
  - apply never_no_term. reflexivity.
  - apply no_operator_head; [reflexivity|discriminate].
Qed.

(** ** Expressions *)

Lemma is_word_lower n : lower_name n -> is_word n = true.
Proof.
  intros H. destruct (lower_name_head n H) as (c & t & -> & Hc). cbn [is_word].
  destruct Hc as [->|Hc]; [reflexivity|clear -Hc; chr].
Qed.
Lemma is_word_upper n : upper_name n -> is_word n = true.
Proof. intros (c & t & -> & Hc & _). cbn [is_word]. clear -Hc. chr. Qed.
Lemma is_word_operator n : operator_name n -> is_word n = false.
Proof.
  intros (Hne & Ho & _). destruct n as [|c n]; [reflexivity|]. simpl in Ho.
  apply andb_true_iff in Ho as [Hc _]. cbn [is_word]. opc Hc.
Qed.
Lemma is_word_commas n : commas n -> is_word n = false.
Proof.
  intros (Hne & Ho). destruct n as [|c n]; [reflexivity|]. simpl in Ho.
  apply andb_true_iff in Ho as [Hc _]. cbn [is_word]. clear -Hc. chr.
Qed.

Lemma print_var e r : wf_var e -> ends_dotted r -> RVar e (print_expr e r) r.
Proof.
  intros [(n & -> & Hn)|(q & -> & Hq)] Hr; cbn [print_expr].
  - cbn [print_variable]. unfold print_name. destruct Hn as [Hn|[Hn|Hn]].
    + rewrite (is_word_lower n Hn). apply RVar_lower; [exact Hn|right; apply Hr].
    + rewrite (is_word_operator n Hn). apply RVar_operator, Hn.
    + rewrite (is_word_commas n Hn). apply RVar_commas; apply Hn.
  - assert (E : print_variable q r = dotted q ++ r).
    { destruct q as [|n [|m q]]; try reflexivity. unfold print_variable, print_name.
      destruct Hq as [_ Hq]. inversion Hq as [|? ? Hn _]; subst. rewrite (is_word_upper n Hn). reflexivity. }
    rewrite E. apply RVar_upper; assumption.
Qed.

Lemma print_access fs r : fs <> [] -> Forall lower_name fs -> delim r ->
  RAccess fs (fold_right (fun f k => L "." ++ f ++ k) r fs) r.
Proof.
  intros Hne H Hr. induction H as [|f fs Hf Hfs IH]; [congruence|]. destruct fs as [|g fs].
  - apply RAccess_one; [exact Hf|apply delim_lower, Hr|apply delim_no_access, Hr].
  - apply (RAccess_cons f (g :: fs)); [exact Hf|]. apply IH. discriminate.
Qed.

Lemma access_dotted fs r : fs <> [] -> Forall lower_name fs ->
  ends_dotted (fold_right (fun f k => L "." ++ f ++ k) r fs).
Proof.
  intros Hne H. destruct H as [|f fs Hf _]; [congruence|]. cbn [fold_right]. split; [reflexivity|].
  intros (n & r' & E & (c & t & -> & Hc & _)). destruct (lower_name_head f Hf) as (d & t' & -> & Hd).
  injection E as -> _. clear -Hc Hd. destruct Hd as [->|Hd]; [discriminate Hc|chr].
Qed.

Lemma print_name_ok n r : def_name n -> delim r -> RName n (print_name n r) r.
Proof.
  intros [Hn|Hn] Hr; unfold print_name.
  - rewrite (is_word_lower n Hn). apply RName_lower; [exact Hn|apply delim_lower, Hr].
  - rewrite (is_word_operator n Hn). apply RName_operator, Hn.
Qed.

(** the beginning of a printed name *)
Definition starts (s : str) : Prop := no_trivia s /\ no_operator s.

Lemma starts_char c s : mem_char c (L "([{") = true -> starts (c :: s).
Proof.
  intros H. split.
  - apply no_trivia_char; clear -H; intros ->; discriminate H.
  - apply no_operator_head; [clear -H; chr|clear -H; intros ->; discriminate H].
Qed.
Lemma starts_lower n r : lower_name n -> ends_lower n r -> starts (n ++ r).
Proof.
  intros H1 H2. split; [apply lower_no_trivia, H1|apply no_operator_lower; assumption].
Qed.
Lemma starts_name n r : def_name n -> delim r -> starts (print_name n r).
Proof.
  intros [Hn|Hn] Hr; unfold print_name.
  - rewrite (is_word_lower n Hn). apply starts_lower; [exact Hn|apply delim_lower, Hr].
  - rewrite (is_word_operator n Hn). apply starts_char. reflexivity.
Qed.

Definition term_at (e : expr) : Prop := forall r, delim r -> RTerm 0 e (print_expr e r) r.

Lemma expr_at e r : term_at e -> eclose r -> RE 0 e (print_expr e r) r.
Proof. intros He (H1 & H2 & H3). apply RE_app; [apply RApp_term, He, H1|exact H2|exact H3]. Qed.

Lemma starts_term e r : term_at e -> delim r -> starts (print_expr e r).
Proof.
  intros He Hr. specialize (He r Hr). apply complete_term in He.
  split; [eapply term_no_trivia|eapply term_no_operator]; eassumption.
Qed.

Lemma parens_at e s r : RE 0 e s (L ")" ++ r) -> RTerm 0 e (L "(" ++ s) r.
Proof. apply RTerm_parens. Qed.

Lemma print_elems es : Forall term_at es -> es <> [] -> forall c r, mem_char c (L "),]}") = true ->
  RElems 0 es (sep_with (L ", ") print_expr es (c :: r)) (c :: r).
Proof.
  induction 1 as [|e es He Hes IH]; [congruence|]. intros _ c r Hc. destruct es as [|e' es].
  - apply RElems_one, expr_at; [exact He|apply eclose_char, Hc].
  - cbn [sep_with]. eapply (RElems_cons 0 e _ [] (L " ")); auto with lay.
    + apply expr_at; [exact He|apply eclose_char; reflexivity].
    + apply IH; [discriminate|exact Hc].
Qed.

Lemma print_tuple es : Forall term_at es -> es <> [] -> forall b r, blanks b ->
  RTupleElems 0 es (b ++ sep_with (L ", ") print_expr es (L ")" ++ r)) (L ")" ++ r).
Proof.
  induction 1 as [|e es He Hes IH]; [congruence|]. intros _ b r Hb. destruct es as [|e' es].
  - apply (RTupleElems_one 0 b e _ []); [exact Hb| |apply blanks_nil].
    apply expr_at; [exact He|apply eclose_char; reflexivity].
  - cbn [sep_with]. eapply (RTupleElems_cons 0 b e _ []).
    + exact Hb.
    + apply expr_at; [exact He|apply eclose_char; reflexivity].
    + apply blanks_nil.
    + discriminate.
    + apply (IH ltac:(discriminate) (L " ") r blanks_space).
Qed.

Definition print_field (f : str * expr) (r : str) : str := fst f ++ L " = " ++ print_expr (snd f) r.

Lemma print_fields fs : Forall (fun f => lower_name (fst f) /\ term_at (snd f)) fs -> fs <> [] ->
  forall z, eclose z -> RFields 0 fs (sep_with (L ", ") print_field fs z) z.
Proof.
  induction 1 as [|[n e] fs [Hn He] Hfs IH]; [congruence|]. intros _ z Hz. cbn [fst snd] in *.
  assert (Hf : forall z, eclose z -> RField 0 n e (n ++ L " = " ++ print_expr e z) z).
  { intros. apply (RField_intro 0 n (L " ") (L " ")); auto with lay. apply expr_at; assumption. }
  destruct fs as [|f fs].
  - apply RFields_one, Hf, Hz.
  - cbn [sep_with]. eapply (RFields_cons 0 n e _ [] (L " ")); auto with lay.
    + apply Hf, eclose_char. reflexivity.
    + apply IH; [discriminate|exact Hz].
Qed.

Lemma print_updates fs : Forall (fun f => lower_name (fst f) /\ term_at (snd f)) fs -> fs <> [] ->
  forall z, eclose z -> RUpdates 0 fs (sep_with (L ", ") print_field fs z) z.
Proof.
  induction 1 as [|[n e] fs [Hn He] Hfs IH]; [congruence|]. intros _ z Hz. cbn [fst snd] in *.
  assert (Hf : forall z, eclose z -> RUpdate 0 n e (n ++ L " = " ++ print_expr e z) z).
  { intros. apply (RUpdate_intro 0 n (L " ") (L " ")); auto with lay. apply expr_at; assumption. }
  destruct fs as [|f fs].
  - apply RUpdates_one, Hf, Hz.
  - cbn [sep_with]. eapply (RUpdates_cons 0 n e _ [] (L " ")); auto with lay.
    + apply Hf, eclose_char. reflexivity.
    + apply IH; [discriminate|exact Hz].
Qed.

Lemma print_lamargs es : Forall term_at es -> es <> [] -> forall z, delim z ->
  RLamArgs 0 es (sep_with (L " ") print_expr es z) z.
Proof.
  induction 1 as [|e es He Hes IH]; [congruence|]. intros _ z Hz. destruct es as [|e' es].
  - apply RLamArgs_one, He, Hz.
  - cbn [sep_with]. eapply (RLamArgs_cons 0 e _ (L " ")); auto with lay.
    + apply He. reflexivity.
    + apply IH; [discriminate|exact Hz].
Qed.

Lemma print_defargs es : Forall term_at es -> forall z, delim z ->
  RDefArgs 0 es (spaced print_expr es z) z.
Proof.
  induction 1 as [|e es He Hes IH]; intros z Hz; [constructor|].
  cbn [spaced]. eapply (RDefArgs_cons 0 (L " ")); [apply spaces1_space| |apply IH, Hz].
  apply He, delim_spaced, Hz.
Qed.

Definition print_branch (b : expr * expr) (r : str) : str :=
  print_expr (fst b) (L " -> " ++ print_expr (snd b) r).

Lemma lay_newline (R : N -> N -> Prop) i : R 0%N i -> lay R i [newline] 0.
Proof.
  intros H. split; [repeat constructor|]. split; [reflexivity|]. split; [discriminate|].
  split; [intros _; exact H|reflexivity].
Qed.
Lemma eq_newline : lay_eq 0 [newline] 0.
Proof. apply lay_newline. reflexivity. Qed.

Lemma print_branches bs : Forall (fun b => term_at (fst b) /\ term_at (snd b)) bs -> bs <> [] ->
  forall r, RBranches 0 bs (sep_with [newline] print_branch bs (L ")" ++ r)) (L ")" ++ r).
Proof.
  induction 1 as [|[p e] bs [Hp He] Hbs IH]; [congruence|]. intros _ r. cbn [fst snd] in *.
  assert (Hb : forall z, eclose z -> RBranch 0 p e (print_expr p (L " -> " ++ print_expr e z)) z).
  { intros z Hz. apply (RBranch_intro 0 p _ (L " ") 0%N (L " ") 0%N e (print_expr e z)); auto with lay.
    - apply expr_at; [exact Hp|apply eclose_arrow].
    - apply expr_at; [exact He|exact Hz]. }
  destruct bs as [|[p' e'] bs].
  - apply RBranches_one; [apply Hb, eclose_char; reflexivity|].
    eapply RNoBranch_layout; [apply trivia_run_nil, no_trivia_char; discriminate|auto].
  - cbn [sep_with]. eapply (RBranches_cons 0 p e _ [newline]); [|apply eq_newline|apply IH; discriminate].
    apply Hb, eclose_newline.
    + inversion Hbs as [|? ? [Hp' _] _]; subst. cbn [fst] in Hp'.
      destruct bs; apply (starts_term p' _ Hp'); reflexivity.
    + inversion Hbs as [|? ? [Hp' _] _]; subst. cbn [fst] in Hp'.
      destruct bs; apply (starts_term p' _ Hp'); reflexivity.
Qed.

Definition print_target (e : expr) (r : str) : str :=
  match e with
  | Record_ fs => L "{" ++ sep_with (L ", ") (fun f r => fst f ++ r) fs (L "}" ++ r)
  | _ => print_expr e r
  end.

Lemma print_binding t e r : print_entry (LetBinding t e) r = print_target t (L " = " ++ print_expr e r).
Proof. destruct t; reflexivity. Qed.

Lemma print_names fs : Forall name_field fs -> fs <> [] -> forall b r, blanks b ->
  RNames fs (b ++ sep_with (L ", ") (fun f r => fst f ++ r) fs (L "}" ++ r)) r.
Proof.
  induction 1 as [|[n e] fs [Hn He] Hfs IH]; [congruence|]. intros _ b r Hb. cbn [fst snd] in *. subst e.
  destruct fs as [|f fs].
  - apply (RNames_one b n []); auto with lay.
  - cbn [sep_with fst]. apply (RNames_cons b n [] (f :: fs)); auto with lay.
    apply (IH ltac:(discriminate) (L " ") r blanks_space).
Qed.

(** let entries *)
Definition entry_at (x : let_entry) : Prop :=
  (forall r, eclose r -> REntry 0 x (print_entry x r) r) /\
  (forall r, eclose r -> starts (print_entry x r)).

Lemma print_entries es : Forall entry_at es -> es <> [] -> forall z, eclose z ->
  REntries 0 es (sep_with [newline] print_entry es z) z /\
  starts (sep_with [newline] print_entry es z).
Proof.
  induction 1 as [|e es [He Hs] Hes IH]; [congruence|]. intros _ z Hz. destruct es as [|e' es].
  - split; [apply REntries_one, He, Hz|apply Hs, Hz].
  - destruct (IH ltac:(discriminate) z Hz) as [IH1 [IH2 IH3]].
    change (sep_with [newline] print_entry (e :: e' :: es) z)
      with (print_entry e ([newline] ++ sep_with [newline] print_entry (e' :: es) z)).
    assert (Hc : eclose ([newline] ++ sep_with [newline] print_entry (e' :: es) z))
      by (apply eclose_newline; assumption).
    split; [|apply Hs, Hc].
    eapply (REntries_cons 0 e _ [newline]); [apply He, Hc|apply eq_newline|exact IH1].
Qed.


Lemma name_head n r : def_name n -> ends is_op_char (print_name n r).
Proof.
  intros [Hn|Hn]; unfold print_name.
  - rewrite (is_word_lower n Hn). destruct (lower_name_head n Hn) as (c & t & -> & Hc). cbn [app ends].
    destruct Hc as [->|Hc]; [reflexivity|]. destruct (is_op_char c) eqn:E; [|reflexivity].
    assert (H : is_lower c = false) by opc E. congruence.
  - rewrite (is_word_operator n Hn). reflexivity.
Qed.

Definition func_ok (f : func) : Prop :=
  forall r, eclose r -> RFunc 0 f (print_function f r) r /\ starts (print_function f r) /\
    ends is_op_char (print_function f r).

Lemma def_ok n args e r : def_name n -> Forall term_at args -> term_at e -> eclose r ->
  RDef 0 (mkDef n args e) (print_definition (mkDef n args e) r) r /\
  starts (print_definition (mkDef n args e) r) /\
  ends is_op_char (print_definition (mkDef n args e) r).
Proof.
  intros Hn Ha He Hr. cbn [print_definition].
  assert (Hd : delim (spaced print_expr args (L " = " ++ print_expr e r))) by (apply delim_spaced; reflexivity).
  split; [|split; [apply starts_name; assumption|apply name_head, Hn]].
  eapply (RDef_intro 0 n _ args _ (L " ") (L " ") 0 e (print_expr e r)); auto with lay.
  - apply print_name_ok; assumption.
  - apply print_defargs; [exact Ha|reflexivity].
  - apply expr_at; assumption.
Qed.

Lemma newline_type i y : no_trivia y -> ends is_op_char y ->
  no_type_param i ([newline] ++ y) /\ no_arrow ([newline] ++ y).
Proof.
  intros H1 H2. split.
  - exists [newline], y. split; [apply trivia_run_intro; [repeat constructor|reflexivity|exact H1]|].
    right. left. split; [reflexivity|]. cbn. lia.
  - apply no_arrow_blank; [reflexivity| |].
    + destruct y as [|c y]; [exact I|]. cbn [ends]. destruct H1 as (A & B & _). clear -A B. chr.
    + intros (s & ->). discriminate H2.
Qed.

Lemma print_sig_ok s y : wf_sig s -> no_trivia y -> ends is_op_char y ->
  RSig 0 s (print_signature s ([newline] ++ y)) ([newline] ++ y).
Proof.
  intros [Hn Ht] H1 H2. destruct s as [n t]. cbn [sig_name sig_type] in *. unfold print_signature.
  cbn [sig_name sig_type].
  destruct (newline_type 0 y H1 H2) as [H3 H4].
  eapply (RSig_intro 0 n _ (L " ") (L " ") 0%N t (print_type t ([newline] ++ y))); auto with lay.
  - apply print_name_ok; [exact Hn|reflexivity].
  - apply ann_of_type; [apply print_type_ok, Ht|reflexivity|exact H3|exact H4].
Qed.

Scheme wf_expr_mind := Minimality for wf_expr Sort Prop
  with wf_exprs_mind := Minimality for wf_exprs Sort Prop
  with wf_fields_mind := Minimality for wf_fields Sort Prop
  with wf_branches_mind := Minimality for wf_branches Sort Prop
  with wf_entries_mind := Minimality for wf_entries Sort Prop
  with wf_entry_mind := Minimality for wf_entry Sort Prop
  with wf_func_mind := Minimality for wf_func Sort Prop.
Combined Scheme wf_expr_all from wf_expr_mind, wf_exprs_mind, wf_fields_mind, wf_branches_mind,
  wf_entries_mind, wf_entry_mind, wf_func_mind.

(** a term, and the target of a let binding *)
Definition expr_ok (e : expr) : Prop :=
  term_at e /\ (is_target e -> forall r, delim r -> RTarget 0 e (print_target e r) r).

Lemma not_target e : term_at e -> ~ is_target e -> expr_ok e.
Proof. intros H1 H2. split; [exact H1|]. intros H. contradiction. Qed.

Lemma forall_term es : Forall expr_ok es -> Forall term_at es.
Proof. apply Forall_impl. intros e [H _]. exact H. Qed.

Ltac no_target :=
  apply not_target; [|intros [[(?n & ?E & _)|(?q & ?E & _)]|[(?x & ?E)|[(?x & ?E)|(?x & ?E & _)]]];
    discriminate].

Lemma print_exprs_ok :
  (forall e, wf_expr e -> expr_ok e) /\
  (forall es, wf_exprs es -> Forall expr_ok es) /\
  (forall fs, wf_fields fs -> Forall (fun f => lower_name (fst f) /\ expr_ok (snd f)) fs) /\
  (forall bs, wf_branches bs -> Forall (fun b => expr_ok (fst b) /\ expr_ok (snd b)) bs) /\
  (forall es, wf_entries es -> Forall entry_at es) /\
  (forall x, wf_entry x -> entry_at x) /\
  (forall f, wf_func f -> func_ok f).
Proof.
  assert (Hfields : forall fs, Forall (fun f => lower_name (fst f) /\ expr_ok (snd f)) fs ->
            Forall (fun f => lower_name (fst f) /\ term_at (snd f)) fs).
  { intros fs. apply Forall_impl. intros f [H1 [H2 _]]. auto. }
  apply wf_expr_all.
  - intros c. no_target. intros r Hr. apply (RTerm_char 0 [c] c). constructor.
  - intros s Hs. no_target. intros r Hr. cbn [print_expr]. unfold print_string.
    destruct (existsb (N.eqb quote) s) eqn:E.
    + apply existsb_exists in E as (x & Hx & E). apply N.eqb_eq in E. subst x.
      destruct Hs as [Hs|Hs]; [contradiction|]. apply RTerm_string; [exact Hs|].
      intros (r' & c & H & _). destruct s as [|c0 s]; [contradiction|]. injection H as H. subst c0.
      inversion Hs; subst; congruence.
    + assert (Hq : no_quote s).
      { intros Hin. assert (E' : existsb (N.eqb quote) s = true)
          by (apply existsb_exists; exists quote; split; [exact Hin|reflexivity]). congruence. }
      apply (RTerm_multi_string 0 s r Hq).
  - intros s Hs. no_target. intros r Hr. apply RTerm_integer; [exact Hs|apply delim_integer, Hr].
  - intros s Hs. no_target. intros r Hr. apply RTerm_float; [exact Hs|apply delim_ends; [exact Hr|reflexivity]].
  - intros e He. assert (Hv : forall r, delim r -> RVar e (print_expr e r) r).
    { intros r Hr. apply print_var; [exact He|apply delim_dotted, Hr]. }
    split.
    + intros r Hr. apply RTerm_var; [apply Hv, Hr|apply delim_no_access, Hr].
    + intros _ r Hr.
      assert (E : print_target e r = print_expr e r)
        by (destruct He as [(n & -> & _)|(q & -> & _)]; reflexivity).
      rewrite E. apply RTarget_var, Hv, Hr.
  - intros es _ IH. apply forall_term in IH.
    assert (H : forall r, RList 0 (List_ es) (print_expr (List_ es) r) r).
    { intros r. cbn [print_expr]. destruct es as [|e es].
      - apply (RList_empty 0 []), olay_nil.
      - apply (RList_some 0 [] (e :: es) _ []); [apply olay_nil| |apply olay_nil].
        apply (print_elems (e :: es) IH); [discriminate|reflexivity]. }
    split; [intros r _; apply RTerm_list, H|intros _ r _; apply RTarget_list, H].
  - intros es _ IH. apply forall_term in IH. split.
    + intros r Hr. destruct es as [|e [|e' es]].
      * apply RTerm_tuple; [apply RTupleElems_nil|discriminate].
      * inversion IH as [|? ? He _]; subst. apply (RTerm_tuple_one 0 (L " ") e _ (L " ")); auto with lay.
        -- apply expr_at; [exact He|apply eclose_paren].
        -- discriminate.
      * apply RTerm_tuple; [|discriminate].
        apply (print_tuple (e :: e' :: es) IH ltac:(discriminate) []). reflexivity.
    + intros _ r Hr. destruct es as [|e [|e' es]].
      * apply RTarget_tuple, RTupleElems_nil.
      * inversion IH as [|? ? He _]; subst. apply RTarget_tuple.
        apply (RTupleElems_one 0 (L " ") e _ (L " ")); auto with lay.
        apply expr_at; [exact He|apply eclose_paren].
      * apply RTarget_tuple.
        apply (print_tuple (e :: e' :: es) IH ltac:(discriminate) []). reflexivity.
  - intros e fs He Hne Hfs. no_target. intros r Hr. cbn [print_expr].
    apply (RTerm_access 0 e _ fs (fold_right (fun f k => L "." ++ f ++ k) r fs)).
    + apply print_var; [exact He|apply access_dotted; assumption].
    + apply print_access; assumption.
  - intros n Hn. no_target. intros r Hr. apply RTerm_access_function; [exact Hn|apply delim_lower, Hr].
  - intros fs _ IH. apply Hfields in IH. split.
    + intros r Hr. destruct fs as [|f fs]; [apply (RTerm_record_empty 0 []), olay_nil|].
      apply (RTerm_record 0 [] (f :: fs) _ []); [apply olay_nil| |apply olay_nil].
      apply (print_fields (f :: fs) IH ltac:(discriminate) (L "}" ++ r)), eclose_char. reflexivity.
    + intros Ht r Hr.
      assert (Hn : Forall name_field fs).
      { destruct Ht as [[(n & E & _)|(q & E & _)]|[(x & E)|[(x & E)|(x & E & H)]]]; try discriminate.
        injection E as ->. exact H. }
      destruct fs as [|f fs]; [apply RTarget_no_names|]. apply RTarget_names.
      apply (print_names (f :: fs) Hn ltac:(discriminate) []). reflexivity.
  - intros n fs Hn _ IH. apply Hfields in IH. no_target. intros r Hr. destruct fs as [|f fs].
    + apply (RTerm_update_empty 0 [] n (L " ") (L " ") [newline] 0); auto with lay.
      split; [apply (trivia_comment []); [reflexivity|reflexivity|repeat constructor]|].
      split; [reflexivity|]. split; [discriminate|]. split; [|reflexivity]. intros _. cbn. lia.
    + apply (RTerm_update 0 [] n (L " ") (L " ") (f :: fs) _ (L " ") 0); auto with lay.
      apply (print_updates (f :: fs) IH ltac:(discriminate) (L " }" ++ r)), eclose_brace.
  - intros c t e _ [Hc _] _ [Ht _] _ [He _]. no_target. intros r Hr. apply parens_at.
    apply (RE_if 0 (L " ") 0 c _ (L " ") 0 (L " ") 0 t
             (print_expr t (L " else " ++ print_expr e (L ")" ++ r))) (L " ") 0 (L " ") 0 e
             (print_expr e (L ")" ++ r))); auto with lay.
    + apply expr_at; [exact Hc|apply (eclose_word (L "then")); simpl; auto].
    + apply expr_at; [exact Ht|apply (eclose_word (L "else")); simpl; auto].
    + apply expr_at; [exact He|apply eclose_char; reflexivity].
  - intros es e Hne _ IH _ [He _]. no_target. intros r Hr. apply parens_at.
    apply (RE_let 0 (L " ") 0 es _ (L " ") 0 (L " ") 0 e (print_expr e (L ")" ++ r))); auto with lay.
    + apply print_entries; [exact IH|exact Hne|apply (eclose_word (L "in")); simpl; auto].
    + apply expr_at; [exact He|apply eclose_char; reflexivity].
  - intros e bs _ [He _] Hne _ IH. no_target. intros r Hr. apply parens_at.
    apply (RE_case 0 (L " ") 0 e _ (L " ") 0 (L " ") 0 bs
             (sep_with [newline] print_branch bs (L ")" ++ r))); auto with lay.
    + apply expr_at; [exact He|apply (eclose_word (L "of")); simpl; auto].
    + apply print_branches; [|exact Hne]. revert IH. apply Forall_impl. intros b [[H1 _] [H2 _]]. auto.
  - intros args e Hne _ IH _ [He _]. apply forall_term in IH. no_target. intros r Hr. apply parens_at.
    apply (RE_lambda 0 args _ (L " ") 0 (L " ") 0 e (print_expr e (L ")" ++ r))); auto with lay.
    + apply print_lamargs; [exact IH|exact Hne|reflexivity].
    + apply expr_at; [exact He|apply eclose_char; reflexivity].
  - intros f x _ [Hf _] _ [Hx _]. no_target. intros r Hr. apply parens_at.
    apply RE_app; [|apply eclose_char; reflexivity..].
    apply (RApp_app 0 f _ (L " ") 0 x (print_expr x (L ")" ++ r))); auto with lay.
    + apply RApp_term, Hf. reflexivity.
    + apply Hx. reflexivity.
  - intros o a b Ho _ [Ha _] _ [Hb _]. no_target. intros r Hr. apply parens_at.
    apply (RE_binop 0 a _ (L " ") 0 o (L " ") b (print_expr b (L ")" ++ r))); auto with lay.
    + apply RApp_term, Ha. reflexivity.
    + apply expr_at; [exact Hb|apply eclose_char; reflexivity].
  - constructor.
  - intros; constructor; assumption.
  - constructor.
  - intros; constructor; auto.
  - constructor.
  - intros; constructor; auto.
  - constructor.
  - intros; constructor; auto.
  - intros x e Ht _ [Hx Hx2] _ [He _]. specialize (Hx2 Ht). split.
    + intros r Hr. rewrite print_binding.
      apply (REntry_binding 0 x _ (L " ") 0 (L " ") 0 e (print_expr e r)); auto with lay.
      * apply Hx2. reflexivity.
      * apply expr_at; assumption.
    + intros r Hr. rewrite print_binding.
      destruct x; try (apply starts_term; [exact Hx|reflexivity]). apply starts_char. reflexivity.
  - intros sg n args e Hne _ IH. split; intros r Hr; destruct (IH r Hr) as (H1 & H2 & _); [|exact H2].
    destruct sg as [sg|].
    + apply REntry_function_sig, H1.
    + apply REntry_function; [destruct Hne; [congruence|assumption]|]. inversion H1; subst. assumption.
  - intros sg n args e Hsg Hn _ IH _ [He _]. apply forall_term in IH. intros r Hr.
    destruct (def_ok n args e r Hn IH He Hr) as (H1 & H2 & H3). destruct sg as [sg|].
    + cbn [print_function]. split; [|split].
      * eapply (RFunc_sig 0 sg _ []); [|reflexivity|reflexivity|exact H1].
        apply print_sig_ok; [exact Hsg|apply H2|exact H3].
      * apply starts_name; [apply Hsg|reflexivity].
      * apply name_head, Hsg.
    + cbn [print_function]. split; [apply RFunc_plain, H1|]. split; assumption.
Qed.

Definition print_expr_ok := proj1 print_exprs_ok.
Definition print_function_ok : forall f, wf_func f -> func_ok f :=
  proj2 (proj2 (proj2 (proj2 (proj2 (proj2 print_exprs_ok))))).

(** ** Statements: what follows *)

(** the beginning of a statement other than a line comment *)
Definition plain (s : str) : Prop := no_operator s /\ ends is_op_char s.

(** what follows a printed statement: nothing, or a line feed and more
    statements *)
Definition follow (r : str) : Prop :=
  (r = [] \/ exists y, r = newline :: y /\ ends is_space_or_newline y /\ ~ exists s, y = L "->" ++ s) /\
  exists t r', trivia_run r t r' /\ (t = [] \/ has_newline t = true) /\ (forall i, t <> [] -> width i t = 0%N) /\
    plain r'.

Lemma follow_nil : follow [].
Proof.
  split; [left; reflexivity|]. exists [], []. split; [apply trivia_run_nil; exact I|].
  split; [auto|]. split; [congruence|]. split; [|exact I].
  intros (o & b & s & E & _). destruct o; discriminate E.
Qed.

Lemma plain_no_trivia s : ends is_space_or_newline s -> ends is_op_char s -> no_trivia s.
Proof.
  destruct s as [|c s]; [intros; exact I|]. cbn [ends]. intros H1 H2. apply no_trivia_char.
  - intros ->. discriminate H1.
  - intros ->. discriminate H1.
  - intros ->. discriminate H2.
Qed.

Lemma follow_plain s : ends is_space_or_newline s -> plain s -> follow ([newline] ++ s).
Proof.
  intros H1 [H2 H3]. split.
  - right. exists s. split; [reflexivity|]. split; [exact H1|]. intros (x & ->). discriminate H3.
  - exists [newline], s. split.
    + apply trivia_run_intro; [repeat constructor|reflexivity|apply plain_no_trivia; assumption].
    + split; [auto|]. split; [reflexivity|]. split; assumption.
Qed.

Lemma follow_run_nil r t r' : follow r -> trivia_run r t r' -> t = [] -> r = [] /\ r' = [].
Proof.
  intros [[->|(y & -> & _)] _] (E & _ & Hn & _) ->; cbn [app] in E; subst r'; [auto|].
  destruct Hn as (_ & Hn & _). congruence.
Qed.

(** a line comment before what follows *)
Lemma comment_run c r t r' : forallb not_newline c = true -> follow r -> trivia_run r t r' ->
  (t = [] \/ has_newline t = true) -> (forall i, t <> [] -> width i t = 0%N) ->
  trivia_run (L "--" ++ c ++ r) (L "--" ++ c ++ t) r' /\
  (forall i b, width i (b ++ L "--" ++ c ++ t) = 0%N).
Proof.
  intros Hc Hf Ht Hnl Hw. pose proof Ht as (E & H1 & H2 & H3).
  assert (Hc' : has_newline (L "--" ++ c) = false) by (apply not_newline_no_newline; exact Hc).
  assert (Hle : line_end t).
  { destruct t as [|d t]; [exact I|]. destruct Hf as [[->|(y & -> & _)] _]; [discriminate E|].
    injection E as <- _. reflexivity. }
  destruct (list_eq_dec N.eq_dec t []) as [->|Hne].
  - destruct (follow_run_nil _ _ _ Hf Ht eq_refl) as [-> ->]. split.
    + split; [symmetry; apply app_nil_r|]. split; [apply trivia_comment; assumption|]. auto.
    + intros i b. rewrite app_nil_r. unfold width.
      rewrite last_line_app_plain by exact Hc'. unfold all_spaces. rewrite forallb_app.
      cbn. rewrite andb_false_r. reflexivity.
  - destruct Hnl as [Hnl|Hnl]; [congruence|].
    assert (Hll : forall b, last_line (b ++ t) = last_line t) by (intros; apply last_line_app_newline, Hnl).
    split.
    + subst r. split; [rewrite <- !app_assoc; reflexivity|].
      split; [apply trivia_comment; assumption|]. split; [exact H2|].
      rewrite app_assoc, Hll. exact H3.
    + intros i b. specialize (Hw i Hne). unfold width in *. rewrite !app_assoc, Hll.
      rewrite has_newline_app, Hnl, orb_true_r in *. exact Hw.
Qed.

Lemma follow_comment c r : forallb not_newline c = true -> follow r ->
  follow ([newline] ++ L "--" ++ c ++ r).
Proof.
  intros Hc Hf. pose proof Hf as [_ (t & r' & Ht & Hnl & Hw & Hp)].
  destruct (comment_run c r t r' Hc Hf Ht Hnl Hw) as [(E & H1 & H2 & H3) Hw'].
  split.
  - right. eexists. split; [reflexivity|]. split; [reflexivity|]. intros (s & E'). discriminate E'.
  - exists (newline :: L "--" ++ c ++ t), r'. split.
    + split; [rewrite E; reflexivity|]. split; [apply trivia_newline, H1|]. split; [exact H2|].
      destruct H3 as [H3|H3]; [left|right; exact H3].
      destruct (has_newline (L "--" ++ c ++ t)) eqn:En.
      * change (newline :: L "--" ++ c ++ t) with ([newline] ++ (L "--" ++ c ++ t)).
        rewrite last_line_app_newline by exact En. exact H3.
      * rewrite last_line_no_newline in H3 by exact En. discriminate H3.
    + split; [right; reflexivity|]. split; [intros i _; apply (Hw' i [newline])|exact Hp].
Qed.

Lemma follow_delim r : follow r -> delim r.
Proof. intros [[->|(y & -> & _)] _]; [exact I|reflexivity]. Qed.

Lemma follow_eclose r : follow r -> eclose r.
Proof.
  intros H. split; [apply follow_delim, H|]. destruct H as [_ (t & r' & Ht & Hnl & Hw & Hp & _)].
  split; exists t, r'; (split; [exact Ht|]).
  - destruct Hnl as [Hnl|Hnl]; [auto|]. right. left. split; [exact Hnl|].
    rewrite Hw; [lia|]. intros ->. discriminate Hnl.
  - auto.
Qed.

Lemma follow_no_param i r : follow r -> no_type_param i r.
Proof.
  intros [_ (t & r' & Ht & Hnl & Hw & _)]. exists t, r'. split; [exact Ht|].
  destruct Hnl as [Hnl|Hnl]; [auto|]. right. left. split; [exact Hnl|].
  rewrite Hw; [lia|]. intros ->. discriminate Hnl.
Qed.

Lemma follow_no_arrow r : follow r -> no_arrow r.
Proof.
  intros [[->|(y & -> & H1 & H2)] _].
  - apply (no_arrow_blank []); [reflexivity|exact I|]. intros (s & E). discriminate E.
  - apply (no_arrow_blank [newline]); [reflexivity|exact H1|exact H2].
Qed.

Lemma follow_no_bar m r : follow r -> no_bar m r.
Proof.
  intros [_ (t & r' & Ht & Hnl & Hw & _ & Hp)]. exists t, r'. split; [exact Ht|]. right. right.
  destruct r' as [|c r']; [exact I|]. cbn [ends] in *.
  destruct (N.eqb_spec c (C "|")) as [->|]; [discriminate Hp|reflexivity].
Qed.

Lemma follow_line_blank r : follow r -> line_blank r.
Proof.
  intros [[->|(y & -> & _)] _]; [exists [], []|exists [], (newline :: y)]; auto.
Qed.
Lemma follow_blank_next r : follow r -> blank_next r.
Proof. intros [[->|(y & -> & _)] _]; [exact I|reflexivity]. Qed.
Lemma follow_line_end r : follow r -> line_end r.
Proof. intros [[->|(y & -> & _)] _]; [exact I|reflexivity]. Qed.

Lemma op_not_newline o : forallb is_op_char o = true -> forallb not_newline o = true.
Proof.
  rewrite !forallb_forall. intros H x Hx. specialize (H x Hx). opc H.
Qed.

Lemma no_expr_nil : no_expr [].
Proof.
  split; [exact I|]. split; [exact I|]. intros (w & r & (E & _) & Hin). destruct w; [|discriminate E].
  simpl in Hin. repeat (destruct Hin as [X|Hin]; [discriminate X|]). exact Hin.
Qed.

Lemma follow_no_definition o r : operator_name o -> follow r -> no_definition o r.
Proof.
  intros (Hne & Ho & Hres) Hf o' -> t r' Ht. cbn [app] in Ho. simpl in Ho.
  assert (Hnil : no_trivia (o' ++ r) -> t = [])
    by (intros H; eapply proj1, (trivia_run_unique _ _ _ _ _ Ht), trivia_run_nil, H).
  pose proof Hf as [_ (t0 & r0 & Ht0 & Hnl & Hw & Hp)].
  destruct o' as [|c o']; [exfalso; apply Hres; simpl; auto|].
  destruct o' as [|d o'].
  - left. apply Hnil. cbn [app].
    simpl in Ho. rewrite andb_true_r in Ho. repeat split.
    + intros ->. discriminate Ho.
    + intros ->. discriminate Ho.
    + intros [_ (x & ->)]. apply follow_blank_next in Hf. discriminate Hf.
  - destruct (N.eqb_spec c (C "-")) as [->|Hc1].
    2:{ left. apply Hnil. cbn [app].
        simpl in Ho. apply andb_true_iff in Ho as [Ho _].
        apply no_trivia_char; [intros ->; discriminate Ho|intros ->; discriminate Ho|exact Hc1]. }
    destruct (N.eqb_spec d (C "-")) as [->|Hd1].
    2:{ left. apply Hnil. cbn [app].
        apply no_trivia_minus, Hd1. }
    assert (Hoc : forallb not_newline o' = true) by (apply op_not_newline, Ho).
    destruct (comment_run o' r t0 r0 Hoc Hf Ht0 Hnl Hw) as [Hrun Hw'].
    destruct (trivia_run_unique _ _ _ _ _ Ht Hrun) as [-> ->].
    destruct Hnl as [->|Hnl].
    + right. right. destruct (follow_run_nil _ _ _ Hf Ht0 eq_refl) as [_ ->]. apply no_expr_nil.
    + right. left. split; [|apply (Hw' 0%N [])]. rewrite !has_newline_app, Hnl, !orb_true_r. reflexivity.
Qed.

(** ** Statements *)

Lemma digits_value k : forall n acc, (n < 2 ^ N.of_nat k)%N ->
  fold_left (fun a c => a * 10 + (c - C "0"))%N (digits_fuel k n acc) 0%N =
  fold_left (fun a c => a * 10 + (c - C "0"))%N acc n.
Proof.
  induction k as [|k IH]; intros n acc H.
  - cbn [digits_fuel]. change (2 ^ N.of_nat 0)%N with 1%N in H. assert (n = 0%N) by lia. subst n. reflexivity.
  - cbn [digits_fuel]. assert (E : (10 * (n / 10) + n mod 10 = n)%N) by (symmetry; apply N.div_mod; discriminate).
    destruct (N.eqb_spec (n / 10) 0) as [E0|E0].
    + cbn [fold_left]. f_equal. rewrite E0 in E. lia.
    + rewrite IH.
      * cbn [fold_left]. replace (n / 10 * 10 + (n mod 10 + C "0" - C "0"))%N with n; [reflexivity|].
        rewrite N.add_sub. lia.
      * rewrite Nat2N.inj_succ, N.pow_succ_r' in H. apply N.div_lt_upper_bound; lia.
Qed.

Lemma dec_digits n : dec_value (digits n) = n.
Proof.
  unfold dec_value, digits. rewrite digits_value; [reflexivity|].
  assert (H : (n < 2 ^ N.size n)%N) by apply N.size_gt.
  assert (E : N.size n = N.of_nat (N.size_nat n)).
  { destruct n as [|p]; [reflexivity|]. cbn [N.size N.size_nat]. 
    induction p as [p IH|p IH|]; cbn [Pos.size Pos.size_nat]; [..|reflexivity];
      (rewrite Nat2N.inj_succ, <- IH; [reflexivity|apply N.size_gt]). }
  rewrite Nat2N.inj_succ, N.pow_succ_r', <- E. lia.
Qed.

Lemma digits_dec k : forall n acc, forallb is_dec acc = true -> forallb is_dec (digits_fuel k n acc) = true.
Proof.
  induction k as [|k IH]; intros n acc H; cbn [digits_fuel]; [exact H|].
  assert (Hd : is_dec (n mod 10 + C "0") = true).
  { assert (Hm : (n mod 10 < 10)%N) by (apply N.mod_lt; discriminate).
    revert Hm. generalize (n mod 10)%N. intros m Hm. unfold is_dec, between.
    apply andb_true_iff. split; apply N.leb_le; lia. }
  destruct (n / 10 =? 0)%N; [|apply IH]; cbn [forallb]; rewrite Hd, H; reflexivity.
Qed.
Lemma digits_nonempty k : forall n acc, acc <> [] \/ k <> 0 -> digits_fuel k n acc <> [].
Proof.
  induction k as [|k IH]; intros n acc [H|H]; cbn [digits_fuel]; try congruence;
    (destruct (n / 10 =? 0)%N; [discriminate|apply IH; left; discriminate]).
Qed.
Lemma digits1_digits n : digits1 (digits n).
Proof. split; [apply digits_nonempty; right; discriminate|apply digits_dec; reflexivity]. Qed.

Lemma print_item_ok e r : wf_item e -> delim r -> RExportItem e (print_item e r) r.
Proof.
  intros H Hr. destruct H as [n Hn|n Hn|n Hn|n cs Hn Hcs]; cbn [print_item].
  - destruct Hn as [Hn|Hn]; unfold print_name.
    + rewrite (is_word_lower n Hn). apply RExport_function; [exact Hn|apply delim_lower, Hr].
    + rewrite (is_word_operator n Hn). apply RExport_operator, Hn.
  - apply RExport_type; [exact Hn|]. apply delim_ends; [exact Hr|reflexivity].
  - apply RExport_type_all, Hn.
  - assert (E : map (fun c => match c with FunctionExport m => m | _ => [] end) (map FunctionExport cs) = cs).
    { rewrite map_map. apply map_id. }
    rewrite E. apply RExport_type_some; assumption.
Qed.

Lemma print_items_ok es : Forall wf_item es -> es <> [] -> forall z, delim z ->
  RExportItems es (sep_with (L ", ") print_item es z) z.
Proof.
  induction 1 as [|e es He Hes IH]; [congruence|]. intros _ z Hz. destruct es as [|e' es].
  - apply RExportItems_one, print_item_ok; assumption.
  - cbn [sep_with]. eapply (RExportItems_cons e _ [] (L " ")); [|reflexivity|reflexivity|].
    + apply print_item_ok; [exact He|reflexivity].
    + apply IH; [discriminate|exact Hz].
Qed.

Lemma print_exports_ok e r : wf_exports e -> RExports e (print_exports e r) r.
Proof.
  intros H. destruct H as [|es Hne Hes]; cbn [print_exports].
  - apply (RExports_all [] []); apply olay_nil.
  - apply (RExports_some [] es _ []); [apply olay_nil| |apply olay_nil].
    apply print_items_ok; [exact Hes|exact Hne|reflexivity].
Qed.

Lemma lay0_space : lay0 (L " ").
Proof. exists 0%N. exact (lay_space _ _). Qed.
#[local] Hint Resolve lay0_space : lay.

Lemma print_effect_fields fs : Forall (fun f => lower_name (fst f) /\ upper_name (snd f)) fs ->
  forall r, REffectFields fs
    (sep_with (L ", ") (fun f r => fst f ++ L " = " ++ snd f ++ r) fs (L "}" ++ r)) (L "}" ++ r).
Proof.
  induction 1 as [|[n u] fs [Hn Hu] Hfs IH]; intros r; [constructor|]. cbn [fst snd] in *.
  assert (Hf : forall z, ends is_name_char z -> REffectField (n, u) (n ++ L " = " ++ u ++ z) z).
  { intros z Hz. apply (REffectField_intro n (L " ") (L " ")); auto; reflexivity. }
  destruct fs as [|f fs].
  - apply REffectFields_one, Hf. reflexivity.
  - cbn [sep_with]. eapply REffectFields_cons; [|discriminate|apply IH]. apply Hf. reflexivity.
Qed.

Lemma print_port_args args : Forall lower_name args -> forall z, delim z ->
  RPortArgs args (spaced (fun a r => a ++ r) args z) z.
Proof.
  induction 1 as [|a args Ha Hargs IH]; intros z Hz; [constructor|]. cbn [spaced].
  apply (RPortArgs_cons (L " ")); [apply spaces1_space|exact Ha| |apply IH, Hz].
  apply delim_lower, delim_spaced, Hz.
Qed.

Lemma print_constructors cs : Forall type_ok cs ->
  Forall (fun c => exists q args, c = TypeConstructor q args) cs -> wf_types cs -> cs <> [] ->
  forall r, follow r -> RConstructors 0 cs (sep_with (L " | ") print_type cs r) r.
Proof.
  induction 1 as [|c cs Hc Hcs IH]; [congruence|]. intros Hq Hwf _ r Hr.
  inversion Hq as [|? ? (q & args & ->) Hq']; subst. inversion Hwf as [|? ? Hw Hwf']; subst.
  inversion Hw as [? ? Hqq Hargs Hp| | | | |]; subst.
  assert (Hpar : forall z, delim z -> no_type_param 0 z ->
            ends_dotted (spaced print_type args z) /\ RParams 0 args (spaced print_type args z) z).
  { intros z Hz1 Hz2. split; [apply delim_dotted, delim_spaced, Hz1|].
    apply print_params; [|exact Hp|exact Hz1|exact Hz2].
    apply (proj1 (proj2 print_types_ok)), Hargs. }
  destruct cs as [|c cs].
  - destruct (Hpar r (follow_delim r Hr) (follow_no_param 0 r Hr)) as [H1 H2].
    apply RConstructors_one; [exact Hqq|exact H1|exact H2|apply follow_no_bar, Hr].
  - cbn [sep_with]. 
    destruct (Hpar (L " | " ++ sep_with (L " | ") print_type (c :: cs) r)) as [H1 H2].
    { reflexivity. }
    { apply (no_param_space 0 (L "| " ++ sep_with (L " | ") print_type (c :: cs) r));
        [apply no_trivia_char; discriminate|reflexivity]. }
    apply (RConstructors_cons 0 q args _ (L " ") 0 (L " ") (c :: cs)
             (sep_with (L " | ") print_type (c :: cs) r));
      [exact Hqq|exact H1|exact H2|apply ge_space|apply spaces1_space|].
    apply IH; [exact Hq'|exact Hwf'|discriminate|exact Hr].
Qed.

(** [plain] beginnings *)
Lemma plain_char c s : is_op_char c = false -> is_space_or_newline c = false -> c <> C "a" ->
  ends is_space_or_newline (c :: s) /\ plain (c :: s).
Proof. intros H1 H2 H3. split; [exact H2|]. split; [apply no_operator_head; assumption|exact H1]. Qed.

Lemma equals_type i r : no_type_param i (L " = " ++ r).
Proof.
  apply (no_param_space i (L "= " ++ r)); [apply no_trivia_char; discriminate|reflexivity].
Qed.

Theorem print_statement_ok st r : wf_statement st -> follow r ->
  RStmt st (print_statement st r) r /\ follow ([newline] ++ print_statement st r).
Proof.
  intros H Hr.
  assert (Hk : forall c s, is_op_char c = false -> is_space_or_newline c = false -> c <> C "a" ->
            follow ([newline] ++ c :: s)).
  { intros c s H1 H2 H3. apply follow_plain; apply plain_char; assumption. }
  assert (Hty : forall i t, wf_type t -> RAnn i t (print_type t r) r).
  { intros i t Ht. apply ann_of_type; [apply print_type_ok, Ht|apply follow_delim, Hr|
      apply follow_no_param, Hr|apply follow_no_arrow, Hr]. }
  destruct H as [q e Hq He|q e Hq He|q fs e Hq Hfs He|q al ex Hq Hal Hex|n t Hn Ht|n cs Hn Hne Hcs Hc|
                 n t Hn Ht|n args e Hn Ha He|f Hf|a p n Hp Hn|c Hc]; cbn [print_statement].
  - split; [|apply Hk; [reflexivity|reflexivity|discriminate]].
    apply (RStmt_module (L " ") q (L " ") (L " ") e (print_exports e r)); auto with lay.
    apply print_exports_ok, He.
  - split; [|apply Hk; [reflexivity|reflexivity|discriminate]].
    apply (RStmt_port_module (L " ") (L " ") q (L " ") (L " ") e (print_exports e r)); auto with lay.
    apply print_exports_ok, He.
  - split; [|apply Hk; [reflexivity|reflexivity|discriminate]].
    apply (RStmt_effect_module (L " ") (L " ") q (L " ") (L " ") fs _ (L " ") (L " ") e (print_exports e r));
      auto with lay.
    + apply (print_effect_fields fs Hfs).
    + apply print_exports_ok, He.
  - split; [|apply Hk; [reflexivity|reflexivity|discriminate]].
    assert (Hx : RExposing ex match ex with None => r | Some e => L " exposing " ++ print_exports e r end r).
    { destruct ex as [e|].
      - apply (RExposing_some (L " ") (L " ")); auto with lay. apply print_exports_ok, Hex.
      - apply RExposing_none, follow_line_blank, Hr. }
    assert (Hd : delim match ex with None => r | Some e => L " exposing " ++ print_exports e r end).
    { destruct ex; [reflexivity|apply follow_delim, Hr]. }
    eapply (RStmt_import (L " ") q al); [apply spaces1_space|exact Hq| | |exact Hx].
    + apply delim_dotted. destruct al; [reflexivity|exact Hd].
    + destruct al as [a|].
      * apply (RAlias_some (L " ") (L " ") a); auto with lay. apply delim_ends; [exact Hd|reflexivity].
      * apply RAlias_none. destruct ex as [e|]; [right|left; apply follow_line_blank, Hr].
        exists (L " "), (L " " ++ print_exports e r). split; [reflexivity|apply spaces1_space].
  - split; [|apply Hk; [reflexivity|reflexivity|discriminate]].
    apply (RStmt_alias (L " ") (L " ") n _ (L " ") (L " ") 1 t (print_type t r)); auto with lay.
    apply print_type_ok; [exact Hn|reflexivity|apply equals_type].
  - split; [|apply Hk; [reflexivity|reflexivity|discriminate]].
    apply (RStmt_type (L " ") n _ (L " ") 0 (L " ") 0 cs (sep_with (L " | ") print_type cs r)); auto with lay.
    + apply print_type_ok; [exact Hn|reflexivity|apply equals_type].
    + apply print_constructors; try assumption. apply (proj1 (proj2 print_types_ok)), Hcs.
  - split; [|apply Hk; [reflexivity|reflexivity|discriminate]].
    apply (RStmt_port_type (L " ") n (L " ") (L " ") 0 t (print_type t r)); auto with lay.
  - split; [|apply Hk; [reflexivity|reflexivity|discriminate]].
    apply (RStmt_port (L " ") n args _ (L " ") (L " ") 0 e (print_expr e r)); auto with lay.
    + apply delim_lower, delim_spaced. reflexivity.
    + apply print_port_args; [exact Ha|reflexivity].
    + apply expr_at; [apply print_expr_ok, He|apply follow_eclose, Hr].
  - destruct (print_function_ok f Hf r (follow_eclose r Hr)) as (H1 & [H2 H3] & H4).
    split; [apply RStmt_function, H1|]. apply follow_plain; [|split; assumption].
    destruct (print_function f r) as [|c s]; [exact I|]. destruct H2 as (A & B & _). cbn [ends].
    clear -A B. chr.
  - assert (Hd : digits1 (digits p)) by apply digits1_digits.
    split; [|destruct a; apply Hk; [reflexivity|reflexivity|discriminate|reflexivity|reflexivity|
      discriminate|reflexivity|reflexivity|discriminate]].
    assert (E : print_assoc a = assoc_word a) by (destruct a; reflexivity). rewrite E.
    rewrite <- (dec_digits p) at 1. destruct Hn as [Hn|Hn].
    + apply RStmt_infix_name; auto with lay; [rewrite dec_digits; exact Hp|apply follow_line_blank, Hr].
    + apply RStmt_infix_operator; auto with lay; [rewrite dec_digits; exact Hp|
        apply follow_blank_next, Hr|apply follow_no_definition; assumption].
  - destruct (existsb (N.eqb newline) c) eqn:E.
    + split; [|apply Hk; [reflexivity|reflexivity|discriminate]].
      apply RStmt_block_comment. destruct Hc as [Hc|Hc]; [|exact Hc]. exfalso.
      apply existsb_exists in E as (x & Hx & E). apply N.eqb_eq in E. subst x.
      rewrite forallb_forall in Hc. specialize (Hc newline Hx). discriminate Hc.
    + assert (Hc' : forallb not_newline c = true).
      { apply forallb_forall. intros x Hx. unfold not_newline. apply negb_true_iff.
        destruct (N.eqb_spec x newline) as [->|]; [|reflexivity].
        assert (E' : existsb (N.eqb newline) c = true)
          by (apply existsb_exists; exists newline; split; [exact Hx|reflexivity]). congruence. }
      split; [apply RStmt_line_comment; [exact Hc'|apply follow_line_end, Hr]|].
      apply follow_comment; assumption.
Qed.

Lemma print_statements_ok sts : Forall wf_statement sts -> sts <> [] ->
  RStmts sts (sep_with [newline] print_statement sts []) [] /\
  follow ([newline] ++ sep_with [newline] print_statement sts []).
Proof.
  induction 1 as [|st sts Hst Hsts IH]; [congruence|]. intros _. destruct sts as [|st' sts].
  - destruct (print_statement_ok st [] Hst follow_nil) as [H1 H2]. split; [apply RStmts_one, H1|exact H2].
  - destruct (IH ltac:(discriminate)) as [H1 H2].
    destruct (print_statement_ok st _ Hst H2) as [H3 H4].
    change (sep_with [newline] print_statement (st :: st' :: sts) [])
      with (print_statement st ([newline] ++ sep_with [newline] print_statement (st' :: sts) [])).
    split; [|exact H4]. eapply RStmts_cons; [exact H3|apply blanks1_newline|exact H1].
Qed.

Theorem print_file_renders sts : wf_file sts -> RFile sts (print_file sts).
Proof.
  intros [Hne H]. destruct (print_statements_ok sts H Hne) as [H1 _].
  apply (RFile_intro [] sts _ []); [reflexivity|exact H1|reflexivity].
Qed.

Theorem round_trip sts : wf_file sts -> file (print_file sts) = Ok [] sts.
Proof. intros H. apply complete_file, print_file_renders, H. Qed.
