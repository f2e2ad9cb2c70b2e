(** * Soundness of the statement parsers and of [file] *)
From Verif Require Import Base Nom Regex Ast Good Spec Helpers Types Expr Stmt Lexers Total
  Layout Seqs Grammar Sound SoundE.

Lemma sound_opt_spaces : sound (fun _ w => ospaces w) (opt spaces).
Proof.
  intros s r a H. apply opt_Ok in H as [(o & H & ?)|(_ & ? & ?)]; subst.
  - use. text. match goal with H : spaces1 _ |- _ => apply H end.
  - exists []. split; reflexivity.
Qed.
Lemma sound_opt_spnl : sound (fun _ w => ospnl w) (opt spaces_and_newlines).
Proof.
  intros s r a H. apply opt_Ok in H as [(o & H & ?)|(_ & ? & ?)]; subst.
  - use. text. match goal with H : spnl1 _ |- _ => apply H end.
  - exists []. split; reflexivity.
Qed.
#[export] Hint Resolve sound_opt_spaces sound_opt_spnl : snddb.

Lemma sp_gt0_Ok s r j : sp_gt0 s = Ok r j ->
  exists t, s = t ++ r /\ (r <> [] -> lay0 t).
Proof.
  intros H. apply sp_gt_Ok in H as (t & -> & _ & _ & H). exists t. split; [reflexivity|].
  intros Hr. exists j. auto.
Qed.
Ltac use2 := repeat first
  [ inv1
  | match goal with H : sp_gt0 _ = Ok _ _ |- _ =>
      apply sp_gt0_Ok in H; destruct H as (?t & ? & H); subst end
  | use1 | conj1 ].

(** ** Exports *)

Definition GAll (e : export_set) (w : str) : Prop := e = AllExport /\ w = L "..".
Lemma sound_all_export : sound GAll all_export.
Proof. intros s r a H. unfold all_export in H. use. text. split; reflexivity. Qed.
#[export] Hint Resolve sound_all_export : snddb.

Lemma sound_function_export : sound GExportItem function_export.
Proof.
  intros s r a H. unfold function_export in H. inv. apply alt_Ok in H as [H|[_ H]].
  - unfold function_name in H. use. text. constructor; assumption.
  - use. text. apply GExport_operator; assumption.
Qed.
#[export] Hint Resolve sound_function_export : snddb.

Lemma constructors_seps s l r : seps (tag (L ", ")) (map_ FunctionExport up_name) s l r ->
  forall n, upper_name n ->
  exists cs, qualified (n :: cs) /\ l = map FunctionExport cs /\ n ++ s = join (L ", ") (n :: cs) ++ r.
Proof.
  induction 1 as [s Hst|s s2 c s3 t' l r Hs Hl Hp Hl3 Hrest IH]; intros n Hn.
  - exists []. repeat split; [discriminate|constructor; auto].
  - use. match goal with H : upper_name ?m |- context [FunctionExport ?m] =>
      destruct (IH m) as (cs & [_ Hf] & -> & He); [assumption|]; exists (m :: cs) end.
    split; [split; [discriminate|constructor; assumption]|]. split; [reflexivity|].
    cbn [app]. rewrite He.
    cbn [join]. rewrite <- !app_assoc. reflexivity.
Qed.

Lemma sound_constructor_subset_exports :
  sound (fun e w => exists cs, e = SubsetExport (map FunctionExport cs) /\ qualified cs
           /\ w = join (L ", ") cs) constructor_subset_exports.
Proof.
  intros s r a H. unfold constructor_subset_exports in H. inv.
  apply separated_nonempty_list_Ok in H as (t & l & z & -> & H & _ & Hs). use.
  edestruct (constructors_seps _ _ _ Hs) as (cs & Hq & -> & He); [..|rewrite He]; [eassumption|].
  eexists. split; [reflexivity|]. eexists. split; [|split; [exact Hq|reflexivity]]. reflexivity.
Qed.
#[export] Hint Resolve sound_constructor_subset_exports : snddb.

Lemma sound_type_export : sound GExportItem type_export.
Proof.
  intros s r a H. unfold type_export, constructor_exports in H. use.
  match goal with H : opt _ _ = _ |- _ => apply opt_Ok in H as [(o & H & ?)|(_ & ? & ?)] end; subst.
  - inv. match goal with H : (all_export <|> _) _ = _ |- _ => apply alt_Ok in H as [H|[_ H]] end.
    + use. unfold GAll in *. use. text. apply GExport_type_all; assumption.
    + use. match goal with H : exists _, _ |- _ => destruct H as (cs & -> & Hq & ->) end.
      text. apply GExport_type_some; assumption.
  - text. constructor; assumption.
Qed.
#[export] Hint Resolve sound_type_export : snddb.

Lemma sound_export_item : sound GExportItem (function_export <|> type_export).
Proof. intros s r a H. apply alt_Ok in H as [H|[_ H]]; use; eauto. Qed.

Lemma GExportItem_nonempty e w : GExportItem e w -> w <> [].
Proof.
  intros H; destruct H; try discriminate; try apply app_nonempty;
    eauto using lower_nonempty, upper_nonempty.
Qed.
Lemma GExportItems_nonempty e w : GExportItems e w -> w <> [].
Proof. intros H; destruct H; [|apply app_nonempty]; eauto using GExportItem_nonempty. Qed.
Lemma GExports_nonempty e w : GExports e w -> w <> [].
Proof. intros H; destruct H; discriminate. Qed.

Lemma export_items_seps s l r :
  seps (delimited (opt spaces_and_newlines) (char_ (C ",")) (opt spaces_and_newlines))
       (function_export <|> type_export) s l r ->
  forall e we, GExportItem e we ->
  exists w, we ++ s = w ++ r /\ GExportItems (e :: l) w.
Proof.
  induction 1 as [s Hst|s s2 c s3 t' l r Hs Hl Hp Hl3 Hrest IH]; intros e we He.
  - exists we. split; [reflexivity|]. constructor; exact He.
  - apply sound_export_item in Hp as (wp & -> & Hp). use.
    edestruct IH as (w' & Heq & Hw); [exact Hp|]. rewrite Heq.
    text. constructor; assumption.
Qed.

Lemma sound_subset_export :
  sound (fun e w => exists es, e = SubsetExport es /\ GExportItems es w) subset_export.
Proof.
  intros s r a H. unfold subset_export in H. inv.
  apply separated_nonempty_list_Ok in H as (t & l & z & -> & H & _ & Hs).
  apply sound_export_item in H as (wp & -> & Hp).
  edestruct (export_items_seps _ _ _ Hs) as (w' & Heq & Hw); [..|rewrite Heq]; [eassumption|].
  eauto.
Qed.
#[export] Hint Resolve sound_subset_export : snddb.

Lemma sound_exports : sound GExports exports.
Proof.
  intros s r a H. unfold exports in H. inv.
  match goal with H : (all_export <|> _) _ = _ |- _ => apply alt_Ok in H as [H|[_ H]] end.
  - use. unfold GAll in *. use. layouts. text. apply GExports_all; assumption.
  - use. match goal with H : exists _, _ |- _ => destruct H as (es & -> & Hes) end.
    pose proof (GExportItems_nonempty _ _ Hes) as Hne.
    match goal with H : _ -> olay 0 ?t |- context [?t ++ ?w ++ _] =>
      specialize (H ltac:(apply app_nonempty; exact Hne)) end.
    layouts. text. apply GExports_some; assumption.
Qed.
#[export] Hint Resolve sound_exports : snddb.

Ltac nonnil ::=
  match goal with
  | |- _ :: _ <> [] => discriminate
  | |- (_ :: _) ++ _ <> [] => discriminate
  | |- (?a ++ ?b) <> [] =>
      first [ apply app_nonempty; solve
        [ eauto 2 using upper_nonempty, lower_nonempty, operator_nonempty, tyvar_nonempty,
            dotted_nonempty, GTy_nonempty, GAnn_nonempty, GE_nonempty, GDef_nonempty,
            GExports_nonempty, GExportItems_nonempty
        | nonnil ]
      | let H := fresh in intros H; apply app_eq_nil in H; destruct H as [_ H]; revert H;
        change (b <> []); nonnil ]
  end.

(** ** Modules *)

Lemma sound_module_declaration : sound GStmt module_declaration.
Proof.
  intros s r a H. unfold module_declaration in H. use2. layouts. text.
  eapply GStmt_module; eassumption.
Qed.

Lemma sound_port_module_declaration : sound GStmt port_module_declaration.
Proof.
  intros s r a H. unfold port_module_declaration in H. use2. layouts. text.
  eapply GStmt_port_module; eassumption.
Qed.

Lemma sound_effect_field : sound GEffectField effect_field.
Proof. intros s r a H. unfold effect_field in H. use2. text. constructor; assumption. Qed.
#[export] Hint Resolve sound_effect_field : snddb.

Lemma effect_fields_seps s l r : seps (tag (L ", ")) effect_field s l r ->
  forall f wf, GEffectField f wf ->
  exists w, wf ++ s = w ++ r /\ GEffectFields (f :: l) w.
Proof.
  induction 1 as [s Hst|s s2 c s3 t' l r Hs Hl Hp Hl3 Hrest IH]; intros e we He.
  - exists we. split; [reflexivity|]. constructor; exact He.
  - use. edestruct IH as (w' & Heq & Hw); [exact Hp|]. rewrite Heq.
    text. apply GEffectFields_cons; assumption.
Qed.

Lemma sound_effect_fields :
  sound (fun fs w => fs = [] /\ w = [] \/ GEffectFields fs w)
        (separated_list (tag (L ", ")) effect_field).
Proof.
  intros s r a H.
  apply separated_list_Ok in H as [(-> & ? & _)|(t & l & z & -> & H & _ & Hs)]; subst.
  - exists []. auto.
  - use. edestruct (effect_fields_seps _ _ _ Hs) as (w' & Heq & Hw); [..|rewrite Heq]; [eassumption|].
    eauto.
Qed.
#[export] Hint Resolve sound_effect_fields : snddb.

Lemma sound_effect_module_declaration : sound GStmt effect_module_declaration.
Proof.
  intros s r a H. unfold effect_module_declaration in H. use2. layouts. text.
  eapply GStmt_effect_module; eassumption.
Qed.

(** ** Imports *)

Lemma sound_import_statement : sound GStmt import_statement.
Proof.
  intros s r a H. unfold import_statement in H. use2.
  match goal with H : opt (preceded _ up_name) ?x = Ok ?y ?o |- _ =>
    assert (exists wa, x = wa ++ y /\ GAlias o wa) as (wa & -> & Ha);
    [apply opt_Ok in H as [(z & H & ?)|(_ & ? & ?)]; subst;
      [use2; text; constructor; assumption
      |exists []; split; [reflexivity|constructor]]|clear H] end.
  match goal with H : opt (preceded _ exports) ?x = Ok ?y ?o |- _ =>
    assert (exists wa, x = wa ++ y /\ GExposing o wa) as (wx & -> & Hx);
    [apply opt_Ok in H as [(z & H & ?)|(_ & ? & ?)]; subst;
      [use2; text; constructor; assumption
      |exists []; split; [reflexivity|constructor]]|clear H] end.
  text. eapply GStmt_import; assumption.
Qed.

(** ** Type declarations *)

Lemma sound_type_alias_declaration : sound GStmt type_alias_declaration.
Proof.
  intros s r a H. unfold type_alias_declaration in H. use2. layouts. text.
  eapply GStmt_alias; eassumption.
Qed.

Lemma constructors_decl_seps m s l r :
  seps (delimited (spaces_or_new_lines_and_indent m IR_GTE) (char_ (C "|")) spaces)
       (type_constructor m) s l r ->
  forall q args wp, qualified q -> GParams m args wp ->
  exists w, dotted q ++ wp ++ s = w ++ r /\ GConstructors m (TypeConstructor q args :: l) w.
Proof.
  induction 1 as [s Hst|s s2 c s3 t' l r Hs Hl Hp Hl3 Hrest IH]; intros q args wp Hq Hargs.
  - text. constructor; assumption.
  - use2. destruct Hp as (q' & args' & wp' & -> & -> & Hq' & Hargs').
    layouts. rewrite <- app_assoc. destruct (IH _ _ _ Hq' Hargs') as (w' & Heq & Hw). rewrite Heq.
    text. eapply GConstructors_cons; eassumption.
Qed.

Lemma GConstructors_nonempty m cs w : GConstructors m cs w -> w <> [].
Proof. intros H; destruct H; apply app_nonempty, dotted_nonempty; assumption. Qed.

Lemma sound_type_declaration : sound GStmt (type_declaration 0).
Proof.
  intros s r a H. unfold type_declaration in H. inv.
  match goal with H : separated_nonempty_list _ _ _ = _ |- _ =>
    apply separated_nonempty_list_Ok in H as (x & l & z & -> & H & _ & Hs) end.
  use2. match goal with H : exists _, _ |- _ => destruct H as (q & args & w' & -> & -> & Hq & Hw) end.
  repeat rewrite <- app_assoc in *.
  destruct (constructors_decl_seps _ _ _ _ Hs _ _ _ Hq Hw) as (w2 & Heq & Hw2).
  rewrite Heq in *. pose proof (GConstructors_nonempty _ _ _ Hw2) as Hne.
  match goal with H : _ -> lay_ge _ _ _ |- _ => specialize (H ltac:(apply app_nonempty; exact Hne)) end.
  layouts. text. eapply GStmt_type; eassumption.
Qed.

(** ** Ports *)

Lemma sound_port_type_declaration : sound GStmt port_type_declaration.
Proof.
  intros s r a H. unfold port_type_declaration in H. use2. layouts. text.
  eapply GStmt_port_type; eassumption.
Qed.

Lemma port_args_manys s l r : manys (preceded spaces lo_name) s l r ->
  exists w, s = w ++ r /\ GPortArgs l w.
Proof.
  induction 1 as [s Hst|s s2 a l r Hp Hl Hrest (w & -> & IH)].
  - exists []. split; [reflexivity|constructor].
  - use. text. constructor; assumption.
Qed.

Lemma sound_port_declaration : sound GStmt port_declaration.
Proof.
  intros s r a H. unfold port_declaration in H. use2.
  match goal with H : many0 _ _ = _ |- _ =>
    apply many0_Ok, port_args_manys in H as (wa & -> & H) end.
  layouts. text. eapply GStmt_port; eassumption.
Qed.

(** ** Infix declarations *)

Lemma parse_i64_acc_spec s : forall acc v, parse_i64_acc acc s = Some v -> (acc <= i64_max)%N ->
  v = fold_left (fun acc c => acc * 10 + (c - C "0"))%N s acc /\ (v <= i64_max)%N.
Proof.
  induction s as [|c s IH]; intros acc v; cbn [parse_i64_acc fold_left].
  - intros [= <-]. auto.
  - destruct (is_digit c); [|discriminate]. cbv zeta.
    destruct (N.leb_spec (acc * 10 + (c - C "0")) i64_max); [|discriminate]. auto.
Qed.

Lemma sound_infix_declaration : sound GStmt infix_declaration.
Proof.
  intros s r a H. unfold infix_declaration in H.
  apply bind_Ok in H as (s1 & asc & Ha & H).
  assert (s = assoc_word asc ++ s1) as ->.
  { apply alt_Ok in Ha as [Ha|[_ Ha]]; [inv; reflexivity|].
    apply alt_Ok in Ha as [Ha|[_ Ha]]; inv; reflexivity. }
  clear Ha. use.
  match goal with H : parse_i64 ?d = Some ?v |- _ =>
    assert (v = dec_value d /\ (dec_value d <= 2 ^ 63 - 1)%N) as [-> Hv] end.
  { unfold parse_i64 in *. match goal with H : match ?d with _ => _ end = _ |- _ =>
      destruct d; [discriminate|apply parse_i64_acc_spec in H as [-> H]; [|discriminate]] end.
    split; [reflexivity|assumption]. }
  match goal with H : (lo_name <|> operator) _ = _ |- _ => apply alt_Ok in H as [H|[_ H]] end;
    use; text; apply GStmt_infix; auto.
Qed.

(** ** Comments *)

Lemma find_sub_first t s a r : t <> [] -> find_sub t s = Some (a, r) -> ~ exists x y, a = x ++ t ++ y.
Proof.
  intros Ht. revert a r. induction s as [|c s IH]; intros a r; cbn [find_sub].
  - destruct (strip t []) as [z|] eqn:Hs; [|discriminate]. intros [= <- <-] (x & y & He).
    destruct x, t; try discriminate. congruence.
  - destruct (strip t (c :: s)) as [z|] eqn:Hs.
    + intros [= <- <-] (x & y & He). destruct x, t; try discriminate. congruence.
    + destruct (find_sub t s) as [[a' r']|] eqn:Hf; [|discriminate].
      intros [= <- <-] (x & y & He). destruct x as [|c' x].
      * apply find_sub_app in Hf. subst s.
        assert (strip t (t ++ y ++ t ++ r') = Some (y ++ t ++ r')) by (apply strip_app; reflexivity).
        cbn [app] in He. rewrite app_assoc in Hs. rewrite app_comm_cons in Hs. rewrite app_comm_cons, He in Hs.
        rewrite <- !app_assoc in Hs. congruence.
      * injection He as -> He. apply (IH _ _ eq_refl). eauto.
Qed.

Lemma sound_comment : sound GStmt comment.
Proof.
  intros s r a H. unfold comment in H. apply alt_Ok in H as [H|[_ H]].
  - unfold single_line_comment_stmt in H. inv. rewrite comment_line_eq in H.
    destruct (strip (L "--") s) as [s'|] eqn:Hs; [|discriminate].
    destruct (span not_newline s') as [x y] eqn:Hx. injection H as <- <-.
    apply strip_app in Hs. apply span_longest in Hx as (-> & Hf & _). subst s.
    text. apply GStmt_line_comment. exact Hf.
  - unfold multi_line_comment in H. inv. unfold take_until_and_consume, need_more, at_eof in *.
    match goal with H : match ?f with _ => _ end = _ |- _ => destruct f as [[x y]|] eqn:Hf; [|discriminate];
      injection H as <- <- end.
    assert (Hn : L "-}" <> []) by discriminate. pose proof (find_sub_first _ _ _ _ Hn Hf).
    apply find_sub_app in Hf. subst. text. apply GStmt_block_comment. assumption.
Qed.

(** ** Files *)

Lemma sound_statement : sound GStmt statement.
Proof.
  intros s r a H. unfold statement in H.
  apply alt_Ok in H as [H|[_ H]]; [exact (sound_port_module_declaration _ _ _ H)|].
  apply alt_Ok in H as [H|[_ H]]; [exact (sound_effect_module_declaration _ _ _ H)|].
  apply alt_Ok in H as [H|[_ H]]; [exact (sound_module_declaration _ _ _ H)|].
  apply alt_Ok in H as [H|[_ H]]; [exact (sound_import_statement _ _ _ H)|].
  apply alt_Ok in H as [H|[_ H]]; [exact (sound_type_alias_declaration _ _ _ H)|].
  apply alt_Ok in H as [H|[_ H]]; [exact (sound_type_declaration _ _ _ H)|].
  apply alt_Ok in H as [H|[_ H]]; [exact (sound_port_type_declaration _ _ _ H)|].
  apply alt_Ok in H as [H|[_ H]]; [exact (sound_port_declaration _ _ _ H)|].
  apply alt_Ok in H as [H|[_ H]].
  { inv. use. text. constructor; assumption. }
  apply alt_Ok in H as [H|[_ H]]; [exact (sound_infix_declaration _ _ _ H)|].
  exact (sound_comment _ _ _ H).
Qed.
#[export] Hint Resolve sound_statement : snddb.

Lemma statements_seps s l r : seps multispace0 statement s l r ->
  forall st wst, GStmt st wst ->
  exists w, wst ++ s = w ++ r /\ GStmts (st :: l) w.
Proof.
  induction 1 as [s Hst|s s2 c s3 t' l r Hs Hl Hp Hl3 Hrest IH]; intros e we He.
  - exists we. split; [reflexivity|]. constructor; exact He.
  - use. edestruct IH as (w' & Heq & Hw); [exact Hp|]. rewrite Heq in *.
    match goal with H : blanks ?b |- _ =>
      assert (blanks1 b) by (split; [intros ->; cbn [app length] in Hl; lia|exact H]) end.
    text. apply GStmts_cons; assumption.
Qed.

Lemma sound_statements : sound GFile statements.
Proof.
  intros s r a H. unfold statements in H. inv.
  match goal with H : separated_nonempty_list _ _ _ = _ |- _ =>
    apply separated_nonempty_list_Ok in H as (x & l & z & -> & H & _ & Hs) end.
  use. edestruct (statements_seps _ _ _ Hs) as (w' & Heq & Hw); [..|rewrite Heq]; [eassumption|].
  text. constructor; assumption.
Qed.
#[export] Hint Resolve sound_statements : snddb.

(** Everything [file] accepts is a file of the grammar. *)
Lemma file_sound s r sts : file s = Ok r sts -> r = [] /\ GFile sts s.
Proof.
  intros H. unfold file in H. use. unfold eof in *.
  match goal with H : match ?s with _ => _ end = _ |- _ => destruct s; [|discriminate]; injection H as <- <- end.
  rewrite app_nil_r. auto.
Qed.
