(** * C73: phrases with the same tree can stand for each other *)
From Verif Require Import Base Nom Regex Ast Good Spec Helpers Types Expr Stmt Total Layout Front Seqs Heads Rules TwoRuns Whole CommentSpec LiteralSpec Literals LiteralsAll LiteralCheck
  Brackets CompleteE Steps Indep Inside InsideAll InsideCheck Flat Phrases Properties24 Properties27 Properties28 Properties29 Properties30.

(** ** C73: how a phrase is written does not matter

    [same_trees]: a list literal may stand for another one with the same tree, and a
    phrase in parentheses for another one with the same tree (of the kinds of C70 and
    C72); all else stays.  Then the result is the same, in all files. *)
Definition same_trees : kinds := mkKinds eq eq eq eq eq
  (fun x y => list_phrase x /\ list_phrase y /\ snd x = snd y) (fun x y => both_phrases x y /\ snd x = snd y) (fun _ _ => False).

Lemma forall2_eq {A} (R : A -> A -> Prop) (HR : forall x y, R x y -> x = y) : forall l l', Forall2 R l l' -> l = l'.
Proof. intros l l' H. induction H as [|x y l l' H _ IH]; [reflexivity|]. f_equal; [exact (HR _ _ H)|exact IH]. Defined.
Lemma export_eq : forall e e', same_export same_trees e e' -> e = e'.
Proof.
  fix IH 3. intros e e' H. destruct H; try reflexivity; f_equal; [|destruct H as [->|H]; [reflexivity|exact H]].
  exact (forall2_eq _ IH _ _ H).
Qed.
Fixpoint expr_eq e e' (H : same_expr same_trees e e') {struct H} : e = e'
with entry_eq x x' (H : same_entry same_trees x x') {struct H} : x = x'
with func_eq f f' (H : same_func same_trees f f') {struct H} : f = f'.
Proof.
  - destruct H; try reflexivity.
    + destruct H. reflexivity.
    + destruct H. reflexivity.
    + destruct H0. reflexivity.
    + destruct H0, H1. reflexivity.
    + destruct H. reflexivity.
    + exact (proj2 (proj2 H)).
    + exact (proj2 H).
    + destruct H.
    + f_equal. exact (forall2_eq _ expr_eq _ _ H).
    + f_equal. exact (forall2_eq _ expr_eq _ _ H).
    + f_equal. exact (expr_eq _ _ H).
    + f_equal. refine (forall2_eq _ _ _ _ H). intros [n e] [n' e'] [H1 H2]. cbn in *. subst n'. f_equal. exact (expr_eq _ _ H2).
    + f_equal. refine (forall2_eq _ _ _ _ H). intros [m e] [m' e'] [H1 H2]. cbn in *. subst m'. f_equal. exact (expr_eq _ _ H2).
    + f_equal; [exact (expr_eq _ _ H)|exact (expr_eq _ _ H0)|exact (expr_eq _ _ H1)].
    + f_equal; [exact (forall2_eq _ entry_eq _ _ H)|exact (expr_eq _ _ H0)].
    + f_equal; [exact (expr_eq _ _ H)|]. refine (forall2_eq _ _ _ _ H0). intros [p x] [p' x'] [H1 H2]. cbn in *. f_equal; [exact (expr_eq _ _ H1)|exact (expr_eq _ _ H2)].
    + f_equal; [exact (forall2_eq _ expr_eq _ _ H)|exact (expr_eq _ _ H0)].
    + f_equal; [exact (expr_eq _ _ H)|exact (expr_eq _ _ H0)].
    + f_equal; [exact (expr_eq _ _ H)|exact (expr_eq _ _ H0)|exact (expr_eq _ _ H1)].
  - destruct H; f_equal; [exact (func_eq _ _ H)|exact (expr_eq _ _ H)|exact (expr_eq _ _ H0)].
  - destruct H as [g g' n n' l l' e e' Hg Hn Hl He].
    assert (En : n = n') by (destruct Hn as [Hn|Hn]; exact Hn). subst n'. f_equal.
    + destruct g as [g|], g' as [g'|]; try destruct Hg as []; [|reflexivity]. f_equal. f_equal. destruct H as [H|H]; exact H.
    + f_equal; [exact (forall2_eq _ expr_eq _ _ Hl)|exact (expr_eq _ _ He)].
Qed.
Theorem C73_same : forall s s', relit same_trees after_other s s' -> file s' = file s.
Proof.
  intros s s' Hs. assert (HL : forall x y, on_list same_trees x y -> list_phrase x /\ list_phrase y) by (intros x y (H1 & H2 & _); auto).
  assert (HR : forall x y, on_round same_trees x y -> both_phrases x y) by (intros x y (H1 & _); exact H1).
  pose proof (C72_rejected same_trees s s' (fun _ => eq_refl) HL HR (fun _ _ F => F) Hs) as He.
  destruct (file s) as [r l| |m] eqn:E.
  - assert (r = []) as -> by apply (file_nonempty _ _ _ E).
    destruct (C72_phrases same_trees s s' l (fun _ => eq_refl) HL HR (fun _ _ F => F) Hs E) as (l' & -> & Hl). f_equal. symmetry. refine (forall2_eq _ _ _ _ Hl). clear. intros a b Hab.
    destruct Hab as [f f' Hf|n x e e' He|c c' Hc|n e e' He|n e e' He|n w e e' He|n x e e' He|x p n n' Hn|n t|n t|n t]; cbn; try reflexivity; f_equal.
    + apply func_eq, Hf.
    + apply expr_eq, He.
    + exact Hc.
    + apply export_eq, He.
    + apply export_eq, He.
    + apply export_eq, He.
    + destruct e as [e|], e' as [e'|]; [|destruct He|destruct He|reflexivity]. f_equal. apply export_eq, He.
    + destruct Hn as [Hn|Hn]; exact Hn.
  - apply He. reflexivity.
  - exfalso. destruct (ok_file (S (length s)) s (le_n _)) as [_ Ho]. rewrite E in Ho. exact Ho.
Qed.
Print Assumptions C73_same.

(** *** Doubled parentheses *)
Lemma closes_single d x : closes (S d) [x] -> is_close x = true.
Proof. intros H. destruct (closes_last _ _ H d eq_refl) as (u & c & E & Hc). destruct u as [|y [|]]; [injection E as ->; exact Hc|discriminate E..]. Qed.
Lemma dashes_longer d w z : closes (S d) w -> dashes (w ++ z) -> dashes w.
Proof.
  intros H (y & E). destruct w as [|a [|b w]]; [destruct (shut_nil _ H)| |].
  - apply closes_single in H. injection E as -> _. discriminate H.
  - injection E as -> -> _. exists w. reflexivity.
Qed.
Lemma closes_app d w k z : closes d w -> closes k z -> closes (d + k) (w ++ z).
Proof.
  intros H Hz. induction H as [|d c w Hc Hw IH|d c w Hc Hd Hw IH|d c w Hc H1 H2 Hw IH|d t w Ht Hw IH|d t w Ht Hw IH|d c w Hc He Hw IH|d c w Hc Hw IH]; cbn [plus app] in *.
  - exact Hz.
  - apply closes_close; assumption.
  - apply closes_open; [exact Hc| |exact IH]. intros E K. apply (Hd E). eapply dashes_longer; [exact Hw|exact K].
  - apply closes_operator; [exact Hc| | |exact IH].
    + intros K. apply H1. eapply (dashes_longer d); [|exact K]. apply closes_operator; assumption.
    + intros K. apply H2. eapply (dashes_longer d); [exact Hw|exact K].
  - rewrite <- app_assoc. apply closes_string; [|exact IH]. destruct Ht as [c Hc|c Hc Ht]; [apply token_multi, Hc|]. apply token_single; [exact Hc|].
    intros E. specialize (Ht E). destruct w as [|x w]; [destruct (shut_nil _ Hw)|exact Ht].
  - rewrite <- app_assoc. apply closes_char; assumption.
  - rewrite <- app_assoc. change (closes (S (d + k)) (L "--" ++ c ++ w ++ z)). apply closes_comment; [exact Hc| |exact IH].
    destruct w as [|x w]; [destruct (shut_nil _ Hw)|exact He].
  - apply closes_plain; assumption.
Qed.
Lemma complete_round u : complete u -> complete (L "(" ++ u ++ L ")").
Proof.
  intros H. destruct (complete_parts u H) as [H1 H2]. exists (C "("), (L "(" ++ (u ++ L ")") ++ L ")"). split; [cbn; rewrite <- app_assoc; reflexivity|].
  split; [reflexivity|]. split; [intros _ (y & E); discriminate E|].
  apply (closes_open 0); [reflexivity| |].
  - intros _ K. apply H2. eapply (dashes_longer 0); [exact H1|exact K].
  - apply (closes_app 1 _ 1); [exact H1|]. apply (closes_close 0); [reflexivity|apply closes_end].
Qed.
Lemma no_layout i s : opt_sp i (C "(" :: s) = Ok (C "(" :: s) None.
Proof. apply opt_sp_nil. apply no_trivia_char; discriminate. Qed.
(** a type does not begin with a phrase that is no type *)
Lemma not_type x : nothing_else x -> forall n i s r a, type_n n i (round x s) <> Ok r a.
Proof.
  intros (_ & H & _) n i s r a E. destruct n as [|n]; [discriminate E|]. cbn [type_n] in E. unfold round in E. unfold type_f, type_constructor_f in E.
  destruct (no_name (C "(") [] eq_refl (fun _ K => match K with ex_intro _ _ F => ltac:(discriminate F) end) (fst x ++ s)) as (_ & H2 & H3).
  rewrite dead_alt in E by (unfold bind; rewrite H2; reflexivity). rewrite dead_alt in E by exact H3. destruct (H n i s) as [J1 J2].
  apply alt_Ok in E as [E|[_ E]]; [|apply alt_Ok in E as [E|[_ E]]; [|apply alt_Ok in E as [E|[_ E]]]].
  - unfold type_record_constructor_f in E. discriminate E.
  - unfold type_record_f in E. discriminate E.
  - unfold round in J1. rewrite E in J1. exact J1.
  - unfold round in J2. rewrite E in J2. exact J2.
Qed.
Lemma double_value u e : value_phrase (u ++ L ")", e) -> only_a_value (L "(" ++ u ++ L ")").
Proof.
  intros H. apply value_alone in H as [Hx _]. set (x := (u ++ L ")", e)) in *.
  split.
  - intros i. rewrite <- app_assoc. change (L "(" ++ L "(" ++ (u ++ L ")") ++ L ")") with (C "(" :: round x (L ")")).
    destruct (type_ i (C "(" :: round x (L ")"))) as [r a| |m] eqn:E; [exfalso|reflexivity|destruct (type_no_abort _ _ _ E)].
    rewrite (type_is_bracket (C "(") [] eq_refl (fun _ K => match K with ex_intro _ _ F => ltac:(discriminate F) end)) in E.
    set (n := length (C "(" :: round x (L ")"))) in E.
    apply alt_Ok in E as [E|[_ E]]; [discriminate E|]. apply alt_Ok in E as [E|[_ E]]; [discriminate E|].
    assert (J : failing (type_n n i (round x (L ")")))).
    { destruct (type_n n i (round x (L ")"))) as [r' a'| |] eqn:E'; [destruct (not_type x Hx _ _ _ _ _ E')|exact I..]. }
    assert (Ho : (preceded (char_ (C "(")) (opt_sp i)) (C "(" :: round x (L ")")) = Ok (round x (L ")")) None)
      by (unfold preceded, bind, char_; cbn -[opt_sp round]; unfold round; rewrite no_layout; reflexivity).
    apply alt_Ok in E as [E|[_ E]].
    + unfold type_tuple_f, map_ in E. unfold delimited, bind in E. rewrite Ho in E. unfold separated_list in E.
      destruct (type_n n i (round x (L ")"))) as [r' a'| |]; [destruct J| |discriminate E].
      unfold terminated, bind, round in E. rewrite no_layout in E. discriminate E.
    + unfold type_parens_f, delimited, bind in E. rewrite Ho in E. unfold type_annotation_f, map_res, separated_nonempty_list in E.
      destruct (type_n n i (round x (L ")"))) as [r' a'| |]; [destruct J|discriminate E..].
  - rewrite <- app_assoc. change (L "(" ++ L "(" ++ (u ++ L ")") ++ L ")") with (C "(" :: round x (L ")")).
    destruct (exports (C "(" :: round x (L ")"))) as [r a| |m] eqn:E; [exfalso|reflexivity|].
    + unfold exports, delimited, bind in E.
      assert (Ho : (preceded (char_ (C "(")) (opt_sp 0)) (C "(" :: round x (L ")")) = Ok (round x (L ")")) None)
        by (unfold preceded, bind, char_; cbn -[opt_sp round]; unfold round; rewrite no_layout; reflexivity).
      rewrite Ho in E. destruct Hx as (_ & _ & Hx). destruct (Hx (L ")")) as (Hop & _).
      assert (J : failing ((all_export <|> subset_export) (round x (L ")")))).
      { destruct ((all_export <|> subset_export) (round x (L ")"))) as [r' a'| |] eqn:K; [|exact I..]. cbn.
        apply alt_Ok in K as [K|[_ K]]; [discriminate K|]. unfold subset_export in K. apply Seqs.map_Ok in K as (l & K & _).
        unfold separated_nonempty_list in K. destruct ((function_export <|> type_export) (round x (L ")"))) as [r2 a2| |] eqn:K2; [clear K|discriminate K..].
        apply alt_Ok in K2 as [K2|[_ K2]].
        - unfold function_export in K2. apply Seqs.map_Ok in K2 as (o & K2 & _). apply alt_Ok in K2 as [K2|[_ K2]].
          + unfold function_name in K2. apply Seqs.map_Ok in K2 as (nm & K2 & _). apply heads_lo_name in K2 as (c & y & F & G). injection F as <- _. discriminate G.
          + enough (F : op (round x (L ")")) = Ok r2 (Variable_ [o])) by (rewrite F in Hop; exact Hop). unfold op. apply (map_intro (fun s : str => Variable_ [s])) with (a := o).
            apply delimited_Ok in K2 as (s1 & y & s2 & z & F1 & F2 & F3). eapply delimited_intro; [exact F1|apply alt_left; exact F2|exact F3].
        - unfold type_export in K2. apply bind_Ok in K2 as (s1 & y & F1 & _). apply heads_up_name in F1 as (c & y' & F & G). injection F as <- _. discriminate G. }
      destruct ((all_export <|> subset_export) (round x (L ")"))); [exact J|discriminate E..].
    + exfalso. revert E. apply (no_abort 1). intros n. apply ok_exports.
Qed.
(** An expression in doubled parentheses is again a phrase of C72, with the same tree:
    the inner parentheses can be written or left out, everywhere in a file. *)
Theorem C73_doubled : forall u e, value_phrase (u ++ L ")", e) -> value_phrase (L "(" ++ u ++ L "))", e) /\
  on_round same_trees (u ++ L ")", e) (L "(" ++ u ++ L "))", e).
Proof.
  intros u e H. assert (J : value_phrase (L "(" ++ u ++ L "))", e)).
  { pose proof (double_value u e H) as Ho. destruct H as (u' & E & Hu & _ & He). cbn [fst snd] in *. apply app_inv_tail in E. subst u'.
    exists (L "(" ++ u ++ L ")"). split; [cbn; rewrite <- app_assoc; reflexivity|]. split; [apply complete_round, Hu|]. split; [exact Ho|].
    intros i. cbn [snd]. apply term_alone. pose proof (C71_parentheses i u [] e Hu (He i)) as K. rewrite app_nil_r in K. exact K. }
  split; [exact J|]. split; [left; auto|reflexivity].
Qed.
Print Assumptions C73_doubled.

(** *** Instances *)
Lemma table_trees ll lr b s s' : (forall x y, In (x, y) ll -> list_phrase x /\ list_phrase y /\ snd x = snd y) -> (forall x y, In (x, y) lr -> both_phrases x y /\ snd x = snd y) ->
  relit (kinds_of (mkTests str_eqb N.eqb str_eqb str_eqb str_eqb ll lr [])) b s s' -> relit same_trees b s s'.
Proof.
  intros Hl Hr. apply relit_weak; cbn; try (intros a c H; apply str_eqb_eq, H); [intros a c H; apply N.eqb_eq, H|exact Hl|exact Hr|intros a c []].
Qed.
Definition written (a b c : str) : str :=
  L "f (" ++ a ++ L ") [" ++ b ++ L " =" ++ nl ++
  L "  let" ++ nl ++
  L "    (" ++ c ++ L ") = g (" ++ a ++ L ") " ++ quoted (L "(x + 1)") ++ nl ++
  L "    (" ++ a ++ L ") = (y, z)" ++ nl ++
  L "  in \x -> (if (" ++ a ++ L ") then [" ++ b ++ L " else { r | s = (" ++ a ++ L ") }) -- (x + 1)".
Definition written1 : str := written (L "x + 1") (L "1,2]") (L "1,[]").
Definition written2 : str := written (L "(x  +  (1))") (L " 1 , (2) ]") (L " 1 , [ ]").
Example C73_instance : relit same_trees after_other written1 written2 /\ written1 <> written2 /\ exists l, file written1 = Ok [] l.
Proof.
  split; [|split; [intros E; vm_compute in E; discriminate E|eexists; vm_compute; reflexivity]].
  apply (table_trees [pair_of (L "1,2]") (L " 1 , (2) ]")] [values (L "x + 1") (L "(x  +  (1))"); tuples (L "1,[]") (L " 1 , [ ]")]).
  - intros x y [H|[]]. unfold pair_of in H. injection H as <- <-. split; [apply list_check; vm_compute; reflexivity|]. split; [apply list_check; vm_compute; reflexivity|].
    vm_compute. reflexivity.
  - intros x y [H|[H|[]]].
    + split; [left; apply (values_both _ _ _ _ H); vm_compute; reflexivity|]. injection H as <- <-. vm_compute. reflexivity.
    + split; [right; apply (tuples_both _ _ _ _ H); vm_compute; reflexivity|]. injection H as <- <-. vm_compute. reflexivity.
  - apply (rl_check_relit _ 900). vm_compute. reflexivity.
Qed.
Example C73_doubled_instance : value_phrase (L "x + 1)", value_tree (L "x + 1")) /\ value_phrase (L "(x + 1))", value_tree (L "x + 1")).
Proof.
  assert (H : value_phrase (L "x + 1" ++ L ")", value_tree (L "x + 1"))) by (apply value_check; vm_compute; reflexivity).
  split; [exact H|]. apply (C73_doubled _ _ H).
Qed.
(** A blank after the first parenthesis makes a tuple of one element, with another tree. *)
Example C73_blank_matters : term 0 (L "(1)") = Ok [] (Integer (L "1")) /\ term 0 (L "( 1)") = Ok [] (Tuple [Integer (L "1")]) /\ term 0 (L "(( 1))") = Ok [] (Tuple [Integer (L "1")]).
Proof. repeat split; vm_compute; reflexivity. Qed.
(** Single parentheses cannot always be left out: on the left of a definition in a [let] they make a tuple. *)
Example C73_single_matters : file (L "x = let a = 1 in a") <> file (L "x = let (a) = 1 in a") /\ expression 0 (L "a") = expression 0 (L "(a)").
Proof. split; vm_compute; [discriminate|reflexivity]. Qed.
