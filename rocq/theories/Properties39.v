(** * C82: where a definition ends and the next one begins *)
From Verif Require Import Base Nom Ast Spec Helpers Types Expr Stmt Grammar SoundS Errors Column.

(** [following s sts w b s' st st']: [s] is read as the statements [sts]; two of them in a row are
    [st], whose text is [w], and [st'], which begins where [s'] begins; the blank space between
    them is [b]. *)
Inductive following : str -> list statement_ast -> str -> str -> str -> statement_ast -> statement_ast -> Prop :=
| following_here w b s' st st' l r :
    statement (w ++ b ++ s') = Ok (b ++ s') st -> blanks1 b -> no_blank s' -> reads s' (st' :: l) r ->
    following (w ++ b ++ s') (st :: st' :: l) w b s' st st'
| following_later s0 b0 s1 st0 l w b s' st st' :
    statement s0 = Ok (b0 ++ s1) st0 -> blanks1 b0 -> no_blank s1 -> following s1 l w b s' st st' ->
    following s0 (st0 :: l) w b s' st st'.

(** Every two neighbouring statements of an accepted text are found like this. *)
Theorem C82_neighbours : forall s l1 st st' l2, file s = Ok [] (l1 ++ st :: st' :: l2) ->
  exists b0 s1 w b s', s = b0 ++ s1 /\ blanks b0 /\ following s1 (l1 ++ st :: st' :: l2) w b s' st st'.
Proof.
  intros s l1 st st' l2 H. apply file_reads in H as (b0 & s1 & r & -> & Hb & _ & H & _). exists b0, s1.
  enough (K : exists w b s', following s1 (l1 ++ st :: st' :: l2) w b s' st st')
    by (destruct K as (w & b & s' & K); exists w, b, s'; auto).
  clear Hb b0. revert s1 H. induction l1 as [|x l1 IH]; intros s1 H; cbn [app] in *.
  - inversion H as [|s2 st2 b s' l r2 H1 H2 H3 H4]; subst. pose proof H1 as Hs. apply sound_statement in Hs as (w & -> & _).
    exists w, b, s'. econstructor; eassumption.
  - inversion H as [|s2 st2 b s' l r2 H1 H2 H3 H4]; subst; [destruct l1; discriminate|].
    destruct (IH _ H4) as (w & b' & s'' & K). exists w, b', s''. eapply following_later; eassumption.
Qed.
Print Assumptions C82_neighbours.

(** [ends_with_expression st]: a definition, also of a port.  [begins_with_name st']: a definition,
    the declaration of an operator, an effect module.  [indents w j]: a line of [w] but the first
    begins with [j] spaces (counted in 32 bits, as the parser does).  If the space between the two has no
    tabs and carriage returns, then it has a line feed, and the second one begins in a column that
    is 0 or at most the indentation of some line of the first one. *)
Theorem C82_next : forall s sts w b s' st st', following s sts w b s' st st' ->
  ends_with_expression st = true -> begins_with_name st' = true ->
  forallb (fun c => (c =? space)%N || (c =? newline)%N) b = true ->
  In newline b /\
  exists j, (j = 0%N \/ indents w j) /\ (N.of_nat (length (last_line b)) mod 2 ^ 32 <= j)%N.
Proof.
  induction 1 as [w b s' st st' l r H1 [H2 _] H3 H4|s0 b0 s1 st0 l w b s' st st' _ _ _ _ IH]; intros He Hn Hb; [|auto].
  assert (K : exists r', statement s' = Ok r' st') by (inversion H4; subst; eauto). destruct K as [r' K].
  destruct (two_statements _ _ _ _ _ _ H1 He K Hn H2 Hb) as (w' & E & Hl & j & Hj & Hw). apply app_inv_tail in E. subst w'. split.
  - apply existsb_exists in Hl as (c & Hc & Q). apply N.eqb_eq in Q. subst. exact Hc.
  - exists j. split; [exact Hj|]. unfold width in Hw. rewrite Hl in Hw. destruct (CompleteX.spnl_closed b Hb) as [_ Hc]. rewrite Hc in Hw. exact Hw.
Qed.
Print Assumptions C82_next.

(** So after a definition on one line the next one begins in column 0. *)
Theorem C82_one_line : forall s sts w b s' st st', following s sts w b s' st st' ->
  ends_with_expression st = true -> begins_with_name st' = true ->
  forallb (fun c => (c =? space)%N || (c =? newline)%N) b = true -> ~ In newline w ->
  In newline b /\ (N.of_nat (length (last_line b)) mod 2 ^ 32 = 0)%N.
Proof.
  intros s sts w b s' st st' H He Hn Hb Hw. destruct (C82_next _ _ _ _ _ _ _ H He Hn Hb) as (H1 & j & [->|Hj] & H2); split; auto.
  - apply N.le_0_r, H2.
  - exfalso. destruct Hj as (a & t & c & -> & _). apply Hw. apply in_or_app. right. left. reflexivity.
Qed.
Print Assumptions C82_one_line.

(** *** Instances *)
(** The second definition is indented, but not more than a line of the first one. *)
Definition instance_indented : str :=
  L "f =" ++ [newline] ++ L "    case x of" ++ [newline] ++ L "        y -> 1" ++ [newline] ++ L "  g = 2".
Example C82_instance : exists st st' w b s', file instance_indented = Ok [] [st; st'] /\
  following instance_indented [st; st'] w b s' st st' /\ ends_with_expression st = true /\ begins_with_name st' = true /\
  b = newline :: L "  " /\ s' = L "g = 2" /\ indents w 4.
Proof.
  do 2 eexists. exists (L "f =" ++ [newline] ++ L "    case x of" ++ [newline] ++ L "        y -> 1"), (newline :: L "  "), (L "g = 2").
  split; [vm_compute; reflexivity|]. split.
  - change instance_indented with ((L "f =" ++ [newline] ++ L "    case x of" ++ [newline] ++ L "        y -> 1") ++ (newline :: L "  ") ++ L "g = 2").
    apply following_here with (r := []); [vm_compute; reflexivity|split; [discriminate|reflexivity]|reflexivity|].
    apply reads_one. vm_compute. reflexivity.
  - repeat (split; [reflexivity|]). exists (L "f ="), (L "    "), (L "case x of" ++ [newline] ++ L "        y -> 1"). split; [|split]; reflexivity.
Qed.
(** On one line, after spaces only: a definition is rejected, other statements are accepted. *)
Example C82_same_line : file (L "f = 1 g = 2") = Err /\ file (L "f = 1 infixl 5 +") = Err /\
  exists st st' st'', file (L "f = 1 import A {- b -}") = Ok [] [st; st'; st''].
Proof. split; [vm_compute; reflexivity|]. split; [vm_compute; reflexivity|]. do 3 eexists. vm_compute. reflexivity. Qed.
(** A tab ends a definition: the condition on the space is needed. *)
Example C82_tab : exists st st', file (L "f = 1" ++ [9]%N ++ L "g = 2") = Ok [] [st; st'] /\ begins_with_name st' = true.
Proof. do 2 eexists. split; vm_compute; reflexivity. Qed.
(** A declaration that does not end with an expression can be followed on its line. *)
Example C82_import : exists st st', file (L "import A f = 1") = Ok [] [st; st'] /\ begins_with_name st' = true.
Proof. do 2 eexists. split; vm_compute; reflexivity. Qed.
