(** * C80: the keywords of an accepted text nest and count the phrases of its tree *)
From Verif Require Import Base Nom Ast Spec Helpers Types Expr Stmt Grammar Leaves Words Pairs Properties35 Properties36.

(** A tree of which no name is [if], [then], [else], [let], [in], [case] or [of].  Only type
    variables can be. *)
Definition without_keyword_names (sts : list statement_ast) : Prop :=
  Forall no_keyword (concat (map statement_symbols sts)).

(** Each of these words occurs in the text as often as the phrase it belongs to in the tree.
    [nodes_stmt 1 0 0] counts the conditionals of a statement, [nodes_stmt 0 1 0] its [let]
    expressions and [nodes_stmt 0 0 1] its [case] expressions, at any depth. *)
Theorem C80_counts : forall s sts, file s = Ok [] sts -> without_literals s -> without_keyword_names sts ->
  (forall k, In k [L "if"; L "then"; L "else"] -> occurrences k s = total (nodes_stmt 1 0 0) sts) /\
  (forall k, In k [L "let"; L "in"] -> occurrences k s = total (nodes_stmt 0 1 0) sts) /\
  (forall k, In k [L "case"; L "of"] -> occurrences k s = total (nodes_stmt 0 0 1) sts).
Proof.
  intros s sts H (H1 & H2 & H3 & H4) Hn. apply C77_files in H.
  assert (K : forall k i l c, In k paired -> mem_str k signs = false ->
    (forall st, kc k (statement_symbols st) = nodes_stmt i l c st) -> occurrences k s = total (nodes_stmt i l c) sts).
  { intros k i l c Hk _ Hst. change (occurrences k s) with (occ k (words s)).
    rewrite (written_occ k _ _ Hk H Hn H1 H2 H3 H4). apply kc_concat, Forall_forall. intros st _. apply Hst. }
  split; [|split]; intros k Hk; apply K; repeat (destruct Hk as [<-|Hk]; [first [apply mem_str_In; reflexivity | reflexivity | intros st; apply kc_stmt; reflexivity]|]); destruct Hk.
Qed.
Print Assumptions C80_counts.

(** In the text these words nest like brackets: [if … then … else …], [let … in …] and
    [case … of …]. *)
Theorem C80_nesting : forall s sts, file s = Ok [] sts -> without_literals s -> without_keyword_names sts ->
  nested (filter (fun w => mem_str w [L "if"; L "then"; L "else"; L "let"; L "in"; L "case"; L "of"]) (words s)).
Proof.
  intros s sts H (H1 & H2 & H3 & H4) Hn. apply C77_files in H.
  change (nested (keywords_of s)). rewrite (written_kws _ _ H Hn H1 H2 H3 H4). rewrite skel_concat.
  apply nested_map, Forall_forall. intros st _. apply nested_stmt.
Qed.
Print Assumptions C80_nesting.

(** *** Instances *)
Definition instance_nested : str :=
  L "f x = if let y = if x then 1 else 2 in y then case x of a -> let b = a in b else 3" ++ [newline] ++ L "g = case f of _ -> thence".
Example C80_instance : exists sts, file instance_nested = Ok [] sts /\ without_keyword_names sts /\
  total (nodes_stmt 1 0 0) sts = 2 /\ total (nodes_stmt 0 1 0) sts = 2 /\ total (nodes_stmt 0 0 1) sts = 2.
Proof.
  eexists. split; [vm_compute; reflexivity|]. split; [vm_compute; repeat constructor; intuition discriminate|].
  split; [|split]; vm_compute; reflexivity.
Qed.
Example C80_instance_literals : without_literals instance_nested.
Proof.
  repeat split; try (vm_compute; intuition discriminate).
  - intros (a & b & E). assert (G : forall s, (forallb (fun p => negb ((fst p =? C "-")%N && (snd p =? C "-")%N)) (combine s (tl s))) = true ->
      ~ exists a b, s = a ++ L "--" ++ b).
    { intros s Hs (u & v & ->). clear - Hs. induction u as [|x u IH]; [discriminate|]. cbn [app tl combine forallb] in Hs.
      destruct u as [|y u]; cbn [app tl combine forallb] in *; apply andb_true_iff in Hs as [_ Hs]; auto. }
    refine (G _ _ (ex_intro _ a (ex_intro _ b E))). vm_compute. reflexivity.
  - intros (a & b & E). assert (K : ~ In (C "{") instance_nested) by (vm_compute; intuition discriminate).
    apply K. rewrite E. apply in_or_app. right. left. reflexivity.
Qed.
(** A type variable may be called [then]: the condition is needed. *)
Example C80_type_variable : exists sts, file (L "type T then = A then") = Ok [] sts /\ ~ without_keyword_names sts /\
  without_literals (L "type T then = A then") /\ occurrences (L "then") (L "type T then = A then") = 2 /\ total (nodes_stmt 1 0 0) sts = 0.
Proof.
  eexists. split; [vm_compute; reflexivity|]. split; [|split; [|split; vm_compute; reflexivity]].
  - intros H. unfold without_keyword_names in H. rewrite Forall_forall in H.
    specialize (H (Name (L "then")) ltac:(vm_compute; tauto)). apply H. vm_compute. tauto.
  - apply no_dash; vm_compute; intuition discriminate.
Qed.
