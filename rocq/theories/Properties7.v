(** * C39 - C42: errors, sizes, joining printed files, brackets *)
From Verif Require Import Base Nom Regex Ast Spec Helpers Types Expr Stmt Grammar SoundS Wf Printer Round Fail Errors
  Size Joins Nest Properties Properties2.

(** ** C39: a rejected file's error shows where the first unreadable statement starts *)

(** [file_e] is [file] with the error it answers: the text from the error on and
    nom's error kind (Errors.v).  [reads s l r]: the statements [l] are read from
    [s] one after the other, with blank space between them, and [r] is left. *)
Theorem C39_refines : forall s, forget (file_e s) = file s.
Proof. exact forget_file. Qed.
Print Assumptions C39_refines.
Theorem C39_accepted : forall s l,
  file s = Ok [] l <->
  exists b s1 r, s = b ++ s1 /\ blanks b /\ no_blank s1 /\ reads s1 l r /\ blanks r.
Proof. exact file_reads. Qed.
Print Assumptions C39_accepted.
Theorem C39_error : forall s r k,
  file_e s = EError r k <->
  exists b s1, s = b ++ s1 /\ blanks b /\ no_blank s1 /\
    ((k = KAlt /\ r = s1 /\ statement s1 = Err) \/
     (k = KEof /\ r <> [] /\ no_blank r /\
      exists l b2, reads s1 l (b2 ++ r) /\ blanks b2 /\ (b2 = [] \/ statement r = Err))).
Proof. exact file_error. Qed.
Print Assumptions C39_error.
Example C39_instance :
  file_e (L "  ; a = 1") = EError (L "; a = 1") KAlt /\
  file_e (L "a = 1" ++ newline :: L "b = )" ++ newline :: L "c = 2") = EError (L "b = )" ++ newline :: L "c = 2") KEof /\
  file_e (L "a = b )") = EError (L ")") KEof /\
  file_e (L "{-a-}{-b-}") = EError (L "{-b-}") KEof /\
  file_e (L "{-a-} {-b-}") = EOk [] [Comment (L "a"); Comment (L "b")].
Proof. vm_compute. repeat split. Qed.

(** ** C40: the syntax tree is no larger than the text *)

(** [file_nodes] counts the nodes, [file_chars] the characters stored in names
    and literals (Size.v). *)
Theorem C40_size : forall s r sts, file s = Ok r sts ->
  file_nodes sts <= length s /\ file_chars sts <= 2 * length s.
Proof. intros s r sts H. apply size_GFile. exact (proj2 (file_sound _ _ _ H)). Qed.
Print Assumptions C40_size.
(** The factor 2 is needed: a record of variables stores every name twice.  The
    bound on the nodes is met up to one by applications. *)
Fixpoint applied (n : nat) : expr :=
  match n with O => Variable_ [L "a"] | S n' => Application (applied n') (Variable_ [L "a"]) end.
Example C40_instance :
  file (L "x = {aaaaaaaaaaaaaaaaaaaaaaaaaaaaaaaaaaaa}") =
    Ok [] [Function_ (mkFunc None (mkDef (L "x") []
            (Record_ [(L "aaaaaaaaaaaaaaaaaaaaaaaaaaaaaaaaaaaa", Variable_ [L "aaaaaaaaaaaaaaaaaaaaaaaaaaaaaaaaaaaa"])])))] /\
  length (L "x = {aaaaaaaaaaaaaaaaaaaaaaaaaaaaaaaaaaaa}") = 42 /\
  file_chars [Function_ (mkFunc None (mkDef (L "x") []
            (Record_ [(L "aaaaaaaaaaaaaaaaaaaaaaaaaaaaaaaaaaaa", Variable_ [L "aaaaaaaaaaaaaaaaaaaaaaaaaaaaaaaaaaaa"])])))] = 73 /\
  file (L "x = a a a a a a") = Ok [] [Function_ (mkFunc None (mkDef (L "x") [] (applied 5)))] /\
  file_nodes [Function_ (mkFunc None (mkDef (L "x") [] (applied 5)))] = 14 /\
  length (L "x = a a a a a a") = 15.
Proof. vm_compute. repeat split. Qed.

(** ** C41: printed files can be joined *)

(** Joining accepted texts fails in general (C36); for printed texts it works. *)
Theorem C41_joined : forall s1 s2 r1 r2 l1 l2, file s1 = Ok r1 l1 -> file s2 = Ok r2 l2 ->
  file (print_file l1 ++ [newline] ++ print_file l2) = Ok [] (l1 ++ l2).
Proof. intros s1 s2 r1 r2 l1 l2 H1 H2. apply joined; apply C06_range; eauto. Qed.
Print Assumptions C41_joined.
Theorem C41_printed : forall l1 l2, wf_file l1 -> wf_file l2 ->
  print_file (l1 ++ l2) = print_file l1 ++ [newline] ++ print_file l2.
Proof. intros l1 l2 H1 H2. apply print_file_app; [exact H1|apply H2]. Qed.
Print Assumptions C41_printed.
(** the pair of texts of C36, whose plain join is read differently *)
Example C41_instance : exists l1 l2,
  file (L "x = case a of b -> c") = Ok [] l1 /\ file (L "foo =-- d -> e" ++ [10%N] ++ L "  1") = Ok [] l2 /\
  print_file l1 ++ [newline] ++ print_file l2 = L "x = (case a of b -> c)" ++ newline :: L "foo = 1" /\
  file (L "x = (case a of b -> c)" ++ newline :: L "foo = 1") = Ok [] (l1 ++ l2).
Proof. do 2 eexists. split; [vm_compute; reflexivity|]. split; vm_compute; auto. Qed.

(** ** C42: brackets nest, and foreign characters occur in comments and literals only *)

(** [nest], [plain] and [balanced] are defined in Nest.v. *)
Theorem C42_nesting : forall s r sts, file s = Ok r sts -> nest [] s [].
Proof. intros s r sts H. eapply nests_GFile. exact (proj2 (file_sound _ _ _ H)). Qed.
Print Assumptions C42_nesting.
Theorem C42_balanced : forall s r sts, file s = Ok r sts -> no_comment_or_quote s -> balanced [] s = true.
Proof. intros s r sts H Hno. eapply nest_balanced; eauto using C42_nesting. Qed.
Print Assumptions C42_balanced.
Lemma balanced_chars st s : balanced st s = true ->
  forall c, In c s -> plain c = true \/ In c (L "()[]{}").
Proof.
  revert st. induction s as [|d s IH]; intros st H c Hc; [destruct Hc|]. cbn [balanced] in H.
  assert (Ho : forall e, closing d = Some e -> In d (L "()[]{}")).
  { intros e. unfold closing.
    destruct (N.eqb_spec d (C "(")) as [->|]; [left; reflexivity|].
    destruct (N.eqb_spec d (C "[")) as [->|]; [right; right; left; reflexivity|].
    destruct (N.eqb_spec d (C "{")) as [->|]; [do 4 right; left; reflexivity|discriminate]. }
  assert (Hd : is_close d = true -> In d (L "()[]{}")).
  { unfold is_close, mem_char. cbn [existsb].
    destruct (N.eqb_spec d (C ")")) as [->|]; [right; left; reflexivity|].
    destruct (N.eqb_spec d (C "]")) as [->|]; [do 3 right; left; reflexivity|].
    destruct (N.eqb_spec d (C "}")) as [->|]; [do 5 right; left; reflexivity|discriminate]. }
  destruct (closing d) as [e|] eqn:E.
  { destruct Hc as [<-|Hc]; [right; eapply Ho; reflexivity|eapply IH; eauto]. }
  destruct (is_close d).
  - destruct st as [|e st]; [discriminate H|]. apply andb_true_iff in H as [_ H].
    destruct Hc as [<-|Hc]; [right; apply Hd; reflexivity|eapply IH; eauto].
  - apply andb_true_iff in H as [Hp H]. destruct Hc as [<-|Hc]; [left; exact Hp|eapply IH; eauto].
Qed.
(** In particular every character of such a text belongs to the alphabet. *)
Theorem C42_alphabet : forall s r sts c, file s = Ok r sts -> no_comment_or_quote s -> In c s ->
  plain c = true \/ In c (L "()[]{}").
Proof. intros s r sts c H Hno Hc. eapply balanced_chars; eauto using C42_balanced. Qed.
Print Assumptions C42_alphabet.
(** Foreign characters and odd brackets are accepted in comments and literals,
    and nowhere else. *)
Example C42_instance :
  (exists sts, file (L "x = [(';', {a = "";)""})] --)`" ++ newline :: L "{-];-}") = Ok [] sts) /\
  nest [] (L "x = [(';', {a = "";)""})] --)`" ++ newline :: L "{-];-}") [] /\
  (exists sts, file (L "x = [(a, {b = c})]") = Ok [] sts) /\ no_comment_or_quote (L "x = [(a, {b = c})]") /\
  balanced [] (L "x = [(a, {b = c})]") = true /\
  balanced [] (L "x = [(a, {b = c)}]") = false /\ file (L "x = [(a, {b = c)}]") = Err /\
  plain (C ";") = false /\ plain (C "`") = false /\ plain 233 = false /\ plain (C "%") = true.
Proof.
  assert (H : exists sts, file (L "x = [(';', {a = "";)""})] --)`" ++ newline :: L "{-];-}") = Ok [] sts)
    by (eexists; vm_compute; reflexivity).
  split; [exact H|]. split; [destruct H as [sts H]; exact (C42_nesting _ _ _ H)|].
  split; [eexists; vm_compute; reflexivity|].
  split; [|vm_compute; repeat split].
  repeat split.
  - vm_compute. intuition discriminate.
  - vm_compute. intuition discriminate.
  - intros (a & b & E). repeat (destruct a as [|? a]; [discriminate E|injection E as _ E]). destruct a; discriminate E.
  - intros (a & b & E). repeat (destruct a as [|? a]; [discriminate E|injection E as _ E]). destruct a; discriminate E.
Qed.
