(** * C77: the symbols of the tree are the symbols of the text; C78: the command line *)
From Verif Require Import Base Nom Regex Ast Spec Helpers Types Expr Stmt Grammar Sound SoundE SoundS Leaves Utf8 Fail Cli Args.

(** ** C77: nothing is invented, dropped, repeated or moved

    [expr_symbols], [type_symbols] and [statement_symbols] (Leaves.v) list the words and signs
    of a tree from left to right; [written l s] says that [s] consists of these symbols in this
    order and of blank space, comments and round brackets, and that no word of it touches the
    next one.  A field [a = a] of a record may be written [a]. *)
Theorem C77_files : forall s sts, file s = Ok [] sts -> written (concat (map statement_symbols sts)) s.
Proof. intros s sts H. apply written_GFile, (file_sound _ _ _ H). Qed.
Print Assumptions C77_files.
Theorem C77_expressions : forall i s r e, expression i s = Ok r e ->
  exists w, s = w ++ r /\ written (expr_symbols e) w.
Proof.
  intros i s r e H. apply sound_expression in H as (w & -> & H). exists w. split; [reflexivity|].
  apply rd_GE in H. specialize (H [] [] (fun _ => I) wr_nil). rewrite !app_nil_r in H. exact H.
Qed.
Print Assumptions C77_expressions.
Theorem C77_types : forall i s r t, type_annotation i s = Ok r t ->
  exists w, s = w ++ r /\ written (type_symbols t) w.
Proof.
  intros i s r t H. apply sound_type_annotation in H as (w & -> & H). exists w. split; [reflexivity|].
  apply rd_ann in H. specialize (H [] [] (fun _ => I) wr_nil). rewrite !app_nil_r in H. exact H.
Qed.
Print Assumptions C77_types.

(** If the tree has no comments, strings, characters, fields of records and infix
    declarations, then its symbols are the text, up to blank space and round brackets: two
    texts (without comments) have this tree only if they are equal up to these. *)
Theorem C77_text : forall s sts, file s = Ok [] sts ->
  Forall simple (concat (map statement_symbols sts)) -> ~ (exists a b, s = a ++ L "--" ++ b) ->
  filter ink s = filter ink (concat (map letters (concat (map statement_symbols sts)))).
Proof. intros s sts H. apply written_ink, C77_files, H. Qed.
Print Assumptions C77_text.
Theorem C77_same_tree : forall s s' sts, file s = Ok [] sts -> file s' = Ok [] sts ->
  Forall simple (concat (map statement_symbols sts)) ->
  ~ (exists a b, s = a ++ L "--" ++ b) -> ~ (exists a b, s' = a ++ L "--" ++ b) ->
  filter ink s = filter ink s'.
Proof. intros s s' sts H H' Hs Hc Hc'. rewrite (C77_text s sts), (C77_text s' sts) by assumption. reflexivity. Qed.
Print Assumptions C77_same_tree.

(** The words of the text, that is its longest pieces of letters, digits and underscores, are
    the words of the symbols: no two symbols are read from one word. *)
Theorem C77_words : forall s sts, file s = Ok [] sts ->
  Forall worded (concat (map statement_symbols sts)) -> ~ (exists a b, s = a ++ L "--" ++ b) ->
  words s = concat (map (fun x => words (letters x)) (concat (map statement_symbols sts))).
Proof. intros s sts H. apply written_words, C77_files, H. Qed.
Print Assumptions C77_words.

(** *** Instances *)
Definition instance1 : str :=
  L "type alias P = { x : Int } -- point" ++ [newline] ++
  L "f : a -> (P)" ++ [newline] ++
  L "f p = case p of" ++ [newline] ++
  L "   {x, y} -> ((g ('c') (x + 1)))" ++ [newline] ++
  L "   q -> { q | x = .y q.z.u }".
Example C77_instance : exists sts, file instance1 = Ok [] sts /\
  concat (map statement_symbols sts) =
  [Key (L "type"); Key (L "alias"); Name (L "P"); Key (L "="); Key (L "{"); Name (L "x"); Key (L ":"); Name (L "Int"); Key (L "}");
   Remark (L " point");
   Name (L "f"); Key (L ":"); Name (L "a"); Key (L "->"); Name (L "P");
   Name (L "f"); Name (L "p"); Key (L "="); Key (L "case"); Name (L "p"); Key (L "of");
   Key (L "{"); Label (L "x"); Key (L "="); Name (L "x"); Key (L ","); Label (L "y"); Key (L "="); Name (L "y"); Key (L "}"); Key (L "->");
   Name (L "g"); Chr (C "c"); Name (L "x"); Name (L "+"); Number (L "1");
   Name (L "q"); Key (L "->"); Key (L "{"); Name (L "q"); Key (L "|"); Name (L "x"); Key (L "="); Key (L "."); Name (L "y");
   Name (L "q"); Key (L "."); Name (L "z"); Key (L "."); Name (L "u"); Key (L "}")].
Proof. eexists. split; vm_compute; reflexivity. Qed.
Definition instance2 : str := L "f x = if (x y) then a  +  b else (let u = 1 in u)".
Definition instance3 : str := L "f x =   if x y then a + b else let u = 1 in (u)".
Example C77_instance_text : exists sts, file instance2 = Ok [] sts /\ file instance3 = Ok [] sts /\
  Forall simple (concat (map statement_symbols sts)) /\ ~ (exists a b, instance2 = a ++ L "--" ++ b) /\
  ~ (exists a b, instance3 = a ++ L "--" ++ b) /\ filter ink instance2 = L "fx=ifxythena+belseletu=1inu".
Proof.
  assert (K : forall s, ~ In (C "-") s -> ~ (exists a b, s = a ++ L "--" ++ b)).
  { intros s H (a & b & ->). apply H, in_or_app. right. left. reflexivity. }
  eexists. split; [vm_compute; reflexivity|]. split; [vm_compute; reflexivity|]. split; [vm_compute; repeat constructor|].
  split; [|split]; [apply K; vm_compute; intuition discriminate|apply K; vm_compute; intuition discriminate|vm_compute; reflexivity].
Qed.

Example C77_instance_words : exists sts, file (L "f x = g2 ""let's go"" 3.5 || x") = Ok [] sts /\
  Forall worded (concat (map statement_symbols sts)) /\
  words (L "f x = g2 ""let's go"" 3.5 || x") =
  [L "f"; L "x"; L "g2"; L "let"; L "s"; L "go"; L "3"; L "5"; L "x"].
Proof. eexists. split; [vm_compute; reflexivity|]. split; [vm_compute; repeat constructor|vm_compute; reflexivity]. Qed.

(** ** C78: a command line that is not UTF-8 stops the tools before they do anything

    Arguments are byte sequences; [encode] (Utf8.v) is UTF-8. *)
Theorem C78_check : forall w raw,
  (exists args, Forall (Forall scalar) args /\ raw = map encode args /\ check_process w raw = check_main w args) \/
  ((exists bs, In bs raw /\ forall s, Forall scalar s -> bs <> encode s) /\
   exists m, forall w', check_process w' raw = ([], Panicked m)).
Proof.
  intros w raw. destruct (env_args raw) as [args|] eqn:E.
  - left. exists args. pose proof E as E'. apply env_args_iff in E' as [H1 H2]. repeat split; try assumption.
    unfold check_process. rewrite E. reflexivity.
  - right. split; [apply env_args_none, E|]. exists bad_argument. intros w'. unfold check_process. rewrite E. reflexivity.
Qed.
Print Assumptions C78_check.
(** also an argument that is not used *)
Theorem C78_unused : forall w program filename extra extra',
  Forall (Forall scalar) (program :: filename :: extra) ->
  (Forall (Forall scalar) extra' ->
   check_process w (map encode (program :: filename :: extra)) = check_process w (map encode (program :: filename :: extra'))) /\
  forall bs, (forall s, Forall scalar s -> bs <> encode s) ->
   fst (check_process w (map encode (program :: filename :: extra) ++ [bs])) = [] /\
   exists m, snd (check_process w (map encode (program :: filename :: extra) ++ [bs])) = Panicked m.
Proof.
  intros w program filename extra extra' H. split.
  - intros H'. unfold check_process.
    rewrite (proj2 (env_args_iff _ (program :: filename :: extra))) by auto.
    rewrite (proj2 (env_args_iff _ (program :: filename :: extra'))); [reflexivity|].
    split; [|reflexivity]. inversion H as [|? ? H1 H2]; inversion H2; subst. repeat constructor; assumption.
  - intros bs Hb. unfold check_process. rewrite (proj2 (env_args_none _)); [cbn; eauto|].
    exists bs. split; [apply in_or_app; right; left; reflexivity|exact Hb].
Qed.
Print Assumptions C78_unused.
(** elm-parser-dump, whatever clap makes of its command line: an argument that is not UTF-8
    means that the run prints nothing and does not depend on any file; otherwise the run is
    that for the path that clap has found, decoded. *)
Theorem C78_dump : forall w clap raw,
  ((exists bs, In bs raw /\ forall s, Forall scalar s -> bs <> encode s) ->
   fst (dump_process w clap raw) = [] /\ forall w', dump_process w' clap raw = dump_process w clap raw) /\
  (forall args, raw = map encode args -> Forall (Forall scalar) args ->
   (forall p quiet, In p args -> clap raw = Matches (Some (encode p)) quiet -> dump_process w clap raw = dump_main w (Some p) quiet) /\
   (forall quiet, clap raw = Matches None quiet -> dump_process w clap raw = ([], Returned)) /\
   (forall e, clap raw = Ends e -> dump_process w clap raw = ([], e))).
Proof.
  intros w clap raw. split.
  - intros H. apply env_args_none in H. unfold dump_process. rewrite H. destruct (clap raw); split; reflexivity.
  - intros args E H. assert (K : env_args raw = Some args) by (apply env_args_iff; auto). unfold dump_process. rewrite K.
    repeat split; intros; match goal with H : clap raw = _ |- _ => rewrite H end; try reflexivity.
    rewrite (proj2 (decode_iff (encode p) p)); [reflexivity|]. split; [|reflexivity].
    rewrite Forall_forall in H. auto.
Qed.
Print Assumptions C78_dump.

(** The byte 255 occurs in no UTF-8 text. *)
Lemma byte_255 : forall s, Forall scalar s -> [255%N] <> encode s.
Proof. intros s Hs E. assert (K : decode [255%N] = Some s) by (apply decode_iff; auto). vm_compute in K. discriminate. Qed.
Example C78_instance :
  let w := mkWorld (fun _ => Bytes (L "import A exposing (f)")) (fun _ => Some false) (fun _ => []) in
  check_process w (map encode [L "check"; L "A.elm"]) = ([ShowNames [L "f"]], Returned) /\
  check_process w (map encode [L "check"; L "A.elm"; L "x"]) = ([ShowNames [L "f"]], Returned) /\
  check_process w (map encode [L "check"; L "A.elm"] ++ [[255%N]]) = ([], Panicked bad_argument) /\
  dump_process w (fun _ => Matches (Some (L "A.elm")) true) (map encode [L "dump"; L "-q"; L "A.elm"]) =
    ([ParsedSuccessfully (L "A.elm")], Returned) /\
  dump_process w (fun _ => Matches (Some (L "A.elm")) true) ([255%N] :: map encode [L "-q"; L "A.elm"]) = ([], Panicked bad_argument).
Proof. vm_compute. repeat split. Qed.
