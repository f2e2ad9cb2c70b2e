(** * The properties, continued: the command-line tools *)
From Verif Require Import Base Nom Regex Ast Good Spec Helpers Types Expr Stmt Lexers Total
  Layout Grammar SoundS Wf Utf8 Fail Errors Cli CliProps.

(** ** C34: the tools read UTF-8, exactly *)
Theorem C34_utf8 : forall bs s, decode bs = Some s <-> Forall scalar s /\ bs = encode s.
Proof. exact decode_iff. Qed.
Print Assumptions C34_utf8.
Example C34_instance :
  decode [97; 195; 169; 226; 130; 172; 240; 159; 152; 128]%N = Some [97; 233; 8364; 128512]%N /\
  decode [192; 128]%N = None /\ decode [237; 160; 128]%N = None /\ decode [244; 144; 128; 128]%N = None /\
  decode [226; 130]%N = None.
Proof. vm_compute. auto. Qed.

(** ** C23: what elm-parser-check prints *)
(** [import_items], [item_names], [has_text], [fails_to_read]: CliProps.v; [file_e] is
    [file] with its error (Fail.v, and C39 on what the error is). *)
Theorem C23_run : forall w program filename args ms e,
  check_main w (program :: filename :: args) = (ms, e) <->
  (exists s sts, has_text w filename s /\ file s = Ok [] sts /\
     ms = [ShowNames (item_names (flat_map import_items sts))] /\ e = Returned) \/
  (exists s r k, has_text w filename s /\ file_e s = EError r k /\ ms = [ShowError r k] /\ e = Returned) \/
  (exists m, fails_to_read w filename m /\ ms = [] /\ e = Panicked m).
Proof. exact check_main_iff. Qed.
Print Assumptions C23_run.
(** A name is printed if and only if some import lists it. *)
Theorem C23_names : forall s sts n, file s = Ok [] sts ->
  (In n (get_imported_names sts) <->
   exists q alias items, In (ImportStatement q alias (Some (SubsetExport items))) sts /\
     In (FunctionExport n) items).
Proof.
  intros s sts n H. rewrite imported_names_wf by (apply file_sound in H as [_ H]; apply wf_GFile in H; apply H).
  unfold item_names. rewrite in_flat_map. split.
  - intros (i & Hi & Hn). apply in_flat_map in Hi as (st & Hst & Hi).
    destruct st as [| | |q al [[|items| |]|]| | | | | | |]; try contradiction.
    exists q, al, items. split; [exact Hst|]. destruct i; try contradiction.
    destruct Hn as [->|[]]. exact Hi.
  - intros (q & al & items & Hst & Hi). exists (FunctionExport n). split; [|left; reflexivity].
    apply in_flat_map. eexists. split; [exact Hst|exact Hi].
Qed.
Print Assumptions C23_names.
Example C23_instance : let w := mkWorld
      (fun p => if str_eqb p (L "A.elm")
                then Bytes (L "import B exposing (f, T(C, D), (+), f)" ++ [10%N] ++
                            L "import C exposing (..)" ++ [10%N] ++ L "import D as E exposing (g)" ++
                            [10%N] ++ L "h = 1")
                else NotFound) (fun _ => None) (fun _ => []) in
  check_main w [L "check"; L "A.elm"] = ([ShowNames [L "f"; L "+"; L "f"; L "g"]], Returned) /\
  check_main w [L "check"; L "B.elm"] = ([], Panicked not_found) /\
  check_main w [L "check"] = ([ShowUsage (L "check")], Exited 1).
Proof. vm_compute. auto. Qed.

(** ** C24: what elm-parser-dump prints *)
(** [selected], [report], [stops]: CliProps.v. *)
Theorem C24_directory : forall w quiet dir ms e, is_directory w dir = Some true ->
  (dump_main w (Some dir) quiet = (ms, e) <->
   exists entries rest paths, walk w dir = map Some entries ++ rest /\ selected entries paths /\
     Forall2 (report w quiet) paths ms /\ stops w rest e).
Proof. intros w quiet dir ms e H. cbn [dump_main]. rewrite H. apply dump_directory_iff. Qed.
Print Assumptions C24_directory.
Theorem C24_file : forall w quiet path ms e, is_directory w path = Some false ->
  (dump_main w (Some path) quiet = (ms, e) <->
   (exists m, report w quiet path m /\ ms = [m] /\ e = Returned) \/
   (exists m, fails_to_read w path m /\ ms = [] /\ e = Panicked m)).
Proof. intros w quiet path ms e H. cbn [dump_main]. rewrite H. apply dump_file_iff. Qed.
Print Assumptions C24_file.
(** In quiet mode the report says success if and only if [file] accepts the text. *)
Theorem C24_quiet : forall w path s, has_text w path s ->
  (report w true path (ParsedSuccessfully path) <-> exists sts, file s = Ok [] sts) /\
  (report w true path (FailedToParse path) <-> file s = Err).
Proof.
  intros w path s Ht.
  assert (Hu : forall s', has_text w path s' -> s' = s).
  { intros s' H. apply contents_text in H, Ht. congruence. }
  split; split.
  - intros H. inversion H as [s' sts Ht' Hf|]; subst. rewrite (Hu s' Ht') in Hf. eauto.
  - intros (sts & H). exact (report_ok w true path s sts Ht H).
  - intros H. inversion H as [|s' r k Ht' Hf]; subst. rewrite (Hu s' Ht') in Hf. apply file_err. eauto.
  - intros H. apply file_err in H as (r & k & H). exact (report_error w true path s r k Ht H).
Qed.
Print Assumptions C24_quiet.
(** Which entries are parsed: by the end of their name. *)
Theorem C24_extension : forall p, extension p = Some (L "elm") <-> elm_path p.
Proof. exact extension_elm. Qed.
Print Assumptions C24_extension.
Example C24_instance :
  let file_at p := Some (mkEntry p false) in
  let w rest := mkWorld
      (fun p => if str_eqb p (L "d/A.elm") then Bytes (L "a = 1")
                else if str_eqb p (L "d/b.x.elm") then Bytes (L "= 1")
                else if str_eqb p (L "d/C.elm") then Bytes [255%N] else NotFound)
      (fun _ => Some true)
      (fun _ => [Some (mkEntry (L "d") true); file_at (L "d/A.elm"); file_at (L "d/.elm");
                 Some (mkEntry (L "d/e.elm") true); file_at (L "d/b.x.elm"); file_at (L "d/elm");
                 file_at ([255%N] ++ L ".elm")] ++ rest) in
  let reports := [ParsedSuccessfully (L "d/A.elm"); FailedToParse (L "d/b.x.elm")] in
  dump_main (w []) (Some (L "d")) true = (reports, Returned) /\
  dump_main (w [None; file_at (L "d/A.elm")]) (Some (L "d")) true = (reports, Returned) /\
  dump_main (w [file_at (L "d/C.elm"); file_at (L "d/A.elm")]) (Some (L "d")) true =
    (reports, Panicked cannot_read).
Proof. vm_compute. auto. Qed.
