(** * C43: what the tools write on standard output *)
From Verif Require Import Base Nom Regex Ast Spec Utf8 Helpers Stmt Fail Errors Cli CliProps Trace TraceProps
  Output Show ShowProps.

(** [screen st ls] is the text of the printed lines [ls] (Show.v), [dump_all] and [check_all] are
    the runs of the tools (Output.v), [file_e s] is the answer of [file] with its error (Fail.v).
    [st] is the choice of the release of the standard library; the theorems hold for all. *)

(** ** C43: the output of the dump tool determines the answer of the parser *)

(** Two files that give the same output without --quiet are both accepted, with the same
    syntax tree, or both rejected, with the same error. *)
Theorem C43_tree : forall st w w' path path' s s',
  is_directory w path = Some false -> is_directory w' path' = Some false ->
  has_text w path s -> has_text w' path' s' ->
  screen st (fst (dump_all w (Some path) false)) = screen st (fst (dump_all w' (Some path') false)) ->
  file_e s = file_e s'.
Proof.
  intros st w w' path path' s s' Hd Hd' Ht Ht' H.
  apply screen_inj with (names := false) in H; [|apply dump_readable..].
  apply (f_equal messages) in H. rewrite !(proj1 (agrees_dump _ _ _)) in H.
  cbn [dump_main] in H. rewrite Hd, Hd' in H. unfold dump_file in H.
  apply contents_text in Ht, Ht'. rewrite Ht, Ht' in H.
  destruct (file_e_total s) as [(l & E)|(r & k & E)], (file_e_total s') as [(l' & E')|(r' & k' & E')];
    rewrite E, E' in *; cbn in H; congruence.
Qed.
Print Assumptions C43_tree.

(** More generally the output of a run, on a file or on a directory, with or without --quiet,
    determines the printed lines: which files were parsed and what was said of each. *)
Theorem C43_dump : forall st w w' path path' quiet quiet',
  screen st (fst (dump_all w path quiet)) = screen st (fst (dump_all w' path' quiet')) ->
  fst (dump_all w path quiet) = fst (dump_all w' path' quiet').
Proof.
  intros st w w' path path' quiet quiet' H.
  apply screen_inj with (names := false) in H; [exact H|apply dump_readable..].
Qed.
Print Assumptions C43_dump.
Theorem C43_check : forall st w w' program program' filename filename' args args',
  screen st (fst (check_all w (program :: filename :: args))) =
    screen st (fst (check_all w' (program' :: filename' :: args'))) ->
  fst (check_all w (program :: filename :: args)) = fst (check_all w' (program' :: filename' :: args')).
Proof.
  intros st w w' program program' filename filename' args args' H.
  apply screen_inj with (names := true) in H; [exact H|apply check_readable..].
Qed.
Print Assumptions C43_check.

(** With --quiet every message is one line, whatever characters are in the path. *)
Theorem C43_quiet : forall st w path l, In l (fst (dump_all w path true)) -> ~ In 10%N (line_text st l).
Proof.
  intros st w path l H. apply quiet_one_line.
  pose proof (dump_lines w path true) as Hl. rewrite Forall_forall in Hl. apply (Hl l H). reflexivity.
Qed.
Print Assumptions C43_quiet.

(** Nothing but printable characters and line feeds reaches the terminal, whatever
    characters are in the files and in the paths. *)
Theorem C43_printable : forall st w path quiet program filename args c,
  (forall c, (32 <= c <= 126)%N -> printable st c = true) ->
  In c (screen st (fst (dump_all w path quiet))) \/ In c (screen st (fst (check_all w (program :: filename :: args)))) ->
  c = 10%N \/ printable st c = true.
Proof.
  intros st w path quiet program filename args c Ha [H|H].
  - pose proof (visible_screen st Ha false _ (dump_readable w path quiet)) as Hv.
    unfold visible in Hv. rewrite Forall_forall in Hv. exact (Hv c H).
  - pose proof (visible_screen st Ha true _ (check_readable w program filename args)) as Hv.
    unfold visible in Hv. rewrite Forall_forall in Hv. exact (Hv c H).
Qed.
Print Assumptions C43_printable.

Definition ascii_style (commas : bool) : style := mkStyle commas false true (fun c => (32 <=? c) && (c <=? 126))%N.
Definition lines (l : list str) : str := flat_map (fun s => s ++ [10%N]) l.
Definition file_with (text : str) : world := mkWorld (fun _ => Bytes text) (fun _ => Some false) (fun _ => []).
Example C43_instance :
  let run commas text := screen (ascii_style commas) (fst (dump_all (file_with text) (Some (L "A.elm")) false)) in
  run false (L "x = '\x41'") = lines
    [L "Ok(65)"; L "["; L "    Function("; L "        Function {"; L "            signature: None,";
     L "            definition: FunctionDefinition {"; L "                name: ""x"","; L "                args: [],";
     L "                body: Character("; L "                    'A'"; L "                )"; L "            }";
     L "        }"; L "    )"; L "]"] /\
  run true (L "x ""\") = lines
    [L "Error("; L "    Code("; L "        CompleteStr("; L "            ""x \""\\"","; L "        ),";
     L "        Alt,"; L "    ),"; L ")"] /\
  run true (L "--" ++ [9; 195; 169; 0]%N ++ L "'") =
    lines [L "["; L "    Comment("; L "        ""\t\u{e9}\0'"","; L "    ),"; L "]"].
Proof. vm_compute. auto. Qed.
