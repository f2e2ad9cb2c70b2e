(** * Everything the two tools print: their messages and the debugging output

    Cli.v leaves the [println!] of src/ast/expression/character.rs:18
    out.  Here the tools are modelled again with it; what Cli.v says is what
    remains when the debugging lines are dropped (proved below). *)
From Verif Require Import Base Nom Regex Ast Utf8 Stmt Fail Errors Cli CliProps Trace TraceProps.

Inductive line :=
| Debug (r : option N)     (* [Ok(r)], or [Err(ParseIntError ..)] *)
| Message (m : message).

Definition debug_lines (t : list event) : list line :=
  flat_map (fun e => match e with Printed r => [Debug r] | _ => [] end) t.

(** src/check.rs:51-59, src/dump.rs:27-44: [file] is called, then its answer is shown.
    [file_t] (Trace.v) is the call with its events, [file_e] (Fail.v) with its error;
    both give the answer of [file] ([er_file], [forget_file]). *)
Definition show_all (s : str) (f : list statement_ast -> message)
    (error : str -> kind -> message) : list line * ending :=
  let '(ms, e) := show_result (file_e s) f error in
  (debug_lines (snd (file_t s)) ++ map Message ms, e).

(** src/check.rs:35-60 *)
Definition check_all (w : world) (args : list str) : list line * ending :=
  match args with
  | [] => ([], Panicked (L "index out of bounds"))
  | [program] => ([Message (ShowUsage program)], Exited 1)
  | _ :: filename :: _ =>
      match contents w filename with
      | inr m => ([], Panicked m)
      | inl s => show_all s (fun sts => ShowNames (get_imported_names sts)) ShowError
      end
  end.

(** src/dump.rs:20-45 *)
Definition dump_file_all (w : world) (filename : str) (quiet : bool) : list line * ending :=
  match contents w filename with
  | inr m => ([], Panicked m)
  | inl s =>
      show_all s
        (fun sts => if quiet then ParsedSuccessfully filename else ShowAst sts)
        (fun r k => if quiet then FailedToParse filename else ShowError r k)
  end.

(** src/dump.rs:51-62 *)
Definition dump_entry_all (w : world) (ent : entry) (quiet : bool) : list line * ending :=
  if e_dir ent then ([], Returned)
  else match extension (e_path ent) with
       | Some e =>
           if str_eqb e (L "elm") then
             match decode (e_path ent) with
             | Some path => dump_file_all w path quiet
             | None => ([], Returned)
             end
           else ([], Returned)
       | None => ([], Returned)
       end.

(** src/dump.rs:47-66 *)
Fixpoint dump_directory_all (w : world) (entries : list (option entry)) (quiet : bool)
  : list line * ending :=
  match entries with
  | [] => ([], Returned)
  | None :: _ => ([], Returned)
  | Some ent :: rest =>
      match dump_entry_all w ent quiet with
      | (ls, Returned) => let (ls', e) := dump_directory_all w rest quiet in (ls ++ ls', e)
      | o => o
      end
  end.

(** src/dump.rs:68-91 *)
Definition dump_all (w : world) (path : option str) (quiet : bool) : list line * ending :=
  match path with
  | Some path =>
      match is_directory w path with
      | None => ([], Panicked not_found)
      | Some true => dump_directory_all w (walk w path) quiet
      | Some false => dump_file_all w path quiet
      end
  | None => ([], Returned)
  end.

(** ** Without the debugging lines, this is Cli.v *)

Definition messages (ls : list line) : list message :=
  flat_map (fun l => match l with Message m => [m] | Debug _ => [] end) ls.

Lemma messages_app a b : messages (a ++ b) = messages a ++ messages b.
Proof. apply flat_map_app. Qed.
Lemma messages_debug t : messages (debug_lines t) = [].
Proof. induction t as [|[] t IH]; [reflexivity|exact IH..]. Qed.
Lemma messages_map ms : messages (map Message ms) = ms.
Proof. induction ms as [|m ms IH]; [reflexivity|]. cbn. f_equal. exact IH. Qed.

(** the two runs print the same messages and end in the same way *)
Definition agrees (x : list line * ending) (y : run) : Prop := messages (fst x) = fst y /\ snd x = snd y.

Lemma agrees_show s f error : agrees (show_all s f error) (show_result (file_e s) f error).
Proof.
  unfold show_all. destruct (show_result (file_e s) f error) as [ms e].
  split; cbn [fst snd]; [|reflexivity]. rewrite messages_app, messages_debug, messages_map. reflexivity.
Qed.
Lemma agrees_check w args : agrees (check_all w args) (check_main w args).
Proof.
  destruct args as [|p [|filename args]]; [split; reflexivity..|]. cbn [check_all check_main].
  destruct (contents w filename); [apply agrees_show|split; reflexivity].
Qed.
Lemma agrees_file w path quiet : agrees (dump_file_all w path quiet) (dump_file w path quiet).
Proof.
  unfold dump_file_all, dump_file. destruct (contents w path); [apply agrees_show|split; reflexivity].
Qed.
Lemma agrees_entry w ent quiet : agrees (dump_entry_all w ent quiet) (dump_entry w ent quiet).
Proof.
  unfold dump_entry_all, dump_entry. destruct (e_dir ent); [split; reflexivity|].
  destruct (extension _) as [e|]; [|split; reflexivity]. destruct (str_eqb e _); [|split; reflexivity].
  destruct (decode _); [apply agrees_file|split; reflexivity].
Qed.
Lemma agrees_directory w es quiet : agrees (dump_directory_all w es quiet) (dump_directory w es quiet).
Proof.
  induction es as [|[ent|] es IH]; [split; reflexivity| |split; reflexivity].
  cbn [dump_directory_all dump_directory]. destruct (agrees_entry w ent quiet) as [H1 H2].
  destruct (dump_entry_all w ent quiet) as [ls e], (dump_entry w ent quiet) as [ms e'].
  cbn [fst snd] in *. subst e'. destruct e; cbn [and_then]; [|split; [exact H1|reflexivity]..].
  destruct IH as [H3 H4]. destruct (dump_directory_all w es quiet) as [ls' e], (dump_directory w es quiet) as [ms' e'].
  cbn [fst snd] in *. split; cbn [fst snd]; [|exact H4]. rewrite messages_app. congruence.
Qed.
Theorem agrees_dump w path quiet : agrees (dump_all w path quiet) (dump_main w path quiet).
Proof.
  destruct path as [path|]; [|split; reflexivity]. cbn [dump_all dump_main].
  destruct (is_directory w path) as [[]|]; [apply agrees_directory|apply agrees_file|split; reflexivity].
Qed.

(** ** Where the debugging lines come from *)

Lemma in_debug t v : In (Debug v) (debug_lines t) <-> In (Printed v) t.
Proof.
  unfold debug_lines. rewrite in_flat_map. split.
  - intros (e & He & H). destruct e; cbn in H; [|contradiction..]. destruct H as [[= ->]|[]]. exact He.
  - intros H. exists (Printed v). split; [exact H|left; reflexivity].
Qed.
Lemma debug_messages ms v : ~ In (Debug v) (map Message ms).
Proof. rewrite in_map_iff. intros (m & H & _). discriminate. Qed.
Lemma debug_show s f error v : In (Debug v) (fst (show_all s f error)) -> escape_in s v.
Proof.
  unfold show_all. destruct (show_result _ f error) as [ms e]. cbn [fst]. intros H.
  apply in_app_or in H as [H|H]; [|destruct (debug_messages _ _ H)]. apply in_debug in H.
  apply (proj1 (prints_file s)), H.
Qed.
Lemma debug_file w path quiet v : In (Debug v) (fst (dump_file_all w path quiet)) ->
  exists s, has_text w path s /\ escape_in s v.
Proof.
  unfold dump_file_all. destruct (contents w path) as [s|m] eqn:E; [|intros []]. intros H.
  exists s. split; [apply contents_text, E|]. eapply debug_show, H.
Qed.
Lemma debug_entry w ent quiet v : In (Debug v) (fst (dump_entry_all w ent quiet)) ->
  exists path s, has_text w path s /\ escape_in s v.
Proof.
  unfold dump_entry_all. destruct (e_dir ent); [intros []|].
  destruct (extension _) as [e|]; [|intros []]. destruct (str_eqb e _); [|intros []].
  destruct (decode _) as [path|]; [|intros []]. intros H. exists path. eapply debug_file, H.
Qed.
Lemma debug_directory w es quiet v : In (Debug v) (fst (dump_directory_all w es quiet)) ->
  exists path s, has_text w path s /\ escape_in s v.
Proof.
  induction es as [|[ent|] es IH]; [intros []| |intros []]. cbn [dump_directory_all].
  pose proof (debug_entry w ent quiet v) as H1.
  destruct (dump_entry_all w ent quiet) as [ls e]. destruct e; [|exact H1..].
  destruct (dump_directory_all w es quiet) as [ls' e]. cbn [fst] in *. intros H.
  apply in_app_or in H as [H|H]; auto.
Qed.
Theorem debug_dump w path quiet v : In (Debug v) (fst (dump_all w path quiet)) ->
  exists path s, has_text w path s /\ escape_in s v.
Proof.
  destruct path as [path|]; [|intros []]. cbn [dump_all].
  destruct (is_directory w path) as [[]|]; [apply debug_directory| |intros []].
  intros H. exists path. eapply debug_file, H.
Qed.
Theorem debug_check w args v : In (Debug v) (fst (check_all w args)) ->
  exists path s, has_text w path s /\ escape_in s v.
Proof.
  destruct args as [|p [|filename args]]; cbn [check_all fst In]; [tauto|intros [H|[]]; discriminate|].
  destruct (contents w filename) as [s|m] eqn:E; [|intros []]. intros H. exists filename, s.
  split; [apply contents_text, E|]. eapply debug_show, H.
Qed.
