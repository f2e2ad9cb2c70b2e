(** * The two command-line tools (src/check.rs, src/dump.rs)

    A run prints a list of messages and ends.  The text of a
    message is added in Show.v and Screen.v; the debugging [println!] of
    src/ast/expression/character.rs:18 is added in Output.v.  The world - the file system as
    seen by the calls of the tools, and the traversal of [WalkDir] - is an input. *)
From Verif Require Import Base Nom Ast Utf8 Stmt Fail.

Inductive message :=
| ParsedSuccessfully (path : str)
| FailedToParse (path : str)
| ShowAst (sts : list statement_ast)
| ShowError (rest : str) (k : kind)
| ShowNames (names : list str)
| ShowUsage (program : str).

Inductive ending :=
| Returned
| Exited (code : N)
| Panicked (message : str)
| Diverged.

Definition run : Type := list message * ending.

(** continue with [k] unless the run has ended *)
Definition and_then (a : run) (k : run) : run :=
  match a with
  | (ms, Returned) => let (ms', e) := k in (ms ++ ms', e)
  | _ => a
  end.

(** what [File::open] and [read_to_string] meet *)
Inductive opened := NotFound | Unreadable | Bytes (bs : list N).

(** an entry of the traversal: its path (bytes, as on Unix) and the answer of
    [path().is_dir()] *)
Record entry := mkEntry { e_path : list N; e_dir : bool }.

Record world := mkWorld {
  disk : str -> opened;
  is_directory : str -> option bool;         (* std::fs::metadata *)
  walk : str -> list (option entry)          (* WalkDir::new(path); [None] is an error *)
}.

Definition not_found : str := L "file not found".
Definition cannot_read : str := L "something went wrong reading the file".

(** src/check.rs:45-49, src/dump.rs:21-25 *)
Definition contents (w : world) (path : str) : str + str :=
  match disk w path with
  | NotFound => inr not_found
  | Unreadable => inr cannot_read
  | Bytes bs => match decode bs with Some s => inl s | None => inr cannot_read end
  end.

(** what the two tools do with the answer of [file]; [f] prints the syntax tree *)
Definition show_result (x : eres (list statement_ast)) (f : list statement_ast -> message)
    (error : str -> kind -> message) : run :=
  match x with
  | EOk _ sts => ([f sts], Returned)
  | EError r k => ([error r k], Returned)
  | EAbort Incomplete | EAbort Failure => ([], Diverged)  (* not modelled; does not happen, C01 *)
  | EAbort Panic => ([], Panicked (L "index out of bounds"))
  | EAbort OutOfFuel => ([], Diverged)
  end.

(** ** src/check.rs *)

(** src/check.rs:14-22 *)
Fixpoint get_export_set_imports (e : export_set) : list str :=
  match e with
  | SubsetExport sub_sets => flat_map get_export_set_imports sub_sets
  | FunctionExport name => [name]
  | _ => []
  end.

(** src/check.rs:24-33 *)
Definition get_imported_names (sts : list statement_ast) : list str :=
  flat_map (fun st =>
    match st with
    | ImportStatement _ _ (Some export_sets) => get_export_set_imports export_sets
    | _ => []
    end) sts.

(** src/check.rs:35-60 *)
Definition check_main (w : world) (args : list str) : run :=
  match args with
  | [] => ([], Panicked (L "index out of bounds"))
  | [program] => ([ShowUsage program], Exited 1)
  | _ :: filename :: _ =>
      match contents w filename with
      | inr m => ([], Panicked m)
      | inl s => show_result (file_e s) (fun sts => ShowNames (get_imported_names sts)) ShowError
      end
  end.

(** ** src/dump.rs *)

(** src/dump.rs:20-45 *)
Definition dump_file (w : world) (filename : str) (quiet : bool) : run :=
  match contents w filename with
  | inr m => ([], Panicked m)
  | inl s =>
      show_result (file_e s)
        (fun sts => if quiet then ParsedSuccessfully filename else ShowAst sts)
        (fun r k => if quiet then FailedToParse filename else ShowError r k)
  end.

(** the last occurrence of a separator: [rsplitn(2, ..)] *)
Fixpoint rsplit (x : N) (p : list N) : option (list N * list N) :=
  match p with
  | [] => None
  | c :: p' =>
      match rsplit x p' with
      | Some (a, b) => Some (c :: a, b)
      | None => if (c =? x)%N then Some ([], p') else None
      end
  end.

(** [Path::file_name] and [Path::extension] of the standard library.
    Simplification: the last component is what follows the last slash (the
    entries below the root of a traversal do not end with a slash). *)
Definition file_name (p : list N) : list N :=
  match rsplit (C "/") p with Some (_, n) => n | None => p end.
Definition extension (p : list N) : option (list N) :=
  let n := file_name p in
  if str_eqb n (L "..") then None
  else match rsplit (C ".") n with
       | Some (_ :: _, e) => Some e
       | _ => None
       end.

(** src/dump.rs:51-62, the body of the loop *)
Definition dump_entry (w : world) (ent : entry) (quiet : bool) : run :=
  if e_dir ent then ([], Returned)
  else match extension (e_path ent) with
       | Some e =>
           if str_eqb e (L "elm") then
             match decode (e_path ent) with
             | Some path => dump_file w path quiet
             | None => ([], Returned)
             end
           else ([], Returned)
       | None => ([], Returned)
       end.

(** src/dump.rs:47-66; the error it returns is ignored by [main] *)
Fixpoint dump_directory (w : world) (entries : list (option entry)) (quiet : bool) : run :=
  match entries with
  | [] => ([], Returned)
  | None :: _ => ([], Returned)
  | Some ent :: rest => and_then (dump_entry w ent quiet) (dump_directory w rest quiet)
  end.

(** src/dump.rs:68-91; the command line is already read ([path] and [quiet]) *)
Definition dump_main (w : world) (path : option str) (quiet : bool) : run :=
  match path with
  | Some path =>
      match is_directory w path with
      | None => ([], Panicked not_found)
      | Some true => dump_directory w (walk w path) quiet
      | Some false => dump_file w path quiet
      end
  | None => ([], Returned)
  end.
