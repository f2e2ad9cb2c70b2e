(** * The command line of the two tools (src/check.rs:36-43, src/dump.rs:67-76)

    Arguments are byte sequences, as on Unix.  [env::args()] panics at an argument that is
    not UTF-8; [args_os] of clap does not. *)
From Verif Require Import Base Nom Ast Utf8 Stmt Fail Cli.

(** [std::env::args().collect()], src/check.rs:36, src/dump.rs:75 *)
Fixpoint env_args (raw : list (list N)) : option (list str) :=
  match raw with
  | [] => Some []
  | bs :: raw' =>
      match decode bs, env_args raw' with
      | Some a, Some l => Some (a :: l)
      | _, _ => None
      end
  end.

Definition bad_argument : str := L "called `Result::unwrap()` on an `Err` value".

(** src/check.rs:35-60 *)
Definition check_process (w : world) (raw : list (list N)) : run :=
  match env_args raw with
  | None => ([], Panicked bad_argument)
  | Some args => check_main w args
  end.

(** What clap makes of the command line is a parameter: it ends the program itself (help,
    version, usage), or it answers the path, if there is one, and whether [-q] is given. *)
Inductive matches := Ends (e : ending) | Matches (path : option (list N)) (quiet : bool).

(** src/dump.rs:67-92; [value_of] (line 77) panics if the path is not UTF-8 *)
Definition dump_process (w : world) (clap : list (list N) -> matches) (raw : list (list N)) : run :=
  match clap raw with
  | Ends e => ([], e)
  | Matches path quiet =>
      match env_args raw with
      | None => ([], Panicked bad_argument)
      | Some _ =>
          match path with
          | None => dump_main w None quiet
          | Some bs =>
              match decode bs with
              | None => ([], Panicked bad_argument)
              | Some p => dump_main w (Some p) quiet
              end
          end
      end
  end.

Lemma env_args_iff raw args : env_args raw = Some args <-> Forall (Forall scalar) args /\ raw = map encode args.
Proof.
  revert args. induction raw as [|bs raw IH]; intros args; cbn.
  - split; [intros [= <-]; split; [constructor|reflexivity]|]. intros [_ H]. destruct args; [reflexivity|discriminate].
  - split.
    + destruct (decode bs) as [a|] eqn:Ea; [|discriminate]. destruct (env_args raw) as [l|] eqn:El; [|discriminate].
      intros [= <-]. apply decode_iff in Ea as [H1 ->]. destruct (proj1 (IH l) eq_refl) as [H2 ->]. split; [constructor; assumption|reflexivity].
    + intros [H E]. destruct args as [|a l]; [discriminate|]. cbn in E. injection E as -> ->.
      apply Forall_cons_iff in H as [H1 H2]. rewrite (proj2 (decode_iff (encode a) a)) by auto.
      rewrite (proj2 (IH l)) by auto. reflexivity.
Qed.
Lemma env_args_none raw : env_args raw = None <-> exists bs, In bs raw /\ forall s, Forall scalar s -> bs <> encode s.
Proof.
  assert (D : forall bs, decode bs = None <-> forall s, Forall scalar s -> bs <> encode s).
  { intros bs. split.
    - intros H s Hs E. rewrite (proj2 (decode_iff bs s)) in H by auto. discriminate.
    - intros H. destruct (decode bs) as [s|] eqn:E; [|reflexivity]. apply decode_iff in E as [H1 H2]. destruct (H s H1 H2). }
  induction raw as [|bs raw IH]; cbn [env_args].
  - split; [discriminate|intros (x & [] & _)].
  - destruct (decode bs) as [a|] eqn:Ea.
    + assert (K : env_args raw = None <-> match env_args raw with Some l => Some (a :: l) | None => None end = None)
        by (destruct (env_args raw); split; congruence).
      rewrite <- K, IH. split; intros (x & H & Hx); exists x; (split; [|exact Hx]); [right; exact H|].
      destruct H as [<-|H]; [|exact H]. apply D in Hx. congruence.
    + split; [|destruct (env_args raw); reflexivity]. intros _. exists bs. split; [left; reflexivity|]. apply D, Ea.
Qed.
