(** * The properties, continued: blank space at the end, and joining texts *)
From Verif Require Import Base Nom Regex Ast Good Spec Helpers Types Expr Stmt Lexers Total
  Layout Grammar SoundS Wf Render Printer Round CompleteS Front Trail Properties2.

(** ** C35: blank space at the end of a text never matters *)
(** [blanks]: only space, tab, carriage return and line feed. [line_end]: empty,
    or starting with a line feed. *)
Theorem C35_final_line_feed : forall s w, blanks w -> line_end w -> file (s ++ w) = file s.
Proof. exact file_trail_line. Qed.
Print Assumptions C35_final_line_feed.
(** Blanks on the last line matter in one case only: they become part of a
    line comment that ends the text. *)
Theorem C35_trailing : forall s w, blanks w ->
  file (s ++ w) = file s \/
  exists l c w0 w1, w = w0 ++ w1 /\ forallb not_newline w0 = true /\ line_end w1 /\
    file s = Ok [] (l ++ [Comment c]) /\ file (s ++ w) = Ok [] (l ++ [Comment (c ++ w0)]).
Proof. exact file_trail. Qed.
Print Assumptions C35_trailing.
Theorem C35_accepted : forall s w, blanks w ->
  ((exists l, file (s ++ w) = Ok [] l) <-> (exists l, file s = Ok [] l)).
Proof.
  intros s w Hw. destruct (C35_trailing s w Hw) as [->|(l & c & w0 & w1 & _ & _ & _ & -> & ->)];
    [reflexivity|]. split; intros _; eauto.
Qed.
Print Assumptions C35_accepted.
(** both cases occur *)
Example C35_instance : let s := L "x = f [ 1 -- c" ++ [10%N] ++ L "  , 2 ]" in let t := L "x = 1" ++ [10%N] ++ L "-- c" in
  file (s ++ [32; 9; 13; 10; 32]%N) = file s /\ (exists l, file s = Ok [] l) /\
  (exists l, file t = Ok [] (l ++ [Comment (L " c")]) /\
             file (t ++ [32; 10; 9]%N) = Ok [] (l ++ [Comment (L " c ")])).
Proof.
  vm_compute. repeat split; [eexists; reflexivity|].
  match goal with |- exists l, Ok _ [?a; _] = _ /\ _ => exists [a] end. split; reflexivity.
Qed.

(** ** C36: joining two accepted texts *)
(** In general two accepted texts cannot be joined: a statement of the second
    may continue the last statement of the first. *)
Theorem C36_joining_refuted : exists s t l l',
  file s = Ok [] l /\ file t = Ok [] l' /\ file (s ++ [newline] ++ t) <> Ok [] (l ++ l') /\
  exists l'', file (s ++ [newline] ++ t) = Ok [] l''.
Proof.
  exists (L "x = case a of b -> c"), (L "foo =-- d -> e" ++ [10%N] ++ L "  1").
  eexists. eexists. split; [vm_compute; reflexivity|]. split; [vm_compute; reflexivity|].
  split; [|eexists; vm_compute; reflexivity]. vm_compute. discriminate.
Qed.
Print Assumptions C36_joining_refuted.
