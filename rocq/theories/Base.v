(** * Characters, strings and literals

    A Rust [char] is modelled by its code point, a number of type [N]; a Rust
    [&str] / [CompleteStr] is modelled by the list of its characters.
    Simplification: every [N] is allowed as a character (a superset of the
    Unicode scalar values), and offsets are counted in characters where nom
    counts bytes.  nom only ever compares offsets of suffixes of one text for
    equality, and the only length the parser itself takes ([s.len() as u32],
    src/ast/helpers.rs:106 and 163) is the length of a run of ASCII spaces, so
    the two ways of counting agree. *)
From Coq Require Export Ascii String.
From Coq Require Export List NArith Bool Lia Arith.
Export ListNotations.

Notation char := N (only parsing).
Notation str := (list N) (only parsing).

Fixpoint lit (s : string) : str :=
  match s with
  | EmptyString => []
  | String c s' => N_of_ascii c :: lit s'
  end.

(** [L "abc"] is the list of code points of a literal, [C "a"] the code point
    of a character; both are computed when the file is read. *)
Notation "'L' s" :=
  (ltac:(let x := eval vm_compute in (lit s%string) in exact x))
  (at level 10, only parsing).
Notation "'C' c" :=
  (ltac:(let x := eval vm_compute in (N_of_ascii c%char) in exact x))
  (at level 10, only parsing).

Definition str_eqb (a b : str) : bool :=
  if list_eq_dec N.eq_dec a b then true else false.

Definition mem_str (x : str) (l : list str) : bool := existsb (str_eqb x) l.

Definition mem_char (x : char) (l : str) : bool := existsb (N.eqb x) l.

Lemma str_eqb_eq a b : str_eqb a b = true <-> a = b.
Proof. unfold str_eqb. destruct (list_eq_dec N.eq_dec a b); split; congruence. Qed.

Lemma mem_str_In x l : mem_str x l = true <-> In x l.
Proof.
  unfold mem_str. rewrite existsb_exists. split.
  - intros [y [Hy He]]. apply str_eqb_eq in He. subst; assumption.
  - intros H. exists x. split; [assumption|]. apply str_eqb_eq; reflexivity.
Qed.

Lemma mem_char_In x l : mem_char x l = true <-> In x l.
Proof.
  unfold mem_char. rewrite existsb_exists. split.
  - intros [y [Hy He]]. apply N.eqb_eq in He. subst; assumption.
  - intros H. exists x. split; [assumption|]. apply N.eqb_eq; reflexivity.
Qed.
