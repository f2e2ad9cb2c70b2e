(** * nom 4.0.0 combinators on [CompleteStr] input

    The crate's parsers are written with the macros of nom 4.0.0
    (Cargo.toml:15, Cargo.lock "nom 4.0.0").  nom's source is not part of
    /repo; this file models the documented behaviour of exactly the macros and
    functions the crate uses, instantiated to [CompleteStr].  It is part of the
    trusted base (see DESIGN.md).

    Error *contents* (positions, ErrorKinds of the verbose-errors feature) are
    not modelled: nom's recoverable [Err::Error(_)] is the single value [Err].
    Everything that is neither success nor a recoverable error aborts the whole
    parse, and is kept apart by a reason. *)
From Verif Require Import Base.

Inductive abort :=
| Incomplete            (* nom Err::Incomplete *)
| Failure               (* nom Err::Failure *)
| Panic                 (* a Rust panic, e.g. index out of range *)
| OutOfFuel.            (* model only: the recursion bound was reached *)

Inductive res (A : Type) :=
| Ok (rest : str) (a : A)
| Err
| Abort (why : abort).
Arguments Ok {A} rest a.
Arguments Err {A}.
Arguments Abort {A} why.

(** The type of the functions that named! defines, e.g. src/ast/helpers.rs:18. *)
Definition parser (A : Type) := str -> res A.

(** CompleteStr implements AtEof with [at_eof = true]; nom's [need_more]
    answers Error at end of file and Incomplete otherwise. *)
Definition at_eof : bool := true.
Definition need_more {A} : res A := if at_eof then Err else Abort Incomplete.

(** do_parse! / sequencing, e.g. src/ast/expression/float.rs:7, src/ast/expression/function.rs:11. *)
Definition bind {A B} (p : parser A) (f : A -> parser B) : parser B :=
  fun s => match p s with
           | Ok r a => f a r
           | Err => Err
           | Abort w => Abort w
           end.
Definition ret {A} (a : A) : parser A := fun s => Ok s a.

Notation "x <- p ;; q" := (bind p (fun x => q))
  (at level 100, p at next level, right associativity).
Notation "p ;;; q" := (bind p (fun _ => q))
  (at level 100, right associativity).

(** map!, e.g. src/ast/helpers.rs:20, 37. *)
Definition map_ {A B} (f : A -> B) (p : parser A) : parser B :=
  fun s => match p s with
           | Ok r a => Ok r (f a)
           | Err => Err
           | Abort w => Abort w
           end.

(** map_res!, e.g. src/ast/helpers.rs:21, 52: [None] stands for the closure's [Err(_)], a recoverable error. *)
Definition map_res {A B} (f : A -> option B) (p : parser A) : parser B :=
  fun s => match p s with
           | Ok r a => match f a with Some b => Ok r b | None => Err end
           | Err => Err
           | Abort w => Abort w
           end.

(** [map!(p, |v| v[0].to_string())], src/ast/helpers.rs:48, 54, 79: indexing panics on an empty vector. *)
Definition map_index0 {A} (p : parser (list A)) : parser A :=
  fun s => match p s with
           | Ok r (x :: _) => Ok r x
           | Ok _ [] => Abort Panic
           | Err => Err
           | Abort w => Abort w
           end.

(** value!, e.g. src/ast/helpers.rs:100, src/ast/statement/infix.rs:11. *)
Definition value {A B} (b : B) (p : parser A) : parser B := map_ (fun _ => b) p.

(** alt!, e.g. src/ast/helpers.rs:19, 99: the next alternative is tried on a recoverable error only. *)
Definition alt {A} (p q : parser A) : parser A :=
  fun s => match p s with
           | Err => q s
           | o => o
           end.
Infix "<|>" := alt (at level 60, right associativity).

(** opt!, e.g. src/ast/helpers.rs:71, 151. *)
Definition opt {A} (p : parser A) : parser (option A) :=
  fun s => match p s with
           | Ok r a => Ok r (Some a)
           | Err => Ok s None
           | Abort w => Abort w
           end.

(** preceded! (src/ast/helpers.rs:79), terminated! (src/ast/expression/function.rs:42),
    delimited! (src/ast/expression/variable.rs:22), separated_pair!
    (src/ast/expression/mod.rs:79). *)
Definition preceded {A B} (p : parser A) (q : parser B) : parser B :=
  p ;;; q.
Definition terminated {A B} (p : parser A) (q : parser B) : parser A :=
  a <- p ;; q ;;; ret a.
Definition delimited {A B D} (p : parser A) (q : parser B) (t : parser D) : parser B :=
  p ;;; b <- q ;; t ;;; ret b.
Definition separated_pair {A B D} (p : parser A) (sep : parser B) (q : parser D)
  : parser (A * D) :=
  a <- p ;; sep ;;; b <- q ;; ret (a, b).

(** tag!, e.g. src/ast/helpers.rs:20, 79: compare the head of the input with a literal. *)
Fixpoint strip (t s : str) : option str :=
  match t, s with
  | [], _ => Some s
  | c :: t', d :: s' => if N.eqb c d then strip t' s' else None
  | _ :: _, [] => None
  end.
(** On a proper prefix of the tag nom answers need_more, otherwise Error; with
    CompleteStr both are [Err]. *)
Definition tag (t : str) : parser str :=
  fun s => match strip t s with
           | Some r => Ok r t
           | None => need_more
           end.

(** char!, e.g. src/ast/helpers.rs:42, 104. *)
Definition char_ (c : char) : parser char :=
  fun s => match s with
           | [] => need_more
           | d :: r => if N.eqb d c then Ok r d else Err
           end.

(** anychar, src/ast/expression/character.rs:22. *)
Definition anychar : parser char :=
  fun s => match s with
           | [] => need_more
           | d :: r => Ok r d
           end.

(** split_at_position, what the functions below (is_a!, digit, space1, multispace0)
    are made of: the longest prefix of characters satisfying [f]. *)
Fixpoint span (f : char -> bool) (s : str) : str * str :=
  match s with
  | [] => ([], [])
  | c :: s' => if f c then let '(a, b) := span f s' in (c :: a, b) else ([], s)
  end.

(** zero or more characters: multispace0, e.g. src/ast/expression/mod.rs:37 *)
Definition take_while0 (f : char -> bool) : parser str :=
  fun s => let '(a, b) := span f s in Ok b a.
(** one or more characters: is_a!, digit, space1, multispace, e.g. src/ast/helpers.rs:67 *)
Definition take_while1 (f : char -> bool) : parser str :=
  fun s => match span f s with
           | ([], _) => Err
           | (a, b) => Ok b a
           end.

(** is_a!, e.g. src/ast/helpers.rs:67, 71. *)
Definition is_a (cs : str) : parser str := take_while1 (fun c => mem_char c cs).

(** digit (src/ast/expression/float.rs:12, 14), space1 (src/ast/expression/mod.rs:176),
    multispace0 (src/ast/expression/mod.rs:37), multispace (= multispace1) *)
Definition is_digit (c : char) : bool := (C "0" <=? c)%N && (c <=? C "9")%N.
Definition digit : parser str := take_while1 is_digit.
Definition is_space (c : char) : bool := mem_char c [32%N; 9%N].
Definition space1 : parser str := take_while1 is_space.
Definition is_multispace (c : char) : bool := mem_char c [32%N; 9%N; 13%N; 10%N].
Definition multispace0 : parser str := take_while0 is_multispace.
Definition multispace : parser str := take_while1 is_multispace.

(** take!(n), src/ast/expression/character.rs:14: n characters. *)
Definition take (n : nat) : parser str :=
  fun s => if length s <? n then need_more else Ok (skipn n s) (firstn n s).

(** take_until_and_consume!, src/ast/statement/comment.rs:16: up to the first occurrence of the literal, which is
    consumed but not returned. *)
Fixpoint find_sub (t s : str) : option (str * str) :=
  match strip t s with
  | Some r => Some ([], r)
  | None => match s with
            | [] => None
            | c :: s' => match find_sub t s' with
                         | Some (a, r) => Some (c :: a, r)
                         | None => None
                         end
            end
  end.
Definition take_until_and_consume (t : str) : parser str :=
  fun s => match find_sub t s with
           | Some (a, r) => Ok r a
           | None => need_more
           end.

(** eof!, src/ast/mod.rs:13. *)
Definition eof : parser str :=
  fun s => match s with
           | [] => if at_eof then Ok [] [] else Err
           | _ :: _ => Err
           end.

(** Repetition.  Every loop of nom's macros leaves as soon as one turn consumes
    nothing, so [S (length s)] turns are enough; the bound is made explicit and
    reaching it is reported, never hidden. *)

(** many0!, e.g. src/ast/expression/function.rs:30, src/ast/type_/mod.rs:113: a turn that consumes nothing ends the loop with success at eof
    (which CompleteStr always reports), and is an error otherwise. *)
Fixpoint many0_loop {A} (n : nat) (p : parser A) (s : str) : res (list A) :=
  match n with
  | O => Abort OutOfFuel
  | S n' =>
      match p s with
      | Ok r a =>
          if length r =? length s then (if at_eof then Ok s [] else Err)
          else match many0_loop n' p r with
               | Ok r' l => Ok r' (a :: l)
               | o => o
               end
      | Err => Ok s []
      | Abort w => Abort w
      end
  end.
Definition many0 {A} (p : parser A) : parser (list A) :=
  fun s => many0_loop (S (length s)) p s.

(** many1!, e.g. src/ast/helpers.rs:98, 102: the first turn may consume nothing; a later one that does ends the
    loop. *)
Fixpoint many1_loop {A} (n : nat) (p : parser A) (s : str) : res (list A) :=
  match n with
  | O => Abort OutOfFuel
  | S n' =>
      match p s with
      | Ok r a =>
          if length r =? length s then Ok s []
          else match many1_loop n' p r with
               | Ok r' l => Ok r' (a :: l)
               | o => o
               end
      | Err => Ok s []
      | Abort w => Abort w
      end
  end.
Definition many1 {A} (p : parser A) : parser (list A) :=
  fun s => match p s with
           | Ok r a => match many1_loop (S (length r)) p r with
                       | Ok r' l => Ok r' (a :: l)
                       | o => o
                       end
           | Err => Err
           | Abort w => Abort w
           end.

(** The common tail loop of separated_list! and separated_nonempty_list!: the
    loop ends with success before the separator when the separator fails or
    consumes nothing, or when the element after it fails or consumes nothing. *)
Fixpoint sep_loop {A B} (n : nat) (sep : parser B) (p : parser A) (s : str)
  : res (list A) :=
  match n with
  | O => Abort OutOfFuel
  | S n' =>
      match sep s with
      | Err => Ok s []
      | Abort w => Abort w
      | Ok s2 _ =>
          if length s2 =? length s then Ok s []
          else match p s2 with
               | Err => Ok s []
               | Abort w => Abort w
               | Ok s3 a =>
                   if length s3 =? length s2 then Ok s []
                   else match sep_loop n' sep p s3 with
                        | Ok r l => Ok r (a :: l)
                        | o => o
                        end
               end
      end
  end.

(** separated_list!, e.g. src/ast/expression/mod.rs:34, 54: no first element gives the empty list. *)
Definition separated_list {A B} (sep : parser B) (p : parser A) : parser (list A) :=
  fun s => match p s with
           | Err => Ok s []
           | Abort w => Abort w
           | Ok r a =>
               if length r =? length s then Err
               else match sep_loop (S (length r)) sep p r with
                    | Ok r' l => Ok r' (a :: l)
                    | o => o
                    end
           end.

(** separated_nonempty_list!, e.g. src/ast/helpers.rs:41, src/ast/expression/variable.rs:15. *)
Definition separated_nonempty_list {A B} (sep : parser B) (p : parser A)
  : parser (list A) :=
  fun s => match p s with
           | Err => Err
           | Abort w => Abort w
           | Ok r a =>
               if length r =? length s then Err
               else match sep_loop (S (length r)) sep p r with
                    | Ok r' l => Ok r' (a :: l)
                    | o => o
                    end
           end.
