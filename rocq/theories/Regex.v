(** * The regex crate and nom's [re_matches!]

    A small backtracking semantics of regular expressions with the
    leftmost-first (Perl-like) priorities documented by the regex crate 1.0.0,
    and nom's [re_matches!] macro (feature "regexp", Cargo.toml:15), which
    collects all matches of [Regex::find_iter] and leaves the text after the
    last one.  Neither source is in /repo; both models are in the trusted
    base. *)
From Verif Require Import Base Nom.

(** the syntax of the patterns in the crate, e.g. src/ast/helpers.rs:22, 48, 54, 79 *)
Inductive re :=
| RClass (neg : bool) (ranges : list (char * char))   (* [..] and [^..] *)
| RDot                                                 (* any char but \n *)
| RSeq (a b : re)
| RAlt (a b : re)                                      (* left one preferred *)
| RStar (a : re)                                       (* greedy *)
| RPlus (a : re)                                       (* greedy *)
| RBegin.                                              (* ^, start of text *)

(** a character class, e.g. [a-zA-Z0-9_] in src/ast/helpers.rs:48 *)
Definition in_ranges (c : char) (l : list (char * char)) : bool :=
  existsb (fun '(lo, hi) => (lo <=? c)%N && (c <=? hi)%N) l.

(** [re_match r k at0 s]: match [r] at the head of [s], then continue with
    [k]; [at0] says whether the head of [s] is the start of the text.  The
    first success in priority order is returned.  [k] receives the rest. *)
Fixpoint re_match (r : re) (k : bool -> str -> option str) (at0 : bool) (s : str)
  : option str :=
  match r with
  | RClass neg l =>
      match s with
      | c :: s' => if xorb neg (in_ranges c l) then k false s' else None
      | [] => None
      end
  | RDot =>
      match s with
      | c :: s' => if N.eqb c 10 then None else k false s'
      | [] => None
      end
  | RSeq a b => re_match a (fun z s' => re_match b k z s') at0 s
  | RAlt a b => match re_match a k at0 s with
                | Some x => Some x
                | None => re_match b k at0 s
                end
  | RStar a =>
      (fix star (n : nat) (z : bool) (s : str) : option str :=
         match n with
         | O => k z s
         | S n' => match re_match a (fun z' s' => if length s' <? length s
                                               then star n' z' s' else None) z s with
                   | Some x => Some x
                   | None => k z s
                   end
         end) (length s) at0 s
  | RPlus a =>
      re_match a (fun z1 s1 =>
      (fix star (n : nat) (z : bool) (s : str) : option str :=
         match n with
         | O => k z s
         | S n' => match re_match a (fun z' s' => if length s' <? length s
                                               then star n' z' s' else None) z s with
                   | Some x => Some x
                   | None => k z s
                   end
         end) (length s1) z1 s1) at0 s
  | RBegin => if at0 then k at0 s else None
  end.

(** Leftmost match (part of re_matches!, e.g. src/ast/helpers.rs:48) from the head of [s] on: the matched text and the rest. *)
Fixpoint re_search (r : re) (at0 : bool) (s : str) : option (str * str) :=
  match re_match r (fun _ s' => Some s') at0 s with
  | Some rest => Some (firstn (length s - length rest) s, rest)
  | None => match s with
            | [] => None
            | _ :: s' => re_search r false s'
            end
  end.

(** Regex::find_iter: successive non-overlapping matches.  After an empty match
    the search resumes one character later; an empty match just after the
    previous match ([after] = true) is skipped. *)
Fixpoint find_iter (n : nat) (r : re) (at0 after : bool) (s : str)
  : list (str * str) :=
  match n with
  | O => []
  | S n' =>
      match re_search r at0 s with
      | None => []
      | Some (m, rest) =>
          match m with
          | [] =>
              let next := match rest with
                          | [] => []
                          | _ :: rest' => find_iter n' r false false rest'
                          end in
              if after && (length rest =? length s) then next else (m, rest) :: next
          | _ :: _ => (m, rest) :: find_iter n' r false true rest
          end
      end
  end.

(** re_matches!(regex), e.g. src/ast/helpers.rs:22, 48: the vector of matches; the rest is what follows the last
    match; no match is a recoverable error. *)
Definition re_matches (r : re) : parser (list str) :=
  fun s => match find_iter (S (length s)) r true false s with
           | [] => Err
           | l => Ok (snd (last l ([], s))) (map fst l)
           end.
