(** * C63: the number of spaces and blank lines does not matter *)
From Verif Require Import Base Nom Regex Ast Spec Helpers Types Expr Stmt Good Total TwoRuns Whole CommentSpec LayoutSpec Relayout RelayoutCheck Properties21.

(** ** C63: spacing within lines, blank lines and comments are free

    [relayout s s'] (LayoutSpec.v): [s'] is [s] with other numbers of spaces between
    the words of its lines, other blank lines where it has some, and other texts in
    its comments; the column at which a line begins stays, and so do strings and
    character literals.  Then one text is a file if and only if the other one is,
    and the trees are the same but for the text of comments. *)
Theorem C63_layout : forall s s' l, relayout s s' -> file s = Ok [] l ->
  exists l', file s' = Ok [] l' /\ Forall2 same_code l l'.
Proof.
  intros s s' l Hs H. pose proof (rc_sim_file s s' (relayout_both _ _ Hs)) as K. unfold rel in K. rewrite H in K.
  destruct (file s') as [r' l'| |w] eqn:E.
  - destruct K as (Hl & Hr & _). apply rc_head in Hr. destruct r'; [|destruct Hr]. eauto.
  - destruct K.
  - exfalso. destruct (ok_file (S (length s')) s' (le_n _)) as [_ Ho]. rewrite E in Ho. exact Ho.
Qed.
Print Assumptions C63_layout.
Theorem C63_rejected : forall s s', relayout s s' -> (file s = Err <-> file s' = Err).
Proof.
  assert (K : forall s s', relayout s s' -> file s = Err -> file s' = Err).
  { intros s s' Hs H. pose proof (rc_sim_file s s' (relayout_both _ _ Hs)) as K. unfold rel in K. rewrite H in K.
    destruct (file s') as [r' l'| |w] eqn:E; [destruct K|reflexivity|].
    exfalso. destruct (ok_file (S (length s')) s' (le_n _)) as [_ Ho]. rewrite E in Ho. exact Ho. }
  intros s s' Hs. split; [apply K, Hs|]. apply K, relayout_sym, Hs.
Qed.
Print Assumptions C63_rejected.
Theorem C63_program : forall s s' l, relayout s s' -> file s = Ok [] l ->
  exists l', file s' = Ok [] l' /\ program l' = program l /\ length l' = length l /\
    (forallb (fun st => negb (is_comment st)) l = true -> l' = l).
Proof.
  intros s s' l Hs H. destruct (C63_layout s s' l Hs H) as (l' & H' & Hl). exists l'. split; [exact H'|]. clear - Hl.
  induction Hl as [|a b l l' Ha Hl (IH1 & IH2 & IH3)]; [auto|]. unfold program in *. destruct Ha as [c c'|a]; cbn.
  - split; [exact IH1|]. split; [congruence|]. discriminate.
  - destruct (negb (is_comment a)); cbn; (split; [congruence|]; split; [congruence|]).
    + intros E. f_equal. apply IH3, E.
    + discriminate.
Qed.
Print Assumptions C63_program.

(** *** Instances *)
(** [a], [b]: one or more spaces; [c]: blank lines; [d]: the text of a comment *)
Definition laid_out (a b c d : str) : str :=
  nl ++ c ++ nl ++ L "module" ++ a ++ L "Main" ++ b ++ L "exposing" ++ a ++ L "( T(A, B) ," ++ b ++ b ++ nl ++ L "  view)" ++ b ++ nl ++ c ++ nl ++
  L "infixl" ++ a ++ L "5" ++ b ++ L "+++" ++ nl ++ c ++ nl ++
  L "type" ++ a ++ L "T a =" ++ b ++ L "A" ++ a ++ L "|" ++ b ++ L "B" ++ a ++ L "(List" ++ b ++ L "a)" ++ nl ++ c ++ nl ++
  L "view" ++ b ++ L ":" ++ a ++ L "{" ++ a ++ L "a" ++ b ++ L "|" ++ a ++ L "open : Bool --" ++ d ++ nl ++
  L "  } ->" ++ b ++ L "Html msg" ++ nl ++
  L "view" ++ a ++ L "m" ++ b ++ L "=" ++ a ++ L "--" ++ d ++ nl ++ c ++ nl ++
  L "  if" ++ a ++ L "m.open" ++ b ++ L "then [ ""a  b"", ' '," ++ a ++ a ++ L "-1" ++ b ++ L "-" ++ a ++ L "2 ]" ++ a ++ L "else" ++ b ++ nl ++ c ++ nl ++
  L "    case" ++ a ++ L "m of" ++ b ++ nl ++
  L "      Just" ++ b ++ L "x ->" ++ a ++ L "x" ++ nl ++ c ++ nl ++
  L "      _" ++ a ++ L "->" ++ b ++ L "let" ++ a ++ nl ++
  L "          y" ++ a ++ L "=" ++ b ++ L "1" ++ nl ++ c ++ nl ++
  L "          z = \p" ++ b ++ L "q ->" ++ a ++ L "p +" ++ b ++ L "q" ++ nl ++
  L "        in" ++ a ++ L "y" ++ nl ++ c ++ nl ++
  L "--" ++ d ++ nl ++ c ++ nl.
Definition laid1 : str := laid_out (L " ") (L " ") nl (L " a").
Definition laid2 : str := laid_out (L "   ") (L "      ") (L "  " ++ nl ++ nl ++ L "     " ++ nl) (L "x = "" {-").
Example C63_instance : relayout laid1 laid2 /\ laid1 <> laid2 /\
  exists l, file laid1 = Ok [] l /\ length l = 5 /\ length (program l) = 4.
Proof.
  split; [apply (rl_check_relayout 2000); vm_compute; reflexivity|]. split; [discriminate|].
  eexists. split; [vm_compute; reflexivity|]. split; reflexivity.
Qed.
(** a text that is rejected stays so *)
Example C63_rejected_instance :
  let f a := L "x =" ++ a ++ L "[ 1" ++ a in relayout (f (L " ")) (f (L "  ")) /\ file (f (L " ")) = Err.
Proof. split; [apply (rl_check_relayout 400); vm_compute; reflexivity|vm_compute; reflexivity]. Qed.

(** The conditions are needed.  The column of a line. *)
Example C63_column_needed :
  file (L "x = f" ++ nl ++ L " y") <> Err /\ file (L "x = f" ++ nl ++ L "y") = Err.
Proof. split; vm_compute; [discriminate|reflexivity]. Qed.
(** Blank lines where there were none. *)
Example C63_blank_needed :
  file (L "x : a" ++ nl ++ L "x = 1") <> Err /\ file (L "x : a" ++ nl ++ nl ++ L "x = 1") = Err.
Proof. split; vm_compute; [discriminate|reflexivity]. Qed.
(** Spaces where there were none. *)
Example C63_space_needed :
  file (L "x : a" ++ nl ++ L "x = 1") <> Err /\ file (L "x : a " ++ nl ++ L "x = 1") = Err.
Proof. split; vm_compute; [discriminate|reflexivity]. Qed.
(** Exactly one space after a comma in a list of exported constructors. *)
Example C63_comma_needed :
  file (L "module M exposing (T(A, B))") <> Err /\ file (L "module M exposing (T(A,  B))") = Err /\
  file (L "module M exposing (T(A,B))") = Err.
Proof. split; [|split]; vm_compute; [discriminate|reflexivity|reflexivity]. Qed.
