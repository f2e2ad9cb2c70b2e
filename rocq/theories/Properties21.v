(** * C62: the text of comments does not matter *)
From Verif Require Import Base Nom Regex Ast Spec Helpers Types Expr Stmt Good Total TwoRuns Whole CommentSpec Recomment RecommentCheck.

(** ** C62: comments are comments

    [recomment s s'] (CommentSpec.v): [s'] is [s] with other texts in its comments;
    [same_code]: equal, or both are comments.  Then one text is a file if and only if
    the other one is, and the two trees differ in the text of comment statements
    only: no definition, type, layout rule or operator ever depends on what a comment
    says, and a comment never hides or shows code.  What a comment says may look like
    code, a string, or another comment. *)
Theorem C62_comments : forall s s' l, recomment s s' -> file s = Ok [] l ->
  exists l', file s' = Ok [] l' /\ Forall2 same_code l l'.
Proof.
  intros s s' l Hs H. pose proof (rc_sim_file s s' (recomment_both _ _ Hs)) as K. unfold rel in K. rewrite H in K.
  destruct (file s') as [r' l'| |w] eqn:E.
  - destruct K as (Hl & Hr & _). apply rc_head in Hr. destruct r'; [|destruct Hr]. eauto.
  - destruct K.
  - exfalso. destruct (ok_file (S (length s')) s' (le_n _)) as [_ Ho]. rewrite E in Ho. exact Ho.
Qed.
Print Assumptions C62_comments.
Theorem C62_rejected : forall s s', recomment s s' -> (file s = Err <-> file s' = Err).
Proof.
  assert (K : forall s s', recomment s s' -> file s = Err -> file s' = Err).
  { intros s s' Hs H. pose proof (rc_sim_file s s' (recomment_both _ _ Hs)) as K. unfold rel in K. rewrite H in K.
    destruct (file s') as [r' l'| |w] eqn:E; [destruct K|reflexivity|].
    exfalso. destruct (ok_file (S (length s')) s' (le_n _)) as [_ Ho]. rewrite E in Ho. exact Ho. }
  intros s s' Hs. split; [apply K, Hs|]. apply K, recomment_sym, Hs.
Qed.
Print Assumptions C62_rejected.

(** the program, that is all statements but the comments, is the same one *)
Definition is_comment (st : statement_ast) : bool := match st with Comment _ => true | _ => false end.
Definition program (l : list statement_ast) : list statement_ast := filter (fun st => negb (is_comment st)) l.
Theorem C62_program : forall s s' l, recomment s s' -> file s = Ok [] l ->
  exists l', file s' = Ok [] l' /\ program l' = program l /\ length l' = length l.
Proof.
  intros s s' l Hs H. destruct (C62_comments s s' l Hs H) as (l' & H' & Hl). exists l'. split; [exact H'|]. clear - Hl.
  induction Hl as [|a b l l' Ha Hl [IH1 IH2]]; [auto|]. unfold program in *. destruct Ha as [c c'|a]; cbn; [auto|]. destruct (negb (is_comment a)); cbn; split; congruence.
Qed.
Print Assumptions C62_program.

(** *** Instances *)
Definition nl : str := [newline].
Definition with_comments (a b c d e : str) : str :=
  L "module Main exposing (..) --" ++ a ++ nl ++
  L "{-" ++ b ++ L "-}" ++ nl ++
  L "infixl 5 +++" ++ nl ++
  L "view : { a | open : Bool -- type" ++ c ++ nl ++
  L "  } -> List (Html msg)" ++ nl ++
  L "view m = -- " ++ d ++ nl ++
  L "  if m.open then [ ""-- {-"", '-' -- " ++ a ++ nl ++
  L "    , -1 - 2 ] else --)" ++ c ++ nl ++
  L "    { m | rows = (-) a b }" ++ nl ++
  L "--" ++ e ++ nl ++
  L "{-|" ++ nl ++ b ++ L "-}".
Definition with1 : str := with_comments (L " one") (L "two") [] (L "y = 3") (L "").
Definition with2 : str := with_comments [] (L " ""x = 5" ++ nl ++ nl ++ L "y {- -- ") (L "->(") [quote; quote; quote] (L "- { ).").
Example C62_instance : recomment with1 with2 /\ with1 <> with2 /\
  exists l, file with1 = Ok [] l /\ length l = 7 /\ length (program l) = 3.
Proof.
  split; [apply (rc_check_recomment 400); vm_compute; reflexivity|]. split; [discriminate|].
  eexists. split; [vm_compute; reflexivity|]. split; reflexivity.
Qed.
(** a text that is rejected stays so *)
Example C62_rejected_instance :
  let f c := L "x = [ 1 -- " ++ c ++ nl in recomment (f (L "a")) (f (L "]")) /\ file (f (L "a")) = Err.
Proof. split; [apply (rc_check_recomment 400); vm_compute; reflexivity|vm_compute; reflexivity]. Qed.

(** The conditions are needed.  An operator symbol right before the two dashes: this
    is no comment for the parser, but the operator [+--]. *)
Example C62_operator_needed : forall n, n = L "2" \/ n = L "3" ->
  file (L "x = 1 +-- " ++ n) =
  Ok [] [Function_ (mkFunc None (mkDef (L "x") [] (BinOp (Variable_ [L "+--"]) (Integer (L "1")) (Integer n))))].
Proof. intros n [->| ->]; vm_compute; reflexivity. Qed.
(** a parenthesis *)
Example C62_paren_needed :
  file (L "x = f (--+) y") <> Err /\ file (L "x = f (--.) y") <> Err /\
  file (L "x = f (--+) y") <> file (L "x = f (--.) y").
Proof. repeat split; vm_compute; discriminate. Qed.
(** the number of an [infix] declaration *)
Example C62_infix_needed :
  file (L "infixl 5 --+") = Ok [] [InfixDeclaration AssocL 5 (L "--+")] /\
  file (L "infixl 5 --.") = Ok [] [InfixDeclaration AssocL 5 (L "--.")].
Proof. split; vm_compute; reflexivity. Qed.
(** a block comment that begins with a minus is read as a record with a line comment *)
Example C62_minus_needed :
  let f c := L "x = f {-" ++ c ++ L "-}" ++ nl ++ L "  }" in
  file (f (L "- a ")) <> Err /\ file (f (L "- " ++ nl ++ L "  a = 1 --")) <> Err /\
  file (f (L "- a ")) <> file (f (L "- " ++ nl ++ L "  a = 1 --")).
Proof. repeat split; vm_compute; discriminate. Qed.
