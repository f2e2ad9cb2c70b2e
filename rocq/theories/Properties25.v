(** * C66: type annotations are optional *)
From Verif Require Import Base Nom Regex Ast Good Spec Helpers Types Expr Stmt CompleteE Keywords Decls Whole Indep IndepTop Annot Properties20.

(** ** C66: a type annotation can be removed, and it can be put before any definition

    A definition with its annotation is: the lines of the annotation [g], a line feed,
    [b], which is empty or a multiple of 2^32 spaces, and the text [t] of the
    definition.  Without the annotation the same definition is read, and the rest of
    the text is the same.  And [g] is an annotation before every definition [t']: not
    even the name is compared. *)
Theorem C66_removed : forall s r sg d, statement s = Ok r (Function_ (mkFunc (Some sg) d)) ->
  exists g b t, s = g ++ [newline] ++ b ++ t /\ all_spaces b = true /\ (N.of_nat (length b) mod 2 ^ 32 = 0)%N /\
  statement t = Ok r (Function_ (mkFunc None d)) /\
  forall t' r' d', statement t' = Ok r' (Function_ (mkFunc None d')) ->
    statement (g ++ [newline] ++ t') = Ok r' (Function_ (mkFunc (Some sg) d')).
Proof.
  intros s r sg d H. apply statement_function_iff, annotation_removed in H as (g & b & t & -> & Hb & Hi & Ht & Hg).
  exists g, b, t. split; [reflexivity|]. split; [exact Hb|]. split; [exact Hi|]. split; [apply statement_function_iff, Ht|].
  intros t' r' d' H. apply statement_function_iff. apply Hg. apply statement_function_iff, H.
Qed.
Print Assumptions C66_removed.

(** In a let: [local d] is the binding of a name if [d] has no arguments, and a
    function if it has.  [let_item m s x r]: the reader of one entry of a let in
    column [m] reads the entry [x] at [s], and the text [r] remains. *)
Theorem C66_local : forall m s r sg d, let_item m s (LetFunction (mkFunc (Some sg) d)) r ->
  exists g b t, s = g ++ [newline] ++ b ++ t /\ all_spaces b = true /\ (N.of_nat (length b) mod 2 ^ 32 = m)%N /\
  let_item m t (local d) r.
Proof. intros m s r sg d H. apply local_removed in H as (g & b & t & -> & H). exists g, b, t. split; [reflexivity|exact H]. Qed.
Print Assumptions C66_local.

(** All annotations of a file at once.  [parts] are the pieces of C61 with one
    statement each; some lines at the start of each annotated one are removed. *)
Definition unsigned (st : statement_ast) : statement_ast :=
  match st with Function_ (mkFunc _ d) => Function_ (mkFunc None d) | st => st end.
Definition start_removed (st : statement_ast) (p p' : str * str) : Prop :=
  match st with
  | Function_ (mkFunc (Some _) _) => snd p' = snd p /\ exists g b, fst p = g ++ [newline] ++ b ++ fst p' /\ all_spaces b = true
  | _ => p' = p
  end.
Theorem C66_file : forall parts sts, Forall2 (fun p st => piece p [st]) parts sts -> parts <> [] ->
  exists parts', length parts' = length parts /\
  Forall2 (fun st pp => start_removed st (fst pp) (snd pp)) sts (combine parts parts') /\
  file (concat (map (fun p => fst p ++ snd p) parts)) = Ok [] sts /\
  file (concat (map (fun p => fst p ++ snd p) parts')) = Ok [] (map unsigned sts).
Proof.
  intros parts sts H Hne.
  assert (T : forall ps ss, Forall2 (fun p st => piece p [st]) ps ss -> ps <> [] -> file (concat (map (fun p => fst p ++ snd p) ps)) = Ok [] ss).
  { intros ps ss Hp Hn. replace ss with (concat (map (fun st => [st]) ss)) by (clear; induction ss; cbn; congruence).
    apply C61_together; [|exact Hn]. clear Hn. induction Hp; constructor; assumption. }
  assert (H' : exists parts', length parts' = length parts /\ Forall2 (fun st pp => start_removed st (fst pp) (snd pp)) sts (combine parts parts') /\
    Forall2 (fun p st => piece p [st]) parts' (map unsigned sts)).
  { clear Hne. induction H as [|[c g] st ps ss Hp Hs (ps' & Hl & Hr & Hps)]; [exists []; repeat constructor|].
    assert (Hx : exists p', start_removed st (c, g) p' /\ piece p' [unsigned st]).
    { destruct (match st with Function_ f => Some f | _ => None end) as [[[sg|] d]|] eqn:Ef;
        destruct st; try discriminate Ef; try injection Ef as ->; try (exists (c, g); split; [reflexivity|exact Hp]).
      apply piece_unsigned in Hp as (a & b & t & -> & Hb & _ & Hp). exists (t, g). split; [split; [reflexivity|]|exact Hp]. exists a, b. split; [reflexivity|exact Hb]. }
    destruct Hx as (p' & H1 & H2). exists (p' :: ps'). split; [cbn; lia|]. split; constructor; assumption. }
  destruct H' as (parts' & Hl & Hr & Hp). exists parts'. split; [exact Hl|]. split; [exact Hr|]. split; apply T; try assumption.
  intros ->. destruct parts; [congruence|discriminate Hl].
Qed.
Print Assumptions C66_file.

(** *** Instances *)
Definition annotated : list (str * str) :=
  [(L "module Main exposing (..)", nl);
   (L "view : { a | open : Bool } ->" ++ nl ++ L "  List (Html msg)" ++ nl ++ L "view m =" ++ nl ++ L "  if m.open then [ m.a ] else []", nl);
   (L "-- one", nl);
   (L "x = 1", nl ++ nl);
   (L "(+++) : a -> b" ++ nl ++ L "(+++) a =" ++ nl ++ L "  let" ++ nl ++ L "    f : Int" ++ nl ++ L "    f = 1" ++ nl ++ L "  in f", nl)].
Example C66_file_instance : exists sts, Forall2 (fun p st => piece p [st]) annotated sts /\ length sts = 5 /\ map unsigned sts <> sts.
Proof.
  eexists. split; [unfold annotated; repeat (apply Forall2_cons; [piece_|]); apply Forall2_nil|]. split; [reflexivity|discriminate].
Qed.
Example C66_removed_instance : exists r sg d,
  statement (L "view : { a | open : Bool } ->" ++ nl ++ L "  List (Html msg)" ++ nl ++ L "view m = m" ++ nl ++ L "x = 1") = Ok r (Function_ (mkFunc (Some sg) d)) /\
  statement (L "view m = m" ++ nl ++ L "x = 1") = Ok r (Function_ (mkFunc None d)).
Proof. do 3 eexists. split; vm_compute; reflexivity. Qed.
Example C66_local_instance : exists sg d,
  CompleteE.entry 4 (L "f : Int ->" ++ nl ++ L "     Int" ++ nl ++ L "    f = 1" ++ nl) = Ok nl (LetFunction (mkFunc (Some sg) d)) /\
  CompleteE.entry 4 (L "f = 1" ++ nl) = Ok nl (local d).
Proof. do 2 eexists. split; vm_compute; reflexivity. Qed.
(** Between the annotation and the definition there is one line feed, and no blank
    line and no comment. *)
Example C66_next_line : file (L "x : Int" ++ nl ++ nl ++ L "x = 1") = Err /\ file (L "x : Int" ++ nl ++ L "-- a" ++ nl ++ L "x = 1") = Err.
Proof. split; vm_compute; reflexivity. Qed.
