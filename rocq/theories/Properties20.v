(** * C61: definitions, declarations and comments can be put together in any order *)
From Coq Require Import Permutation.
From Verif Require Import Base Nom Regex Ast Spec Helpers Types Expr Stmt Errors Cut CutS CutFile Whole WholeCheck IndepTop Properties17.

(** ** C61: a file means what its pieces mean

    C58 puts declarations together; here are the definitions.  [piece (c, g) sts]
    (IndepTop.v): [c] alone is a file with the statements [sts] and begins in column 0;
    [g] are spaces and line feeds, first and last a line feed; and [c] is
    - one or more definitions, with comment lines between them, that are [whole]
      (Whole.v): strings and brackets are closed, every [let] has its [in], and
      there is no operator at the end or just before a comment, or
    - a module declaration, an import, a type or the type of a port, or
    - a comment.
    The pieces can be put together; none changes the meaning of another. *)
Theorem C61_together : forall (parts : list (str * str)) (stss : list (list statement_ast)),
  Forall2 piece parts stss -> parts <> [] ->
  file (concat (map (fun p => fst p ++ snd p) parts)) = Ok [] (concat stss).
Proof. intros parts stss H Hne. exact (proj1 (pieces_file parts stss H Hne)). Qed.
Print Assumptions C61_together.

(** in any order *)
Theorem C61_any_order : forall l l' : list ((str * str) * list statement_ast),
  Forall (fun x => piece (fst x) (snd x)) l -> l <> [] -> Permutation l l' ->
  file (concat (map (fun x => fst (fst x) ++ snd (fst x)) l)) = Ok [] (concat (map snd l)) /\
  file (concat (map (fun x => fst (fst x) ++ snd (fst x)) l')) = Ok [] (concat (map snd l')).
Proof.
  assert (H : forall l, Forall (fun x => piece (fst x) (snd x)) l -> l <> [] ->
    file (concat (map (fun x => fst (fst x) ++ snd (fst x)) l)) = Ok [] (concat (map snd l))).
  { intros l Hl Hne. assert (H : Forall2 piece (map fst l) (map snd l)) by (clear Hne; induction Hl; constructor; assumption).
    apply C61_together in H; [|destruct l; [congruence|discriminate]]. rewrite map_map in H. exact H. }
  intros l l' Hl Hne Hp. split; [apply H; assumption|]. apply H; [eapply Permutation_Forall; eassumption|].
  intros ->. apply Permutation_sym, Permutation_nil in Hp. contradiction.
Qed.
Print Assumptions C61_any_order.

(** One piece replaced, removed or added: the statements of the others stay. *)
Theorem C61_edit : forall a b ps qs as_ bs pss qss,
  Forall2 piece a as_ -> Forall2 piece b bs -> Forall2 piece ps pss -> Forall2 piece qs qss -> a ++ b <> [] ->
  let text l := concat (map (fun p : str * str => fst p ++ snd p) l) in
  file (text (a ++ ps ++ b)) = Ok [] (concat as_ ++ concat pss ++ concat bs) /\
  file (text (a ++ qs ++ b)) = Ok [] (concat as_ ++ concat qss ++ concat bs).
Proof.
  intros a b ps qs as_ bs pss qss Ha Hb Hp Hq Hne text.
  assert (H : forall l ls, Forall2 piece l ls -> file (text (a ++ l ++ b)) = Ok [] (concat as_ ++ concat ls ++ concat bs)).
  { intros l ls Hl. rewrite <- !concat_app. apply C61_together; [apply Forall2_app; [exact Ha|apply Forall2_app; [exact Hl|exact Hb]]|].
    intros E. apply Hne. apply app_eq_nil in E as [-> E]. apply app_eq_nil in E as [_ ->]. reflexivity. }
  split; apply H; assumption.
Qed.
Print Assumptions C61_edit.

(** after any declarations in the sense of C58, which may be of all kinds *)
Theorem C61_head : forall decls sts parts stss,
  Forall2 declaration decls sts -> Forall2 piece parts stss -> parts <> [] ->
  file (concat (map (fun p => fst p ++ snd p) decls) ++ concat (map (fun p => fst p ++ snd p) parts)) =
  Ok [] (sts ++ concat stss).
Proof.
  intros decls sts parts stss Hd Hp Hne. destruct (pieces_file parts stss Hp Hne) as [H1 H2].
  apply C58_head; [exact Hd|exact H1|exact H2].
Qed.
Print Assumptions C61_head.

(** *** Instances *)
Definition nl : str := [newline].
Definition sections : list (str * str) :=
  [(L "module Main exposing (..)", [newline; space; newline]);
   (L "import Html exposing (div)", nl);
   (L "-- the ""view", nl);
   (L "view : { a | open : Bool } -> List (Html msg)" ++ nl ++
    L "view m =" ++ nl ++
    L "  if m.open then [ div [ class ""a"" ] [], text m.name ] else -- )" ++ nl ++
    L "    { m | rows = 1 + 2 }", [newline; newline; space; newline]);
   (L "{-| [update] it -}", nl);
   (L "update msg m = case msg of" ++ nl ++
    L "  A -> let x = '(' in x" ++ nl ++
    L "  B -> """"""" ++ nl ++ L "(""""""", nl);
   (L "-- one", nl);
   (L "x = case a of 1 -> 2" ++ nl ++ L "-- and" ++ nl ++ L "y b = \c -> (b, c)", nl);
   (L "type T a = A a" ++ nl ++ L "  | B", [newline; space; newline])].
Lemma trimmed_of c : c <> [] -> is_blank (last c 0%N) = false -> trimmed c.
Proof. intros Hc Hb. rewrite (app_removelast_last 0%N Hc). apply trimmed_last, Hb. Qed.
Ltac piece_ :=
  split; [split; [eexists; reflexivity|split; reflexivity]|]; split; [reflexivity|]; split; [vm_compute; reflexivity|];
  first [ right; right; eexists; split; reflexivity
        | right; left; eexists; split; [reflexivity|]; split; [apply trimmed_of; [discriminate|reflexivity]|];
          first [left; exact I|right; do 2 eexists; split; [reflexivity|split; reflexivity]]
        | left; split; [apply (whole_check_whole 200); vm_compute; reflexivity|]; split; [reflexivity|]; repeat constructor ].
Example C61_instance : exists stss, Forall2 piece sections stss /\ length (concat stss) = 11.
Proof.
  eexists. split; [unfold sections; repeat (apply Forall2_cons; [piece_|]); apply Forall2_nil|]. reflexivity.
Qed.
(** the same pieces in the opposite order *)
Example C61_order_instance :
  exists stss, file (concat (map (fun p => fst p ++ snd p) (rev sections))) = Ok [] (concat (rev stss)) /\
    file (concat (map (fun p => fst p ++ snd p) sections)) = Ok [] (concat stss) /\ length (concat stss) = 11.
Proof.
  destruct C61_instance as (stss & H & Hn). exists stss. assert (Hne : sections <> []) by discriminate.
  split; [|split; [apply C61_together; assumption|exact Hn]]. apply C61_together; [|discriminate].
  clear Hn Hne. induction H as [|p l ps ls Hp H IH]; [constructor|]. cbn [rev]. apply Forall2_app; [exact IH|]. constructor; [exact Hp|constructor].
Qed.
Example C61_head_instance :
  exists sts stss, Forall2 declaration pieces sts /\ Forall2 piece sections stss /\
  file (concat (map (fun p => fst p ++ snd p) pieces) ++ concat (map (fun p => fst p ++ snd p) sections)) = Ok [] (sts ++ concat stss).
Proof.
  destruct C58_instance as (sts & H1 & _). destruct C61_instance as (stss & H2 & _). exists sts, stss.
  split; [exact H1|]. split; [exact H2|]. apply C61_head; [exact H1|exact H2|discriminate].
Qed.

(** *** The conditions are needed

    An [=] just before a comment: the definition of C58 is not [whole], since the
    meaning it has alone is not the one it has before another comment. *)
Example C61_whole_needed :
  (exists st, file odd_definition = Ok [] [st] /\ by_hand st) /\ ~ whole false 0 odd_definition.
Proof.
  assert (H0 : exists st, file odd_definition = Ok [] [st] /\ by_hand st) by (eexists; split; [vm_compute; reflexivity|exact I]).
  split; [exact H0|]. intros Hw.
  assert (H : exists st, file odd_definition = Ok [] [st] /\
    file (odd_definition ++ nl ++ L "-- """""")" ++ nl) = Ok [] [st; Comment (L " """""")")]).
  { destruct H0 as (st & H1 & Hst). exists st. split; [exact H1|].
    assert (H : Forall2 piece [(odd_definition, nl); (L "-- """""")", nl)] [[st]; [Comment (L " """""")")]]).
    { apply Forall2_cons; [|apply Forall2_cons; [piece_|apply Forall2_nil]].
      split; [apply gap_newline|]. split; [reflexivity|]. split; [exact H1|]. left. split; [exact Hw|]. split; [reflexivity|].
      constructor; [exact Hst|constructor]. }
    apply C61_together in H; [|discriminate]. exact H. }
  destruct H as (st & H1 & H2).
  assert (Hne : forall st, file odd_definition = Ok [] [st] ->
    file (odd_definition ++ nl ++ L "-- """""")" ++ nl) <> Ok [] [st; Comment (L " """""")")]).
  { clear. vm_compute. intros st [= <-]. discriminate. }
  exact (Hne st H1 H2).
Qed.
(** Column 0, and the line feed *)
Example C61_column :
  exists a b, file (L "x = f") = Ok [] [a] /\ file (L "  y = 2") = Ok [] [b] /\
  file (L "x = f" ++ nl ++ L "y = 2") = Ok [] [a; b] /\ file (L "x = f" ++ nl ++ L "  y = 2") <> Ok [] [a; b].
Proof. do 2 eexists. split; [vm_compute; reflexivity|]. split; [vm_compute; reflexivity|]. split; [vm_compute; reflexivity|]. vm_compute. discriminate. Qed.
Example C61_line_feed :
  exists a b, file (L "x = f") = Ok [] [a] /\ file (L "y = 2") = Ok [] [b] /\
  file (L "x = f" ++ L " " ++ L "y = 2") <> Ok [] [a; b].
Proof. do 2 eexists. split; [vm_compute; reflexivity|]. split; [vm_compute; reflexivity|]. vm_compute. discriminate. Qed.
