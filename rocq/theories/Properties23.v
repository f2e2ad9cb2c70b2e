(** * C64: errors are local *)
From Verif Require Import Base Nom Regex Ast Spec Helpers Types Expr Stmt Decls Errors Cut CutS CutFile Trail Whole WholeCheck IndepTop Local Properties17 Properties20.

(** ** C64: a file is accepted exactly if each of its sections is

    [section (c, g)] (Local.v): [c] begins in column 0; [g] are spaces and line feeds,
    first and last a line feed; and [c] is
    - any text, well formed or not, that is [whole] (Whole.v: strings and brackets are
      closed, every [let] has its [in], and there is no operator at the end) and begins
      with a name, spaces and a colon, and in which [infix] does not occur, or
    - a module declaration, an import, a type or the type of a port, or
    - a comment.
    So no error in a definition is repaired by the text before or after it, and no
    definition becomes wrong by the text before or after it. *)
Theorem C64_local : forall (parts : list (str * str)) (sts : list statement_ast),
  Forall section parts -> parts <> [] ->
  (file (concat (map (fun p => fst p ++ snd p) parts)) = Ok [] sts <->
   exists stss, Forall2 (fun p l => file (fst p) = Ok [] l) parts stss /\ sts = concat stss).
Proof.
  intros parts sts HF Hne. split.
  - intros H. destruct (sections_back parts HF sts H) as (stss & HS & ->). exists stss. split; [|reflexivity].
    clear - HS. induction HS as [|p l ps ls [Hp _] _ IH]; constructor; assumption.
  - intros (stss & HS & ->). apply (pieces_file parts stss); [|exact Hne].
    clear Hne. induction HS as [|[c g] l ps ls Hp HS IH]; [constructor|]. inversion HF as [|? ? Hs HF']; subst. constructor; [|apply IH, HF'].
    cbn [fst snd] in Hp. pose proof Hs as (Hg & _). cbn [fst snd] in Hg.
    assert (Hl : line_end g) by (destruct Hg as ((g' & ->) & _); reflexivity).
    destruct (sections_back [(c, g)] (Forall_cons _ Hs (Forall_nil _)) l) as (stss & HS1 & El).
    + unfold text_of. cbn [map concat fst snd]. rewrite app_nil_r, file_trail_line; [exact Hp|apply gap_blanks, Hg|exact Hl].
    + inversion HS1 as [|? l1 ? ls1 [H1 H2] H3]; subst. inversion H3; subst. cbn [concat]. rewrite app_nil_r. exact H2.
Qed.
Print Assumptions C64_local.

(** One rejected section, and the file is rejected, whatever the others are. *)
Theorem C64_rejected : forall parts c g, Forall section parts -> In (c, g) parts ->
  (forall l, file c <> Ok [] l) -> forall l, file (concat (map (fun p => fst p ++ snd p) parts)) <> Ok [] l.
Proof.
  intros parts c g HF Hin Hc l H. apply C64_local in H as (stss & HS & _); [|exact HF|intros ->; destruct Hin].
  clear HF. induction HS as [|p x ps ls Hp HS IH]; [destruct Hin|]. destruct Hin as [->|Hin]; [exact (Hc _ Hp)|auto].
Qed.
Print Assumptions C64_rejected.

(** Correcting one section does not touch the statements of the others. *)
Theorem C64_corrected : forall a b c g l, Forall section a -> Forall section b -> section (c, g) -> file c = Ok [] l ->
  forall c' g' l', section (c', g') -> file c' = Ok [] l' -> forall sts,
  let text p := concat (map (fun p : str * str => fst p ++ snd p) (a ++ p :: b)) in
  file (text (c, g)) = Ok [] sts ->
  exists la lb, sts = la ++ l ++ lb /\ file (text (c', g')) = Ok [] (la ++ l' ++ lb).
Proof.
  intros a b c g l Ha Hb Hs Hc c' g' l' Hs' Hc' sts text H.
  apply C64_local in H as (stss & HS & ->); [|apply Forall_app; auto|destruct a; discriminate].
  apply Forall2_app_inv_l in HS as (sa & sb0 & Hsa & Hsb & ->). inversion Hsb as [|? l0 ? sb E Hsb']; subst. cbn [fst] in E.
  rewrite Hc in E. injection E as <-. exists (concat sa), (concat sb). rewrite concat_app. split; [reflexivity|].
  apply C64_local; [apply Forall_app; auto|destruct a; discriminate|]. exists (sa ++ l' :: sb). rewrite concat_app. split; [|reflexivity].
  apply Forall2_app; [exact Hsa|]. constructor; [exact Hc'|exact Hsb'].
Qed.
Print Assumptions C64_corrected.

(** Without types: any [whole] text before pieces as in C61.  There is one way in which
    the text after it can repair it: a type at its end is given its definition. *)
Theorem C64_unrepaired : forall c g parts stss sts,
  whole false 0 c -> no_infix c -> c <> [] -> no_blank c -> gap g -> Forall2 piece parts stss -> parts <> [] ->
  file (c ++ g ++ concat (map (fun p => fst p ++ snd p) parts)) = Ok [] sts ->
  (exists l, file c = Ok [] l /\ sts = l ++ concat stss) \/
  (exists l sg d l', concat stss = Function_ (mkFunc None d) :: l' /\ sts = l ++ Function_ (mkFunc (Some sg) d) :: l').
Proof.
  intros c g parts stss sts Hw Hi Hne Hc Hg HP Hp H. exact (pieces_back c g parts stss sts Hw Hi Hne Hc Hg HP Hp H).
Qed.
Print Assumptions C64_unrepaired.

(** *** Instances *)
Lemma no_infix_check c : (fix f (s : str) := match s with [] => true | x :: t => negb (x =? C "x")%N && f t end) c = true -> no_infix c.
Proof.
  intros H (a & b & ->). induction a as [|y a IH]; [discriminate H|]. cbn [app] in H. apply andb_true_iff in H as [_ H]. apply IH, H.
Qed.
Lemma spaces1_one : spaces1 [space].
Proof. split; [discriminate|reflexivity]. Qed.
Ltac signed_ n y := exists n, n, [space], y; split; [left; split; [right; split; [do 2 eexists; split; [reflexivity|split; reflexivity]|
    let K := fresh in intros K; repeat (destruct K as [K|K]; [discriminate K|]); destruct K]|reflexivity]|]; split; [exact spaces1_one|]; split; reflexivity.
Definition view_ : str := L "view : Model -> Html" ++ nl ++ L "view m =" ++ nl ++ L "  div [] [ m.name ]".
(** [else] is missing *)
Definition broken : str := L "view : Model -> Html" ++ nl ++ L "view m =" ++ nl ++ L "  if m.open then div [] [ m.name ]".
Definition update_ : str := L "update : Msg -> Int" ++ nl ++ L "update msg = case msg of" ++ nl ++ L "  A -> 1" ++ nl ++ L "  B -> 2".
Definition main_module : str := L "module Main exposing (..)".
Definition with_view (v : str) : list (str * str) :=
  [(main_module, nl); (L "-- ""the view", nl); (v, [newline; space; newline]); (update_, nl)].
Ltac section_ :=
  split; [split; [eexists; reflexivity|split; reflexivity]|]; split; [reflexivity|]; cbn [fst snd].
Example C64_instance : Forall section (with_view view_) /\ Forall section (with_view broken).
Proof.
  assert (H : forall v, section (v, [newline; space; newline]) -> Forall section (with_view v)).
  { intros v Hv. unfold with_view. constructor; [|constructor; [|constructor; [exact Hv|constructor; [|constructor]]]].
    - section_. right. left. eexists. split; [reflexivity|]. split; [apply trimmed_of; [discriminate|reflexivity]|]. left. exact I.
    - section_. right. right. eexists. split; reflexivity.
    - section_. left. split; [apply (whole_check_whole 200); vm_compute; reflexivity|]. split; [|apply no_infix_check; reflexivity].
      signed_ (L "update") (L " Msg -> Int" ++ nl ++ L "update msg = case msg of" ++ nl ++ L "  A -> 1" ++ nl ++ L "  B -> 2"). }
  split; apply H; section_; left; (split; [apply (whole_check_whole 200); vm_compute; reflexivity|]; split; [|apply no_infix_check; reflexivity]).
  - signed_ (L "view") (L " Model -> Html" ++ nl ++ L "view m =" ++ nl ++ L "  div [] [ m.name ]").
  - signed_ (L "view") (L " Model -> Html" ++ nl ++ L "view m =" ++ nl ++ L "  if m.open then div [] [ m.name ]").
Qed.
(** The first is accepted, the second is rejected because [broken] is. *)
Example C64_accepted_instance : exists sts, file (concat (map (fun p => fst p ++ snd p) (with_view view_))) = Ok [] sts /\ length sts = 4.
Proof.
  assert (H : exists stss, Forall2 (fun p l => file (fst p) = Ok [] l) (with_view view_) stss /\ length (concat stss) = 4).
  { eexists. split; [unfold with_view; repeat (apply Forall2_cons; [vm_compute; reflexivity|]); apply Forall2_nil|]. reflexivity. }
  destruct H as (stss & H & Hn). exists (concat stss). split; [|exact Hn]. apply C64_local; [apply C64_instance|discriminate|eauto].
Qed.
Example C64_rejected_instance : forall l, file (concat (map (fun p => fst p ++ snd p) (with_view broken))) <> Ok [] l.
Proof.
  apply (C64_rejected _ broken [newline; space; newline]); [apply C64_instance|cbn; tauto|].
  intros l H. assert (E : file broken = Err) by (vm_compute; reflexivity). rewrite E in H. discriminate H.
Qed.

(** *** The conditions are needed

    A string that is not closed, followed by a text with three quotes *)
Example C64_whole_needed :
  let c := L "f : Int" ++ nl ++ L "f = """"""" in let d := L "g : Int" ++ nl ++ L "g = """"""" in
  file c = Err /\ file d = Err /\ exists st, file (c ++ nl ++ d) = Ok [] [st].
Proof. split; [vm_compute; reflexivity|]. split; [vm_compute; reflexivity|]. eexists. vm_compute. reflexivity. Qed.
(** [infix]: what looks like a line comment is an operator. *)
Example C64_infix_needed :
  let c := L "f : Int" ++ nl ++ L "f = 1" ++ nl ++ L "infixl 5 --> {-" in let d := L "g : Int" ++ nl ++ L "g = 1 -- -}" in
  whole false 0 c /\ whole false 0 d /\ file c = Err /\ exists sts, file (c ++ nl ++ d) = Ok [] sts /\ length sts = 3.
Proof.
  split; [apply (whole_check_whole 200); vm_compute; reflexivity|]. split; [apply (whole_check_whole 200); vm_compute; reflexivity|].
  split; [vm_compute; reflexivity|]. eexists. split; [vm_compute; reflexivity|reflexivity].
Qed.
(** A definition without a type can be the definition for the type before it: the
    second case of [C64_unrepaired]. *)
Example C64_signed_needed :
  let c := L "f : Int" in let d := L "g = 1" in
  whole false 0 c /\ no_infix c /\ file c = Err /\ piece (d, nl) [Function_ (mkFunc None (mkDef (L "g") [] (Integer (L "1"))))] /\
  exists sg, file (c ++ nl ++ d ++ nl) = Ok [] [Function_ (mkFunc (Some sg) (mkDef (L "g") [] (Integer (L "1"))))].
Proof.
  split; [apply (whole_check_whole 200); vm_compute; reflexivity|]. split; [apply no_infix_check; reflexivity|]. split; [vm_compute; reflexivity|].
  split; [piece_|]. eexists. vm_compute. reflexivity.
Qed.
