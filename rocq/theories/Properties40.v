(** * C83: what has been read stays read, whatever is being typed after it *)
From Verif Require Import Base Nom Regex Ast Spec Helpers Types Expr Stmt Render Decls Fail Errors Cut CutS CutFile Whole WholeCheck IndepTop Unfinished Properties20.

(** [parts] are pieces as in C61 (IndepTop.v): definitions, declarations and comments accepted
    alone, each followed by a line feed.  [head u] (Unfinished.v): [u] begins in column 0 like a
    definition, a declaration or a comment; how it goes on is free, it may be cut off anywhere,
    in a string, in brackets, in a [let].  Then what is read before [u] is what the pieces are, and
    the outcome is the one of [u] alone. *)
Theorem C83_accepted : forall parts stss u l, Forall2 piece parts stss -> parts <> [] -> head u ->
  (file (concat (map (fun p => fst p ++ snd p) parts) ++ u) = Ok [] l <->
   exists l', file u = Ok [] l' /\ l = concat stss ++ l').
Proof.
  intros parts stss u l HF Hne Hu. fold (text_of parts). split.
  - intros H. destruct (file_e_total u) as [(l' & K)|(r & k & K)].
    + apply file_ok in K. exists l'. split; [exact K|]. apply (pieces_ok parts stss) in K; auto. congruence.
    + exfalso. apply (pieces_error parts stss) in K; auto. apply file_ok in H. congruence.
  - intros (l' & H & ->). apply pieces_ok; assumption.
Qed.
Print Assumptions C83_accepted.

(** The error carries the same text as the error of [u] alone; only its kind may differ, since there
    are statements before [u]. *)
Theorem C83_error : forall parts stss u r k, Forall2 piece parts stss -> parts <> [] -> head u ->
  (file_e (concat (map (fun p => fst p ++ snd p) parts) ++ u) = EError r k <->
   k = KEof /\ exists k', file_e u = EError r k').
Proof.
  intros parts stss u r k HF Hne Hu. fold (text_of parts). split.
  - intros H. destruct (file_e_total u) as [(l' & K)|(r' & k' & K)].
    + exfalso. apply file_ok in K. apply (pieces_ok parts stss) in K; auto. apply file_ok in K. congruence.
    + pose proof K as K'. apply (pieces_error parts stss) in K'; auto. rewrite K' in H. injection H as <- <-. eauto.
  - intros (-> & k' & K). eapply pieces_error; eassumption.
Qed.
Print Assumptions C83_error.

(** In either case the statements of the pieces are the first ones that are read, and reading goes
    on where [u] begins. *)
Theorem C83_stays : forall parts stss u, Forall2 piece parts stss -> parts <> [] -> head u ->
  exists b, blanks1 b /\ reads (concat (map (fun p => fst p ++ snd p) parts) ++ u) (concat stss) (b ++ u).
Proof. intros parts stss u HF Hne Hu. apply (pieces_until parts stss u HF Hne Hu). Qed.
Print Assumptions C83_stays.

(** *** Instances *)
(** The pieces are those of the instance of C61; after them a definition is being typed. *)
Definition typed : str := L "update msg model = case msg of" ++ nl ++ L "  Add n -> { model | list = n :: [ 1, " ++ [quote] ++ L "open".
Lemma typed_head : head typed.
Proof.
  apply (head_definition (L "update") typed [(L " ", L "msg"); (L " ", L "model")] (L " ") (C "=")
    (L " case msg of" ++ nl ++ L "  Add n -> { model | list = n :: [ 1, " ++ [quote] ++ L "open")).
  - apply (RName_lower (L "update")); [right; split; [do 2 eexists; split; [reflexivity|split; reflexivity]|cbn; intuition discriminate]|right; reflexivity].
  - apply Forall_cons; [|apply Forall_cons; [|apply Forall_nil]]; (split; [split; [discriminate|reflexivity]|]); cbn [snd]; right;
      (split; [do 2 eexists; split; [reflexivity|split; reflexivity]|cbn; intuition discriminate]).
  - split; [discriminate|reflexivity].
  - left. reflexivity.
  - reflexivity.
Qed.
Example C83_instance : exists stss, Forall2 piece sections stss /\ length (concat stss) = 11 /\ head typed /\ file_e typed = EError typed KAlt /\
  file_e (concat (map (fun p => fst p ++ snd p) sections) ++ typed) = EError typed KEof.
Proof.
  destruct C61_instance as (stss & H & Hn). exists stss. split; [exact H|]. split; [exact Hn|]. split; [exact typed_head|].
  assert (E : file_e typed = EError typed KAlt) by (vm_compute; reflexivity). split; [exact E|].
  apply (C83_error sections stss typed typed KEof H); [discriminate|exact typed_head|]. eauto.
Qed.
(** The other beginnings: a name that is not complete, a declaration, comments. *)
Example C83_heads : head (L "upd") /\ head (L "update model = if (" ++ nl ++ L "  [") /\ head (L "import Html exposing (di") /\
  head (L "type alias") /\ head (L "{-| not closed") /\ head (L "-- x" ++ nl ++ L "-- y" ++ nl ++ nl ++ L "type T = A (").
Proof.
  assert (Hl : forall c t, is_lower c = true -> forallb is_name_char t = true -> ~ In (c :: t) reserved_words -> lower_name (c :: t)).
  { intros c t H1 H2 H3. right. split; [do 2 eexists; split; [reflexivity|split; assumption]|exact H3]. }
  split; [|split; [|split; [|split; [|split]]]].
  - apply (head_name (L "upd") _ []); [|cbn; intuition discriminate]. apply (RName_lower (L "upd") []); [apply Hl; [reflexivity|reflexivity|cbn; intuition discriminate]|right; exact I].
  - apply (head_name (L "update") _ (L " model = if (" ++ nl ++ L "  [")); [|cbn; intuition discriminate].
    apply (RName_lower (L "update")); [apply Hl; [reflexivity|reflexivity|cbn; intuition discriminate]|right; reflexivity].
  - apply (head_keyword (L "import") (L " Html exposing (di")); [cbn; tauto|reflexivity].
  - apply (head_keyword (L "type") (L " alias")); [cbn; tauto|reflexivity].
  - apply (head_block (L "| not closed")). reflexivity.
  - apply (head_lines (L " x") nl (L "-- y" ++ nl ++ nl ++ L "type T = A (")); [reflexivity|split; [eexists; reflexivity|split; reflexivity]|].
    apply (head_lines (L " y") (nl ++ nl) (L "type T = A (")); [reflexivity|split; [eexists; reflexivity|split; reflexivity]|].
    apply (head_keyword (L "type") (L " T = A (")); [cbn; tauto|reflexivity].
Qed.
(** The beginning matters: a branch of a [case] in column 0, the word [in] and an operator are taken by what
    stands before them. *)
Example C83_needed :
  (exists a, file (L "x = case a of" ++ nl ++ L "1 -> 2") = Ok [] [a] /\
   exists b, b <> a /\ file (L "x = case a of" ++ nl ++ L "1 -> 2" ++ nl ++ L "y -> 3") = Ok [] [b]) /\
  (exists a b, b <> a /\ file (L "x = 1") = Ok [] [a] /\ file (L "x = 1" ++ nl ++ L "+ 2") = Ok [] [b]).
Proof.
  split.
  - eexists. split; [vm_compute; reflexivity|]. eexists. split; [|vm_compute; reflexivity]. discriminate.
  - do 2 eexists. split; [|split; vm_compute; reflexivity]. discriminate.
Qed.
