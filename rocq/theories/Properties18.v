(** * C59: names do not matter *)
From Verif Require Import Base Nom Ast Good Spec Helpers Types Expr Stmt Total Front Names TwoRuns Rename RenameSim RenameAll.
From Verif Require Properties16.

(** ** C59: replacing names in a text replaces them in its tree

    [rename f s] is [s] with every word replaced by its image under [f]; a word is a
    longest run [a-z][a-z1-9_]* or [A-Z][a-zA-Z0-9_]*.  [renaming f]: words go to words
    of the same kind, no keyword is replaced and none arises.  [spares_literals f s]:
    what stands between two single quotes and looks like a character is unchanged.
    [names_statement g]: the tree with [g] applied to its names, strings and
    comments (Names.v). *)

Lemma rel_equation {A} (f : str -> str) (h : A -> A) s s' x y :
  rel (rn (graph f)) (to h) s s' x y -> (forall w, x <> Abort w) -> (forall w, y <> Abort w) ->
  y = match x with Ok r a => Ok (rename f r) (h a) | Err => Err | Abort w => Abort w end.
Proof.
  unfold rel. intros H Hx Hy. destruct x as [r a| |w]; destruct y as [r' b| |w']; try (destruct H; fail);
    try (exfalso; eapply Hx; reflexivity); try (exfalso; eapply Hy; reflexivity); [|reflexivity].
  destruct H as (Hb & Hr & _). apply rn_rename in Hr. unfold to in Hb. congruence.
Qed.

Theorem C59_files : forall f s, renaming f -> spares_literals f s ->
  (forall l, file s = Ok [] l -> file (rename f s) = Ok [] (map (names_statement (rename f)) l)) /\
  (file s = Err <-> file (rename f s) = Err).
Proof.
  intros f s Hf Hs.
  assert (E : file (rename f s) = match file s with Ok r a => Ok (rename f r) (map (names_statement (rename f)) a) | Err => Err | Abort w => Abort w end).
  { eapply rel_equation; [|apply Properties16.file_abort..].
    eapply sim_weak; [|apply (sim_file f Hf)|apply rename_tight; assumption].
    intros a b. apply Forall2_is_map. }
  rewrite E. split; [intros l ->; reflexivity|].
  destruct (file_total s) as [[l Hl]|Hl]; rewrite Hl; split; congruence.
Qed.
Print Assumptions C59_files.

(** expressions and types in any column, with what they leave over *)
Theorem C59_expressions : forall f i s, renaming f -> spares_literals f s ->
  (forall r e, expression i s = Ok r e -> expression i (rename f s) = Ok (rename f r) (names_expr (rename f) e)) /\
  (expression i s = Err <-> expression i (rename f s) = Err).
Proof.
  intros f i s Hf Hs.
  assert (T : forall s w, expression i s <> Abort w) by (intros x w; apply (expression_depth (S (length x))); lia).
  pose proof (rel_equation _ _ _ _ _ _ (sim_expression f Hf i s (rename f s) (rename_tight f s Hf Hs)) (T _) (T _)) as E.
  rewrite E. split; [intros r e ->; reflexivity|]. specialize (T s). destruct (expression i s); split; congruence.
Qed.
Print Assumptions C59_expressions.
Theorem C59_types : forall f i s, renaming f -> spares_literals f s ->
  (forall r t, type_ i s = Ok r t -> type_ i (rename f s) = Ok (rename f r) (names_type (rename f) t)) /\
  (type_ i s = Err <-> type_ i (rename f s) = Err).
Proof.
  intros f i s Hf Hs.
  assert (T : forall s w, type_ i s <> Abort w) by (intros x w; apply (type_depth (S (length x))); lia).
  pose proof (rel_equation _ _ _ _ _ _ (sim_type f Hf i s (rename f s) (rename_tight f s Hf Hs)) (T _) (T _)) as E.
  rewrite E. split; [intros r e ->; reflexivity|]. specialize (T s). destruct (type_ i s); split; congruence.
Qed.
Print Assumptions C59_types.

(** *** Exchanging two names *)

Definition exchange (x y p : str) : str := if str_eqb p x then y else if str_eqb p y then x else p.
Definition same_kind (x y : str) : Prop :=
  type_var_name x /\ type_var_name y /\ ~ In x keywords /\ ~ In y keywords \/ upper_name x /\ upper_name y.
Lemma kinds p : type_var_name p -> upper_name p -> False.
Proof.
  intros (c & w & -> & Hc & _) (c' & w' & E & Hc' & _). injection E as <- _.
  apply lower_not_upper in Hc. congruence.
Qed.
Lemma exchange_renaming x y : same_kind x y -> renaming (exchange x y).
Proof.
  intros H. unfold exchange. constructor; intros p Hp; [| |intros Hk];
    destruct (str_eqb p x) eqn:E1; [apply str_eqb_eq in E1; subst p| |apply str_eqb_eq in E1; subst p| |apply str_eqb_eq in E1; subst p|];
    try (destruct (str_eqb p y) eqn:E2; [apply str_eqb_eq in E2; subst p|]);
    destruct H as [(H1 & H2 & H3 & H4)|(H1 & H2)]; try tauto; exfalso; eauto using kinds.
Qed.

(** Exchanging two names of the same kind, no keywords, in a file without single
    quotes exchanges them in its tree. *)
Theorem C59_exchange : forall x y s, same_kind x y -> ~ In squote s ->
  (forall l, file s = Ok [] l -> file (rename (exchange x y) s) = Ok [] (map (names_statement (rename (exchange x y))) l)) /\
  (file s = Err <-> file (rename (exchange x y) s) = Err).
Proof.
  intros x y s H Hq. apply C59_files; [apply exchange_renaming, H|].
  intros a w r -> _. exfalso. apply Hq. apply in_or_app. right. left. reflexivity.
Qed.
Print Assumptions C59_exchange.

(** *** Files that look alike

    Names are not even compared with each other: two files that differ in their
    names only, each occurrence replaced on its own, are both accepted or both
    rejected, and their trees have the same shape.  [collapse] replaces every word
    but the keywords by [a] or [A]. *)
Definition collapse (p : str) : str :=
  if mem_str p keywords then p
  else match p with [] => [] | c :: _ => if is_lower c then L "a" else L "A" end.
Lemma collapse_renaming : renaming collapse.
Proof.
  constructor; unfold collapse.
  - intros p Hp. destruct (mem_str p keywords) eqn:E; [exact Hp|]. destruct Hp as (c & t & -> & Hc & _). rewrite Hc.
    exists (C "a"), []. repeat split; reflexivity.
  - intros p Hp. destruct (mem_str p keywords) eqn:E; [exact Hp|]. destruct Hp as (c & t & -> & Hc & _).
    destruct (is_lower c) eqn:El; [apply lower_not_upper in El; congruence|]. exists (C "A"), []. repeat split; reflexivity.
  - intros p (c & t & -> & Hc & _) Hk. destruct (mem_str (c :: t) keywords) eqn:E; [reflexivity|]. rewrite Hc in *.
    destruct Hk as [Hk|Hk]; apply mem_str_In in Hk; [congruence|discriminate Hk].
Qed.
Theorem C59_alike : forall s s', spares_literals collapse s -> spares_literals collapse s' ->
  rename collapse s = rename collapse s' ->
  (file s = Err <-> file s' = Err) /\
  forall l l', file s = Ok [] l -> file s' = Ok [] l' ->
    map (names_statement (rename collapse)) l = map (names_statement (rename collapse)) l'.
Proof.
  intros s s' H H' E. destruct (C59_files _ s collapse_renaming H) as [H1 H2]. destruct (C59_files _ s' collapse_renaming H') as [H1' H2'].
  rewrite <- E in H1', H2'. split; [tauto|]. intros l l' Hl Hl'. specialize (H1 l Hl). specialize (H1' l' Hl'). congruence.
Qed.
Print Assumptions C59_alike.
Definition alike1 : str := L "f : A -> b" ++ [newline] ++ L "f x y = let g = \x -> y in g x".
Definition alike2 : str :=
  L "some : Thing -> else_where" ++ [newline] ++ L "other none at = let all = \these -> names in differ here".
Example C59_alike_instance :
  ~ In squote alike1 /\ ~ In squote alike2 /\ rename collapse alike1 = rename collapse alike2 /\
  exists a b, file alike1 = Ok [] [a] /\ file alike2 = Ok [] [b].
Proof.
  split; [|split; [|split; [vm_compute; reflexivity|do 2 eexists; split; vm_compute; reflexivity]]];
    intros H; repeat (destruct H as [H|H]; [discriminate H|]); exact H.
Qed.

(** *** Instances *)

Definition text : str :=
  L "module Main exposing (foo)" ++ [newline] ++
  L "type alias T a = { a | foo : List a }" ++ [newline] ++
  L "foo : Int -> b" ++ [newline] ++
  L "foo x = case x of" ++ [newline] ++ L "  fooBar -> let foo1 = Foo.foo fooBar in .foo ""foo"" -- foo".
Example C59_instance :
  same_kind (L "foo") (L "a_long_name1") /\ ~ In squote text /\
  rename (exchange (L "foo") (L "a_long_name1")) text =
    L "module Main exposing (a_long_name1)" ++ [newline] ++
    L "type alias T a = { a | a_long_name1 : List a }" ++ [newline] ++
    L "a_long_name1 : Int -> b" ++ [newline] ++
    L "a_long_name1 x = case x of" ++ [newline] ++ L "  a_long_name1Bar -> let foo1 = Foo.a_long_name1 a_long_name1Bar in .a_long_name1 ""a_long_name1"" -- a_long_name1" /\
  exists a b c d, file text = Ok [] [a; b; c; d].
Proof.
  split; [|split; [|split; [vm_compute; reflexivity|do 4 eexists; vm_compute; reflexivity]]].
  - left. split; [|split]; [eexists _, _; split; [reflexivity|split; reflexivity]..|].
    split; apply (fun H => H); intros H; apply mem_str_In in H; discriminate H.
  - intros H. assert (E : existsb (N.eqb squote) text = true) by (apply existsb_exists; exists squote; split; [exact H|reflexivity]).
    discriminate E.
Qed.
(** a character literal that is spared *)
Example C59_literal_instance : exists a,
  spares_literals (exchange (L "foo") (L "bar")) (L "foo = g foo 'a'") /\
  file (L "foo = g foo 'a'") = Ok [] [a].
Proof.
  eexists. split; [|vm_compute; reflexivity].
  intros a w r E Hw. unfold squote in E.
  assert (H : w = L "a").
  { do 12 (destruct a as [|? a]; [discriminate E|injection E as _ E]). destruct a as [|? a].
    - injection E as E. destruct w as [|? [|? w]]; [discriminate E|cbn in E; injection E as -> _; reflexivity|].
      cbn in E. injection E as <- <- E. discriminate Hw.
    - injection E as _ E. destruct a as [|? a]; [discriminate E|injection E as _ E].
      destruct a as [|? a]; [injection E as E; destruct w; discriminate E|injection E as _ E; destruct a; discriminate E]. }
  rewrite H. vm_compute. reflexivity.
Qed.

(** *** The conditions are needed *)

(** no keyword may be replaced, and none may arise; [effect] and [infix] are not
    reserved, but begin declarations *)
Example C59_keywords :
  (exists a, file (L "x = foo") = Ok [] [a]) /\ file (L "x = if") = Err /\
  (exists a, file (L "effect module A where {a = B} exposing (..)") = Ok [] [a]) /\
  file (L "foo module A where {a = B} exposing (..)") = Err /\
  (exists a, file (L "infix 1 x") = Ok [] [a]) /\ file (L "foo 1 x") = Err.
Proof. repeat split; try (eexists); vm_compute; reflexivity. Qed.
(** names of the other kind *)
Example C59_kind :
  (exists a, file (L "foo = 1") = Ok [] [a]) /\ file (L "Foo = 1") = Err.
Proof. split; [eexists|]; vm_compute; reflexivity. Qed.
(** a name with a capital is two words: as a type variable it is cut in two, so
    it cannot be exchanged for a name that is one word; a zero cuts a name too *)
Example C59_words :
  (exists a, file (L "type alias A = foo") = Ok [] [a]) /\ file (L "type alias A = fooBar") = Err /\
  file (L "type alias A = foo0") = Err /\ exists a, file (L "x = fooBar foo0") = Ok [] [a].
Proof. repeat split; try (eexists); vm_compute; reflexivity. Qed.
(** characters *)
Example C59_literal :
  (exists a, file (L "x = 'a'") = Ok [] [a]) /\ file (L "x = 'bc'") = Err.
Proof. split; [eexists|]; vm_compute; reflexivity. Qed.
