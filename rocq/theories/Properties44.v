(** * C87: the first word of a declaration tells its kind *)
From Verif Require Import Base Nom Regex Ast Spec Helpers Types Expr Stmt Grammar SoundS Fail Errors LexProps CompleteS Local Finish Properties43.

(** The name a definition begins with: that of its type annotation, or of the definition if it has none. *)
Definition leading_name (f : func) : str :=
  match f with mkFunc (Some sg) _ => sig_name sg | mkFunc None (mkDef n _ _) => n end.
(** The word a statement begins with. *)
Definition opening (st : statement_ast) : str :=
  match st with
  | ModuleDeclaration _ _ => L "module"
  | PortModuleDeclaration _ _ | PortTypeDeclaration _ _ | PortDeclaration _ _ _ => L "port"
  | EffectModuleDeclaration _ _ _ => L "effect"
  | ImportStatement _ _ _ => L "import"
  | TypeAliasDeclaration _ _ | TypeDeclaration _ _ => L "type"
  | InfixDeclaration AssocL _ _ => L "infixl"
  | InfixDeclaration AssocR _ _ => L "infixr"
  | InfixDeclaration AssocN _ _ => L "infix"
  | Function_ f => leading_name f
  | Comment _ => []
  end.

Lemma lower_word n : lower_name n -> n <> [] /\ forallb is_name_char n = true.
Proof.
  intros [->|[(c & t & -> & Hc & Ht) _]]; (split; [discriminate|]); [reflexivity|]. cbn [forallb]. rewrite Ht, andb_true_r. unfold is_name_char. rewrite Hc. reflexivity.
Qed.
Lemma def_args_ends i args wa b y : GDefArgs i args wa -> spaces1 b -> ends is_name_char (wa ++ b ++ y).
Proof.
  intros H Hb. destruct H; [exact (spaces1_ends b y Hb)|]. rewrite <- !app_assoc. apply spaces1_ends. assumption.
Qed.
(** A statement is a comment, the definition of an operator in parentheses, or begins with its opening word. *)
Lemma opening_GStmt st w : GStmt st w ->
  (exists t, st = Comment t /\ exists y, w = L "--" ++ y \/ w = L "{-" ++ y) \/
  (exists f y, st = Function_ f /\ operator_name (leading_name f) /\ w = L "(" ++ leading_name f ++ L ")" ++ y) \/
  (exists y, w = opening st ++ y /\ y <> [] /\ (forall z, ends is_name_char (y ++ z)) /\ forallb is_name_char (opening st) = true /\ opening st <> [] /\ (forall f, st = Function_ f -> lower_name (leading_name f))).
Proof.
  assert (S1 : forall b y, spaces1 b -> b ++ y <> [] /\ forall z, ends is_name_char ((b ++ y) ++ z)).
  { intros b y Hb. split; [destruct Hb; destruct b; [congruence|discriminate]|]. intros z. rewrite <- app_assoc. apply spaces1_ends, Hb. }
  assert (S2 : forall k t y, lay0 t -> y <> [] -> k <> [] -> forallb is_name_char k = true -> forall st, opening st = k -> (forall f, st <> Function_ f) ->
    exists x, k ++ t ++ y = opening st ++ x /\ x <> [] /\ (forall z, ends is_name_char (x ++ z)) /\ forallb is_name_char (opening st) = true /\ opening st <> [] /\ (forall f, st = Function_ f -> lower_name (leading_name f))).
  { intros k t y Ht Hy Hk Hn st0 <- Hf. exists (t ++ y). split; [reflexivity|]. split; [intros E; apply app_eq_nil in E; tauto|]. split; [|split; [exact Hn|split; [exact Hk|intros f E; destruct (Hf f E)]]]. intros z. rewrite <- app_assoc. apply lay0_ends, Ht. }
  assert (S3 : forall k t y, spaces1 t -> k <> [] -> forallb is_name_char k = true -> forall st, opening st = k -> (forall f, st <> Function_ f) ->
    exists x, k ++ t ++ y = opening st ++ x /\ x <> [] /\ (forall z, ends is_name_char (x ++ z)) /\ forallb is_name_char (opening st) = true /\ opening st <> [] /\ (forall f, st = Function_ f -> lower_name (leading_name f))).
  { intros k t y Ht Hk Hn st0 <- Hf. exists (t ++ y). split; [reflexivity|]. destruct (S1 t y Ht). repeat (split; [assumption|]). intros f E; destruct (Hf f E). }
  assert (NE : forall (a b : str), b <> [] -> a ++ b <> []) by (intros a b Hb E; apply app_eq_nil in E; tauto).
  intros H. destruct H.
  - right. right. apply S2; [assumption|do 2 apply NE; discriminate|discriminate|reflexivity|reflexivity|discriminate].
  - right. right. apply S2; [assumption|discriminate|discriminate|reflexivity|reflexivity|discriminate].
  - right. right. apply S2; [assumption|discriminate|discriminate|reflexivity|reflexivity|discriminate].
  - right. right. apply S3; [assumption|discriminate|reflexivity|reflexivity|discriminate].
  - right. right. apply S3; [assumption|discriminate|reflexivity|reflexivity|discriminate].
  - right. right. apply S3; [assumption|discriminate|reflexivity|reflexivity|discriminate].
  - right. right. apply S3; [assumption|discriminate|reflexivity|reflexivity|discriminate].
  - right. right. apply S3; [assumption|discriminate|reflexivity|reflexivity|discriminate].
  - right.
    assert (D : forall i d w, GDef i d w -> (exists y, operator_name (leading_name (mkFunc None d)) /\ w = L "(" ++ leading_name (mkFunc None d) ++ L ")" ++ y) \/
      (exists y, w = leading_name (mkFunc None d) ++ y /\ y <> [] /\ (forall z, ends is_name_char (y ++ z)) /\ lower_name (leading_name (mkFunc None d)))).
    { intros i d w0 Hd. destruct Hd as [i n wn args wa b t j e w0 Hn Ha Hb Ht He]. cbn [leading_name]. destruct Hn as [n Hn|o Ho].
      - right. exists (wa ++ b ++ L "=" ++ t ++ w0). split; [reflexivity|]. split; [do 2 apply NE; discriminate|]. split; [|exact Hn].
        intros z. rewrite <- !app_assoc. eapply def_args_ends; eassumption.
      - left. exists (wa ++ b ++ L "=" ++ t ++ w0). split; [exact Ho|]. rewrite <- !app_assoc. reflexivity. }
    remember 0%N as i eqn:Ei in H. destruct H as [i d w Hd|i sg ws b d w Hs Hb Hi Hd].
    + destruct (D i d w Hd) as [(y & Ho & E)|(y & E & Hy & Hz & Hn)]; [left; eexists; exists y; split; [reflexivity|auto]|right].
      destruct (lower_word _ Hn) as [Hn1 Hn2]. exists y. cbn [opening]. repeat (split; [assumption|]). intros f Ef. injection Ef as <-. exact Hn.
    + destruct Hs as [i n wn b1 t1 j t w1 Hn Hb1 Ht Ha]. destruct Hn as [n Hn|o Ho].
      * right. exists (b1 ++ L ":" ++ t1 ++ w1 ++ [newline] ++ b ++ w). cbn [opening leading_name sig_name]. split; [rewrite <- !app_assoc; reflexivity|].
        destruct (S1 b1 (L ":" ++ t1 ++ w1 ++ [newline] ++ b ++ w) Hb1). destruct (lower_word _ Hn) as [Hn1 Hn2]. repeat (split; [assumption|]). intros f Ef. injection Ef as <-. exact Hn.
      * left. eexists. exists (b1 ++ L ":" ++ t1 ++ w1 ++ [newline] ++ b ++ w). split; [reflexivity|]. cbn [leading_name sig_name]. split; [exact Ho|]. rewrite <- !app_assoc. reflexivity.
  - right. right. destruct a; (apply S3; [assumption|discriminate|reflexivity|reflexivity|discriminate]).
  - left. eexists. split; [reflexivity|]. eexists. left. reflexivity.
  - left. eexists. split; [reflexivity|]. eexists. right. reflexivity.
Qed.

Lemma front_unique (k k' s s' : str) : k ++ s = k' ++ s' -> forallb is_name_char k = true -> forallb is_name_char k' = true -> ends is_name_char s -> ends is_name_char s' -> k = k'.
Proof.
  revert k'. induction k as [|c k IH]; intros [|c' k'] E Hk Hk' Hs Hs'; cbn [app forallb] in *.
  - reflexivity.
  - subst s. cbn in Hs. apply andb_true_iff in Hk' as [Hk' _]. congruence.
  - subst s'. cbn in Hs'. apply andb_true_iff in Hk as [Hk _]. congruence.
  - injection E as <- E. apply andb_true_iff in Hk as [_ Hk]. apply andb_true_iff in Hk' as [_ Hk']. rewrite (IH k' E); auto.
Qed.

(** A text that begins with the word [k] is read as a statement of a kind that opens with [k]; a definition
    opens with the very name it declares or defines. *)
Theorem C87_first_word : forall k s r st, k <> [] -> forallb is_name_char k = true -> ends is_name_char s ->
  statement (k ++ s) = Ok r st -> k = opening st /\ (forall f, st = Function_ f -> lower_name k).
Proof.
  intros k s r st Hk Hn Hs H. apply sound_statement in H as (w & E & H).
  destruct (opening_GStmt st w H) as [(t & -> & y & [-> | ->])|[(f & y & -> & _ & ->)|(y & -> & _ & Hy & Hn' & Hk' & Hl)]].
  1-3: exfalso; destruct k as [|c k]; [congruence|]; injection E as -> _; discriminate Hn.
  rewrite <- app_assoc in E. assert (k = opening st) as -> by (eapply front_unique; eauto). split; [reflexivity|]. intros f ->. apply Hl. reflexivity.
Qed.
Print Assumptions C87_first_word.

(** A text that begins with any other character is read as a comment or as the definition of an operator. *)
Theorem C87_first_sign : forall c s r st, is_name_char c = false -> statement (c :: s) = Ok r st ->
  (exists t, st = Comment t /\ (firstn 2 (c :: s) = L "--" \/ firstn 2 (c :: s) = L "{-")) \/
  (exists f s', st = Function_ f /\ operator_name (leading_name f) /\ c :: s = L "(" ++ leading_name f ++ L ")" ++ s').
Proof.
  intros c s r st Hc H. apply sound_statement in H as (w & E & H).
  destruct (opening_GStmt st w H) as [(t & -> & y & Hw)|[(f & y & -> & Ho & ->)|(y & -> & _ & _ & Hn & Hk & _)]].
  - left. exists t. split; [reflexivity|]. rewrite E. destruct Hw as [-> | ->]; [left|right]; reflexivity.
  - right. exists f, (y ++ r). split; [reflexivity|]. split; [exact Ho|]. rewrite E, <- !app_assoc. reflexivity.
  - exfalso. destruct (opening st) as [|d k]; [congruence|]. injection E as -> _. cbn [forallb] in Hn. rewrite Hc in Hn. discriminate Hn.
Qed.
Print Assumptions C87_first_sign.


(** The other reserved words begin no statement. *)
Theorem C87_reserved : forall k s r st,
  In k [L "where"; L "as"; L "exposing"; L "alias"; L "if"; L "then"; L "else"; L "let"; L "in"; L "case"; L "of"] -> ends is_name_char s ->
  statement (k ++ s) <> Ok r st.
Proof.
  intros k s r st Hk Hs H.
  assert (Q : In k reserved_words /\ ~ In k [L "module"; L "port"; L "effect"; L "import"; L "type"; L "infixl"; L "infixr"; L "infix"; []]).
  { repeat (destruct Hk as [<-|Hk]; [split; [cbn; tauto|cbn; intuition discriminate]|]). destruct Hk. }
  destruct Q as [Q1 Q2]. pose proof (reserved_shape k Q1) as (K1 & K2 & _). destruct (C87_first_word k s r st) as [E F]; auto.
  { intros ->. apply Q2. cbn. tauto. }
  destruct st; cbn [opening] in E; try (match type of E with context [match ?a with AssocN => _ | _ => _ end] => destruct a end); try (apply Q2; rewrite E; cbn; tauto).
  destruct (F f eq_refl) as [->|[_ N]]; [apply K2; reflexivity|exact (N Q1)].
Qed.
Print Assumptions C87_reserved.
(** A word that is not reserved begins a definition of that name, or one of the four other declarations. *)
Theorem C87_definition : forall k s r st, lower_name k -> ~ In k [L "effect"; L "infix"; L "infixl"; L "infixr"] -> ends is_name_char s ->
  statement (k ++ s) = Ok r st -> exists f, st = Function_ f /\ leading_name f = k.
Proof.
  intros k s r st Hk Hx Hs H. destruct (lower_word k Hk) as [K1 K2]. destruct (C87_first_word k s r st) as [E _]; auto.
  assert (R : ~ In k [L "module"; L "port"; L "import"; L "type"; []]).
  { intros R. destruct Hk as [->|[_ N]]; [cbn in R; intuition discriminate|]. repeat (destruct R as [<-|R]; [apply N; cbn; tauto|]). destruct R. }
  destruct st; cbn [opening] in E; try (match type of E with context [match ?a with AssocN => _ | _ => _ end] => destruct a end); try (exfalso; first [apply R; rewrite E; cbn; tauto|apply Hx; rewrite E; cbn; tauto]).
  exists f. auto.
Qed.
Print Assumptions C87_definition.

Lemma reads_each s l r st : reads s l r -> In st l -> exists p w z, s = p ++ w ++ z /\ before_word p /\ statement (w ++ z) = Ok z st.
Proof.
  intros H. induction H as [s st0 r H|s st0 b s' l r H Hb Hs H' IH]; intros Hin.
  - destruct Hin as [<-|[]]. pose proof H as (w & -> & _)%sound_statement. exists [], w, r. repeat split; auto.
  - pose proof H as (w0 & -> & _)%sound_statement. destruct Hin as [<-|Hin].
    + exists [], w0, (b ++ s'). repeat split; auto.
    + destruct (IH Hin) as (p & w & z & -> & Hp & Hst). exists (w0 ++ b ++ p), w, z. split; [rewrite <- !app_assoc; reflexivity|]. split; [|exact Hst].
      destruct p as [|c p].
      * rewrite app_nil_r. destruct (before_blanks1 b Hb) as [H1 H2]. apply before_app; assumption.
      * do 2 (apply before_app; [try discriminate; destruct b; discriminate|]). exact Hp.
Qed.
(** In a file every declaration has its opening word in the text, as a whole word, or is the definition of an
    operator, whose name is there in parentheses. *)
Theorem C87_file : forall s sts st, file s = Ok [] sts -> In st sts -> (forall t, st <> Comment t) ->
  exists a b, is_name_char (last a space) = false /\
    (s = a ++ opening st ++ b /\ opening st <> [] /\ forallb is_name_char (opening st) = true /\ ends is_name_char b \/
     (exists f, st = Function_ f) /\ operator_name (opening st) /\ s = a ++ L "(" ++ opening st ++ L ")" ++ b).
Proof.
  intros s sts st H Hin Hc. apply file_reads in H as (b0 & s1 & r & -> & Hb & Hs & H & Hr). destruct (reads_each _ _ _ _ H Hin) as (p & w & z & -> & Hp & Hst).
  apply sound_statement in Hst as (w' & E & G). apply app_inv_tail in E. subst w'.
  assert (Hb0 : before_word (b0 ++ p)). { destruct p as [|c p]; [rewrite app_nil_r; apply before_blanks, Hb|]. apply before_app; [discriminate|exact Hp]. }
  destruct (opening_GStmt st w G) as [(t & -> & _)|[(f & y & -> & Ho & ->)|(y & -> & Hy & He & Hn & Hk & _)]].
  - destruct (Hc t eq_refl).
  - exists (b0 ++ p), (y ++ z). split; [exact Hb0|]. right. split; [eauto|]. split; [exact Ho|]. cbn [opening]. rewrite <- !app_assoc. reflexivity.
  - exists (b0 ++ p), (y ++ z). split; [exact Hb0|]. left. split; [rewrite <- !app_assoc; reflexivity|]. auto.
Qed.
Print Assumptions C87_file.

(** *** Instances *)
Example C87_instance : Forall (fun p => fst p <> [] /\ forallb is_name_char (fst p) = true /\ ends is_name_char (snd p) /\
    exists r st, statement (fst p ++ snd p) = Ok r st /\ fst p = opening st)
  [ (L "module", L " Main exposing (..)"); (L "port", L " f : Int"); (L "port", L " module Main exposing (..)"); (L "type", L " alias A = B"); (L "type", L " A = B"); (L "import", L " A");
    (L "infixr", L " 5 ++"); (L "infix", L " = 1"); (L "effect", L " = 1"); (L "modules", L " = 1"); (L "typeA", L " = B"); (L "f", L " : Int" ++ [newline] ++ L "g = 1"); (L "_", L " = 1");
    (L "effect", L " module Main where {command = MyCmd} exposing (..)") ].
Proof. repeat (apply Forall_cons; [split; [discriminate|]; split; [reflexivity|]; split; [reflexivity|]; do 2 eexists; split; [vm_compute; reflexivity|reflexivity]|]). apply Forall_nil. Qed.
Example C87_sign_instance : Forall (fun s => exists r st, statement s = Ok r st) [ L "(+++) a b = a"; L "-- x"; L "{- x -}" ].
Proof. repeat (apply Forall_cons; [do 2 eexists; vm_compute; reflexivity|]). apply Forall_nil. Qed.
Example C87_definition_instance : lower_name (L "modules") /\ ~ In (L "modules") [L "effect"; L "infix"; L "infixl"; L "infixr"] /\
  exists f, statement (L "modules" ++ L " x = 1") = Ok [] (Function_ f) /\ leading_name f = L "modules".
Proof.
  split; [right; split; [do 2 eexists; split; [reflexivity|split; reflexivity]|vm_compute; intuition discriminate]|]. split; [vm_compute; intuition discriminate|].
  eexists. split; [vm_compute; reflexivity|reflexivity].
Qed.
Example C87_refused : Forall (fun s => forall r st, statement s <> Ok r st)
  [ L "alias A = B"; L "in = 1"; L "let x = 1 in x"; L "moduleMain exposing (..)"; L "importA"; L "portmodule A exposing (..)" ].
Proof. repeat (apply Forall_cons; [intros r st; vm_compute; discriminate|]). apply Forall_nil. Qed.
Example C87_file_instance : exists a d, file (L "import A" ++ [newline] ++ L "type T = B" ++ [newline] ++ L "(+.) = f") = Ok [] [a; TypeDeclaration (TypeConstructor [L "T"] []) d; Function_ (mkFunc None (mkDef (L "+.") [] (Variable_ [L "f"])))].
Proof. do 2 eexists. vm_compute. reflexivity. Qed.
