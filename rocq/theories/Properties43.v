(** * C86: an unfinished definition is never accepted *)
From Verif Require Import Base Nom Regex Ast Spec Helpers Types Expr Stmt Grammar SoundS Fail Errors Finish.

(** [ending st w] (Finish.v): how the text [w] of the statement [st] ends.  A definition and the
    definition of a port end in a closing bracket, a quote, or a whole word that is a number or a name,
    and no reserved word ([finished]); a module line, an import, a type, an alias, the type of a port in
    a character of a name, a closing parenthesis or brace; an infix declaration in one of a name or an operator. *)
Theorem C86_statement : forall s r st w, statement s = Ok r st -> s = w ++ r -> ending st w.
Proof.
  intros s r st w H E. apply sound_statement in H as (w' & E' & H). rewrite E in E'. apply app_inv_tail in E'. subst w'. apply ending_GStmt, H.
Qed.
Print Assumptions C86_statement.

Lemma reads_last s l r : reads s l r -> exists p w l' st, s = p ++ w ++ r /\ l = l' ++ [st] /\ before_word p /\ statement (w ++ r) = Ok r st.
Proof.
  intros H. induction H as [s st r H|s st b s' l r H Hb Hs H' (p & w & l' & st' & -> & -> & Hp & Hst)].
  - pose proof H as (w & -> & _)%sound_statement. exists [], w, [], st. repeat split; auto.
  - pose proof H as (w0 & -> & _)%sound_statement. exists (w0 ++ b ++ p), w, (st :: l'), st'. split; [rewrite <- !app_assoc; reflexivity|]. split; [reflexivity|].
    split; [|exact Hst]. destruct p as [|c p].
    + rewrite app_nil_r. destruct (before_blanks1 b Hb) as [H1 H2]. apply before_app; assumption.
    + do 2 (apply before_app; [try discriminate; destruct b; discriminate|]). exact Hp.
Qed.
Lemma ending_app p st w : ending st w -> before_word p -> ending st (p ++ w).
Proof.
  intros H Hp. destruct st; cbn [ending] in *; try (destruct H as (u & c & -> & H); exists (p ++ u), c; split; [apply app_assoc|exact H]); try exact I;
    apply finished_app; assumption.
Qed.
Lemma before_blanks p : blanks p -> before_word p.
Proof. intros H. destruct p as [|c p]; [reflexivity|]. apply before_blanks1. split; [discriminate|exact H]. Qed.

(** A file, without the blanks at its end, ends as its last statement does. *)
Theorem C86_file : forall s sts, file s = Ok [] sts ->
  exists s' b l st, s = s' ++ b /\ blanks b /\ sts = l ++ [st] /\ ending st s'.
Proof.
  intros s sts H. apply file_reads in H as (b0 & s1 & r & -> & Hb & Hs & H & Hr). apply reads_last in H as (p & w & l' & st & -> & -> & Hp & H).
  exists (b0 ++ p ++ w), r, l', st. split; [rewrite <- !app_assoc; reflexivity|]. split; [exact Hr|]. split; [reflexivity|].
  rewrite app_assoc. apply ending_app; [exact (C86_statement _ _ _ w H eq_refl)|]. destruct p as [|c p]; [rewrite app_nil_r; apply before_blanks, Hb|].
  apply before_app; [discriminate|exact Hp].
Qed.
Print Assumptions C86_file.

Lemma lead_unique p q (x y : char) u v : blanks p -> blanks q -> is_blank x = false -> is_blank y = false -> p ++ x :: u = q ++ y :: v -> x = y /\ u = v.
Proof.
  unfold blanks. intros Hp Hq Hx Hy. revert q Hq. induction p as [|c p IH]; intros [|d q] Hq E; cbn [app forallb] in *.
  - injection E as -> ->. auto.
  - injection E as -> _. apply andb_true_iff in Hq as [Hq _]. congruence.
  - injection E as <- _. apply andb_true_iff in Hp as [Hp _]. congruence.
  - injection E as _ E. apply andb_true_iff in Hp as [_ Hp]. apply andb_true_iff in Hq as [_ Hq]. apply (IH Hp q); assumption.
Qed.
Lemma blanks_rev b : blanks b -> blanks (rev b).
Proof. unfold blanks. rewrite !forallb_forall. intros H x Hx. apply H, in_rev. exact Hx. Qed.
Lemma tail_unique p q (x y : char) u v : blanks p -> blanks q -> is_blank x = false -> is_blank y = false -> (u ++ [x]) ++ p = (v ++ [y]) ++ q -> x = y /\ u = v.
Proof.
  intros Hp Hq Hx Hy E. apply (f_equal (@rev char)) in E. rewrite !rev_app_distr in E. cbn [rev app] in E.
  apply lead_unique in E as [-> E]; auto using blanks_rev. split; [reflexivity|]. rewrite <- (rev_involutive u), E, rev_involutive. reflexivity.
Qed.
Lemma last_in (l : str) : l <> [] -> In (last l space) l.
Proof. intros H. destruct (exists_last H) as (u & x & ->). rewrite last_snoc. apply in_or_app. right. left. reflexivity. Qed.
Lemma word_unique (a k u t : str) : a ++ k = u ++ t -> before_word a -> before_word u -> forallb is_name_char k = true -> forallb is_name_char t = true -> k = t.
Proof.
  intros E Ha Hu Hk Ht. rewrite forallb_forall in Hk, Ht. apply app_eq_app in E as (l & [[-> ->]|[-> ->]]); (destruct l as [|c l]; [reflexivity|exfalso]).
  - unfold before_word in Ha. rewrite last_two in Ha by discriminate. rewrite Ht in Ha; [discriminate Ha|]. apply in_or_app. left. apply last_in. discriminate.
  - unfold before_word in Hu. rewrite last_two in Hu by discriminate. rewrite Hk in Hu; [discriminate Hu|]. apply in_or_app. left. apply last_in. discriminate.
Qed.
Lemma finished_not_blank w : finished w -> exists u x, w = u ++ [x] /\ is_blank x = false /\ (is_name_char x = true \/ In [x] [L ")"; L "]"; L "}"; [quote]; [squote]]).
Proof.
  intros (u & t & -> & H). destruct H as [H|[_ H]].
  - assert (K : exists x, t = [x] /\ is_blank x = false) by (repeat (destruct H as [<-|H]; [eexists; split; reflexivity|]); destruct H).
    destruct K as (x & -> & K). exists u, x. auto.
  - assert (K : t <> [] /\ forallb is_name_char t = true).
    { destruct H as [[->|[(c & t' & -> & Hc & Ht) _]]|[(c & t' & -> & Hc & Ht)|[Hne Ht]]].
      - split; [discriminate|reflexivity].
      - split; [discriminate|]. cbn [forallb]. rewrite Ht, andb_true_r. unfold is_name_char. rewrite Hc. reflexivity.
      - split; [discriminate|]. cbn [forallb]. rewrite Ht, andb_true_r. unfold is_name_char. rewrite Hc. rewrite ?orb_true_r. reflexivity.
      - split; [exact Hne|]. rewrite forallb_forall in *. intros x Hx. apply Ht in Hx. unfold is_name_char. rewrite Hx. rewrite ?orb_true_r. reflexivity. }
    destruct K as [Hne Ht]. destruct (exists_last Hne) as (t' & x & ->). exists (u ++ t'), x. split; [apply app_assoc|].
    rewrite forallb_app in Ht. apply andb_true_iff in Ht as [_ Ht]. cbn [forallb] in Ht. apply andb_true_iff in Ht as [Ht _]. split; [|auto].
    apply not_true_iff_false. intros K. apply mem_char_In in K. repeat (destruct K as [<-|K]; [discriminate Ht|]). destruct K.
Qed.
Lemma reserved_shape k : In k reserved_words -> forallb is_name_char k = true /\ k <> L "_" /\ ~ upper_name k /\ ~ digits1 k /\
  exists k' x, k = k' ++ [x] /\ is_blank x = false /\ In x (L "abcdefghijklmnopqrstuvwxyz").
Proof.
  assert (Q : forall k, forallb is_lower k = true -> k <> [] -> forallb is_name_char k = true /\ k <> L "_" /\ ~ upper_name k /\ ~ digits1 k /\
    exists k' x, k = k' ++ [x] /\ is_lower x = true).
  { intros w H Hne. split; [|split; [|split; [|split]]].
    - rewrite forallb_forall in *. intros x Hx. apply H in Hx. unfold is_name_char. rewrite Hx. reflexivity.
    - intros ->. discriminate H.
    - intros (c & t & -> & Hc & _). cbn [forallb] in H. apply andb_true_iff in H as [H _]. unfold is_lower, is_upper, between in *.
      apply andb_true_iff in H as [H _]. apply andb_true_iff in Hc as [_ Hc]. apply N.leb_le in H, Hc. lia.
    - intros [_ Hd]. destruct w as [|c w]; [congruence|]. cbn [forallb] in *. apply andb_true_iff in H as [H _]. apply andb_true_iff in Hd as [Hd _].
      unfold is_lower, is_dec, between in *. apply andb_true_iff in H as [H _]. apply andb_true_iff in Hd as [_ Hd]. apply N.leb_le in H, Hd. lia.
    - destruct (exists_last Hne) as (w' & x & ->). exists w', x. split; [reflexivity|]. rewrite forallb_app in H. apply andb_true_iff in H as [_ H].
      cbn [forallb] in H. apply andb_true_iff in H. apply H. }
  intros H. destruct (Q k) as (K1 & K2 & K3 & K4 & (k' & x & -> & Kx)).
  - cbn in H. repeat (destruct H as [<-|H]; [reflexivity|]). destruct H.
  - intros ->. cbn in H. repeat (destruct H as [H|H]; [discriminate H|]). destruct H.
  - split; [exact K1|]. split; [exact K2|]. split; [exact K3|]. split; [exact K4|]. exists k', x. split; [reflexivity|].
    assert (Hx : In x (L "abcdefghijklmnopqrstuvwxyz")).
    { apply mem_char_In. revert Kx. unfold is_lower, between. intros Kx. apply andb_true_iff in Kx as [A B]. apply N.leb_le in A, B.
      apply mem_char_In. assert (E : x = C "a" \/ x = C "b" \/ x = C "c" \/ x = C "d" \/ x = C "e" \/ x = C "f" \/ x = C "g" \/ x = C "h" \/ x = C "i" \/ x = C "j" \/ x = C "k" \/ x = C "l" \/ x = C "m" \/
        x = C "n" \/ x = C "o" \/ x = C "p" \/ x = C "q" \/ x = C "r" \/ x = C "s" \/ x = C "t" \/ x = C "u" \/ x = C "v" \/ x = C "w" \/ x = C "x" \/ x = C "y" \/ x = C "z") by lia.
      cbn. intuition (subst; tauto). }
    split; [|exact Hx]. apply not_true_iff_false. intros K. apply mem_char_In in K. cbn in K. destruct K as [<-|[<-|[<-|[<-|[]]]]]; discriminate Kx.
Qed.

(** A file that ends in a reserved word, perhaps with blanks after it, is not accepted with a definition as its
    last statement. *)
Theorem C86_keyword : forall a k b sts st, In k reserved_words -> is_name_char (last a space) = false -> blanks b ->
  file (a ++ k ++ b) = Ok [] (sts ++ [st]) -> (forall f, st <> Function_ f) /\ (forall n args e, st <> PortDeclaration n args e).
Proof.
  intros a k b sts st Hk Ha Hb H. apply C86_file in H as (s' & b' & l & st' & E & Hb' & El & He). apply app_inj_tail in El as [_ ->].
  destruct (reserved_shape k Hk) as (K1 & K2 & K3 & K4 & (k' & x & Ek & Kx & _)).
  assert (N : ~ finished s').
  { intros F. destruct (finished_not_blank s' F) as (u & y & Es & Hy & _). rewrite Es, Ek in E. rewrite (app_assoc a), (app_assoc a) in E.
    apply tail_unique in E as [-> E]; auto. subst u. assert (Ew : s' = a ++ k) by (rewrite Es, Ek, app_assoc; reflexivity). clear Es.
    destruct F as (u & t & Et & F). rewrite Ew in Et. destruct F as [F|[F1 F2]].
    - rewrite Ek, app_assoc in Et. assert (Q : exists z, t = [z] /\ is_name_char z = false) by (repeat (destruct F as [<-|F]; [eexists; split; reflexivity|]); destruct F).
      destruct Q as (z & -> & Q). apply app_inj_tail in Et as [_ <-]. rewrite Ek, forallb_app in K1. apply andb_true_iff in K1 as [_ K1]. cbn [forallb] in K1. rewrite Q in K1. discriminate K1.
    - assert (Ht : forallb is_name_char t = true).
      { clear - F2. destruct F2 as [[->|[(c & t' & -> & Hc & Ht) _]]|[(c & t' & -> & Hc & Ht)|[Hne Ht]]].
        - reflexivity.
        - cbn [forallb]. rewrite Ht, andb_true_r. unfold is_name_char. rewrite Hc. reflexivity.
        - cbn [forallb]. rewrite Ht, andb_true_r. unfold is_name_char. rewrite Hc. rewrite ?orb_true_r. reflexivity.
        - rewrite forallb_forall in *. intros z Hz. apply Ht in Hz. unfold is_name_char. rewrite Hz. rewrite ?orb_true_r. reflexivity. }
      pose proof (word_unique a k u t Et Ha F1 K1 Ht) as Eq. subst t. destruct F2 as [[F2|[_ F2]]|[F2|F2]]; auto. }
  split; [intros f ->|intros n args e ->]; exact (N He).
Qed.
Print Assumptions C86_keyword.

(** A file that ends in a sign other than a closing bracket or a quote is accepted only if its last statement
    is a comment, or an infix declaration and the sign one of an operator. *)
Theorem C86_sign : forall a c b sts st, is_name_char c = false -> is_blank c = false -> ~ In c (quote :: squote :: L ")]}") -> blanks b ->
  file (a ++ [c] ++ b) = Ok [] (sts ++ [st]) ->
  (exists t, st = Comment t) \/ (is_op_char c = true /\ exists x p n, st = InfixDeclaration x p n).
Proof.
  intros a c b sts st H1 H2 H3 Hb H. apply C86_file in H as (s' & b' & l & st' & E & Hb' & El & He). apply app_inj_tail in El as [_ <-].
  rewrite (app_assoc a) in E.
  assert (A : forall u y, s' = u ++ [y] -> is_blank y = false -> c = y).
  { intros u y -> Hy. apply tail_unique in E as [E _]; auto. }
  assert (G : forall y, is_name_char y = true \/ is_op_char y = true \/ In y (L ")}") -> is_blank y = false).
  { intros y Hy. apply not_true_iff_false. intros K. apply mem_char_In in K. repeat (destruct K as [<-|K]; [vm_compute in Hy; intuition discriminate|]). destruct K. }
  destruct st; cbn [ending] in He.
  all: try (left; eexists; reflexivity).
  all: try (exfalso; destruct He as (u & y & -> & He); rewrite (A u y eq_refl) in H1, H3 by (apply G; tauto); destruct He as [He|He]; [congruence|apply H3; revert He; clear; cbn; tauto]).
  - exfalso. destruct (finished_not_blank s' He) as (u & y & -> & Hy & K). rewrite (A u y eq_refl Hy) in *. destruct K as [K|K]; [congruence|]. apply H3.
    repeat (destruct K as [K|K]; [injection K as <-; cbn; tauto|]). destruct K.
  - exfalso. destruct (finished_not_blank s' He) as (u & y & -> & Hy & K). rewrite (A u y eq_refl Hy) in *. destruct K as [K|K]; [congruence|]. apply H3.
    repeat (destruct K as [K|K]; [injection K as <-; cbn; tauto|]). destruct K.
  - right. destruct He as (u & y & -> & He). rewrite (A u y eq_refl) in * by (apply G; tauto). destruct He as [He|He]; [congruence|]. split; [exact He|]. do 3 eexists. reflexivity.
Qed.
Print Assumptions C86_sign.

(** *** Instances *)
Example C86_instance : Forall (fun p => exists st, statement (fst p ++ snd p) = Ok (snd p) st)
  [ (L "f = if a then b else c1", L "  "); (L "f = \x -> { x | y = 1 }", [newline]); (L "f = g 'a'", []); (L "infixl 5 +++", L " "); (L "import A.B as C", [newline]);
    (L "type T = A in", []); (L "x = 0.5", L " ") ].
Proof. repeat (apply Forall_cons; [eexists; vm_compute; reflexivity|]). apply Forall_nil. Qed.
Example C86_keyword_instance : In (L "in") reserved_words /\ is_name_char (last (L "type T = A ") space) = false /\ blanks [newline] /\
  exists n cs, file (L "type T = A " ++ L "in" ++ [newline]) = Ok [] ([] ++ [TypeDeclaration n cs]).
Proof. split; [cbn; tauto|]. split; [reflexivity|]. split; [reflexivity|]. do 2 eexists. vm_compute. reflexivity. Qed.
Example C86_sign_instance : is_name_char (C "=") = false /\ is_blank (C "=") = false /\ ~ In (C "=") (quote :: squote :: L ")]}") /\
  (exists t, file (L "f = 1 -- x " ++ [C "="] ++ [newline]) = Ok [] ([Function_ (mkFunc None (mkDef (L "f") [] (Integer (L "1"))))] ++ [Comment t])) /\
  (exists x p n, file (L "infix 4 =" ++ [C "="] ++ []) = Ok [] ([] ++ [InfixDeclaration x p n])).
Proof.
  split; [reflexivity|]. split; [reflexivity|]. split; [vm_compute; intuition discriminate|]. split; [eexists|do 3 eexists]; vm_compute; reflexivity.
Qed.
(** So none of these is a file. *)
Example C86_refused : Forall (fun s => forall sts, file s <> Ok [] sts)
  [ L "f ="; L "f = (1, "; L "f = a +"; L "f = if a then"; L "f = let x = 1 in"; L "f = case x of"; L "f x = \"; L "f = ["; L "f = x ."; L "f :" ].
Proof. repeat (apply Forall_cons; [intros sts; vm_compute; discriminate|]). apply Forall_nil. Qed.
