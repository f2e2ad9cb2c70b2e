(** * C84: where a declaration may be broken into lines that end in a carriage return *)
From Verif Require Import Base Nom Regex Ast Spec Helpers Types Expr Stmt Grammar SoundS Fail Errors Nest Crlf.

(** [opens a], [closes a] (Crlf.v): how many opening and closing parentheses and braces [a] has;
    [after_operator a]: [a] ends in an operator (or the word [as]) that has a space or a line feed
    before it, with nothing but blanks after it.  Brackets do not count.  In the text of a
    declaration, a carriage return stands only inside parentheses or braces, or right after an
    operator. *)
Theorem C84_statement : forall s r st w, statement s = Ok r st -> s = w ++ r -> no_comment_or_quote w ->
  forall a b, w = a ++ cr :: b -> closes a < opens a \/ after_operator a.
Proof.
  intros s r st w H E Hno a b Ew. apply sound_statement in H as (w' & E' & H). rewrite E in E'. apply app_inv_tail in E'. subst w'.
  exact (scan_return_inside 0 w 0 (scan_GStmt _ _ _ H) Hno a b Ew).
Qed.
Print Assumptions C84_statement.

(** The file [s] is divided into the texts of its statements, and blanks. *)
Inductive divided : str -> list (str * statement_ast) -> Prop :=
| divided_end b : blanks b -> divided b []
| divided_next b w s st l : blanks b -> no_blank (w ++ s) -> statement (w ++ s) = Ok s st -> divided s l ->
    divided (b ++ w ++ s) ((w, st) :: l).
(** Every line feed has a carriage return before it. *)
Definition windows (s : str) : Prop := forall a b, s = a ++ newline :: b -> exists a', a = a' ++ [cr].

Lemma blanks_app b c : blanks b -> blanks c -> blanks (b ++ c).
Proof. unfold blanks. rewrite forallb_app. intros -> ->. reflexivity. Qed.
Lemma reads_divided s l r : reads s l r -> no_blank s -> blanks r -> forall b, blanks b ->
  exists ws, divided (b ++ s) ws /\ map snd ws = l.
Proof.
  intros H. induction H as [s st r H|s st b s' l r H Hb Hs H' IH]; intros Hn Hr b0 Hb0.
  - pose proof H as (w & -> & _)%sound_statement. exists [(w, st)]. split; [|reflexivity]. constructor; auto. constructor. exact Hr.
  - pose proof H as (w & -> & _)%sound_statement. destruct (IH Hs Hr b (proj2 Hb)) as (ws & K & <-). exists ((w, st) :: ws).
    split; [|reflexivity]. constructor; auto.
Qed.
Lemma no_cq_suffix a s : no_comment_or_quote (a ++ s) -> no_comment_or_quote s.
Proof. induction a as [|c a IH]; [auto|]. intros H. apply IH. eapply no_cq_tail, H. Qed.
Lemma no_cq_prefix s t : no_comment_or_quote (s ++ t) -> no_comment_or_quote s.
Proof.
  intros (H1 & H2 & H3 & H4). repeat split.
  - intros H. apply H1, in_or_app. auto.
  - intros H. apply H2, in_or_app. auto.
  - intros (a & b & ->). apply H3. exists a, (b ++ t). rewrite <- !app_assoc. reflexivity.
  - intros (a & b & ->). apply H4. exists a, (b ++ t). rewrite <- !app_assoc. reflexivity.
Qed.
Lemma windows_inside u c w v a b : windows (u ++ (c :: w) ++ v) -> c <> newline -> c :: w = a ++ newline :: b -> exists a', a = a' ++ [cr].
Proof.
  intros H Hc E. destruct a as [|y a] using rev_ind; [injection E as -> _; congruence|]. clear IHa.
  destruct (H (u ++ a ++ [y]) (b ++ v)) as (a' & K). { rewrite E, <- !app_assoc. reflexivity. }
  rewrite app_assoc in K. apply app_inj_tail in K as [_ ->]. exists a. reflexivity.
Qed.
(** In an accepted file with Windows line ends, every line break that is not between two declarations
    is inside parentheses or braces, or follows an operator. *)
Theorem C84_windows : forall s sts, file s = Ok [] sts -> windows s -> no_comment_or_quote s ->
  exists ws, divided s ws /\ map snd ws = sts /\
    Forall (fun p => forall a b, fst p = a ++ newline :: b -> closes a < opens a \/ after_operator a) ws.
Proof.
  intros s sts H Hw Hno. apply file_reads in H as (b0 & s1 & r & -> & Hb & Hs & H & Hr).
  destruct (reads_divided s1 sts r H Hs Hr b0 Hb) as (ws & Hd & Hl). exists ws. split; [exact Hd|]. split; [exact Hl|].
  clear Hl H Hr Hs. revert Hw Hno Hd. generalize (b0 ++ s1). clear. intros s Hw Hno Hd.
  change s with ([] ++ s) in Hw. revert Hw. generalize (@nil char). intros u Hw. revert u Hw. 
  induction Hd as [b Hb|b w s st l Hb Hn H Hd IH]; intros u Hw; constructor.
  - cbn [fst]. intros a t E. destruct w as [|c w]; [destruct a; discriminate E|]. cbn [app no_blank] in Hn.
    assert (Hc : c <> newline) by (intros ->; discriminate Hn).
    rewrite app_assoc in Hw. destruct (windows_inside _ c w s a t Hw Hc E) as (a' & ->). rewrite <- app_assoc in E.
    destruct (C84_statement _ _ _ (c :: w) H eq_refl) with (a := a') (b := newline :: t) as [K|(a1 & x & o & bl & -> & K1 & K2 & K3)].
    + apply no_cq_suffix in Hno. eapply no_cq_prefix, Hno.
    + exact E.
    + left. rewrite opens_app, closes_app. cbn. lia.
    + right. exists a1, x, o, (bl ++ [cr]). split; [rewrite <- app_assoc; cbn [app]; rewrite <- app_assoc; reflexivity|].
      split; [exact K1|]. split; [exact K2|]. apply blanks_app; [exact K3|reflexivity].
  - apply no_cq_suffix, no_cq_suffix in Hno. apply (IH Hno (u ++ b ++ w)). rewrite <- !app_assoc. exact Hw.
Qed.
Print Assumptions C84_windows.

(** A declaration without parentheses and braces: a line with a Windows end that is not its last ends in
    an operator. *)
Theorem C84_lines : forall s sts, file s = Ok [] sts -> windows s -> no_comment_or_quote s ->
  ~ In (C "(") s -> ~ In (C "{") s ->
  exists ws, divided s ws /\ map snd ws = sts /\ Forall (fun p => forall a b, fst p = a ++ newline :: b -> after_operator a) ws.
Proof.
  intros s sts H Hw Hno H1 H2. destruct (C84_windows s sts H Hw Hno) as (ws & Hd & Hl & HF). exists ws. split; [exact Hd|]. split; [exact Hl|].
  clear H Hw Hno Hl. induction Hd as [b Hb|b w s st l Hb Hn H Hd IH]; constructor.
  - cbn [fst]. intros a t E. apply Forall_inv in HF. destruct (HF a t E) as [K|K]; [exfalso|exact K]. cbn [fst] in E.
    assert (Z : opens a = 0); [|lia]. unfold opens. apply length_zero_iff_nil.
    destruct (filter (fun c => mem_char c (L "({")) a) as [|c f] eqn:Ef; [reflexivity|exfalso].
    assert (Hc : In c (c :: f)) by (left; reflexivity). rewrite <- Ef in Hc. apply filter_In in Hc as [Hc1 Hc2].
    assert (Hi : In c (b ++ w ++ s)) by (apply in_or_app; right; apply in_or_app; left; rewrite E; apply in_or_app; left; exact Hc1).
    apply mem_char_In in Hc2. destruct Hc2 as [<-|[<-|[]]]; auto.
  - apply IH; [intros K; apply H1|intros K; apply H2|eapply Forall_inv_tail, HF]; apply in_or_app; right; apply in_or_app; right; exact K.
Qed.
Print Assumptions C84_lines.

(** *** Instances *)
Definition crlf : str := [cr; newline].
Definition windows_file : str :=
  L "module Main exposing (..)" ++ crlf ++ crlf ++ L "pair = (" ++ crlf ++ L "  1," ++ crlf ++ L "  2" ++ crlf ++ L " )" ++ crlf ++ crlf ++
  L "sum = a +" ++ crlf ++ L "  b" ++ crlf ++ L "move p = { p |" ++ crlf ++ L "  x = 1 }" ++ crlf.
Fixpoint windows_b (s : str) : bool := match s with
  | c :: t => (match t with d :: _ => negb (d =? newline)%N || (c =? cr)%N | [] => true end) && windows_b t
  | [] => true end.
Lemma windows_check s : no_blank s -> windows_b s = true -> windows s.
Proof.
  intros Hn H a b ->. destruct a as [|y a] using rev_ind; [discriminate Hn|]. clear IHa Hn. exists a. f_equal. f_equal.
  rewrite <- app_assoc in H. cbn [app] in H. induction a as [|c a IH].
  - cbn in H. apply andb_true_iff in H as [H _]. apply N.eqb_eq in H. exact H.
  - cbn [app windows_b] in H. apply andb_true_iff in H as [_ H]. auto.
Qed.
Fixpoint quiet_b (s : str) : bool := match s with
  | c :: t => negb (c =? quote)%N && negb (c =? squote)%N &&
      (match t with d :: _ => negb ((d =? C "-")%N && ((c =? C "-")%N || (c =? C "{")%N)) | [] => true end) && quiet_b t
  | [] => true end.
Lemma quiet_check s : quiet_b s = true -> no_comment_or_quote s.
Proof.
  assert (Hin : forall s, quiet_b s = true -> ~ In quote s /\ ~ In squote s).
  { induction s0 as [|c s0 IH]; [intros _; split; intros []|]. cbn [quiet_b]. intros H. apply andb_true_iff in H as [H H4]. apply andb_true_iff in H as [H _].
    apply andb_true_iff in H as [H1 H2]. destruct (IH H4) as [K1 K2].
    split; (intros [->|Q]; [|auto]); [discriminate H1|discriminate H2]. }
  assert (Htail : forall a s, quiet_b (a ++ s) = true -> quiet_b s = true).
  { induction a as [|c a IH]; [auto|]. intros s0 H. cbn [app quiet_b] in H. apply andb_true_iff in H as [_ H]. auto. }
  intros H. split; [apply Hin, H|]. split; [apply Hin, H|]. split; intros (a & b & ->); apply Htail in H; discriminate H.
Qed.
Example C84_instance : exists sts, file windows_file = Ok [] sts /\ length sts = 4 /\ windows windows_file /\ no_comment_or_quote windows_file.
Proof.
  eexists. split; [vm_compute; reflexivity|]. split; [reflexivity|]. split; [apply windows_check; reflexivity|apply quiet_check; reflexivity].
Qed.
(** Without parentheses and braces. *)
Example C84_lines_instance : let s := L "f x = x ::" ++ crlf ++ L "  [ 1, 2 ] ++" ++ crlf ++ L "  rest" ++ crlf ++ L "g = 1" ++ crlf in
  (exists sts, file s = Ok [] sts /\ length sts = 2) /\ windows s /\ no_comment_or_quote s /\ ~ In (C "(") s /\ ~ In (C "{") s.
Proof.
  split; [eexists; split; [vm_compute; reflexivity|reflexivity]|]. split; [apply windows_check; reflexivity|]. split; [apply quiet_check; reflexivity|].
  split; intros H; apply mem_char_In in H; vm_compute in H; discriminate H.
Qed.
(** Elsewhere a Windows line end is refused, where a line feed alone is accepted: after [=], between the
    elements of a list, before an operator, after [of]. *)
Example C84_refused : Forall (fun p =>
    (forall sts, file (fst p ++ crlf ++ snd p) <> Ok [] sts) /\ exists sts, file (fst p ++ [newline] ++ snd p) = Ok [] sts)
  [ (L "f =", L "  1"); (L "f = [ 1", L " , 2 ]"); (L "f = a", L "  + b"); (L "f x = case x of", L "  _ -> 1"); (L "f = let", L "  a = 1 in a");
    (L "type T", L "  = A"); (L "f = g", L "  1") ].
Proof.
  repeat (apply Forall_cons; [split; [intros sts; vm_compute; discriminate|eexists; vm_compute; reflexivity]|]). apply Forall_nil.
Qed.
(** With brackets instead of parentheses the same text is refused, so only parentheses and braces count. *)
Example C84_brackets : (exists sts, file (L "f = (" ++ crlf ++ L " 1," ++ crlf ++ L " 2)") = Ok [] sts) /\
  (forall sts, file (L "f = [" ++ crlf ++ L " 1," ++ crlf ++ L " 2]") <> Ok [] sts) /\
  (exists sts, file (L "f = [" ++ [newline] ++ L " 1," ++ [newline] ++ L " 2]") = Ok [] sts).
Proof. split; [eexists; vm_compute; reflexivity|]. split; [intros sts; vm_compute; discriminate|eexists; vm_compute; reflexivity]. Qed.
