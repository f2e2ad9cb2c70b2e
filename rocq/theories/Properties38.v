(** * C81: which characters may stand next to each other *)
From Verif Require Import Base Nom Ast Spec Helpers Types Expr Stmt Grammar SoundS Leaves Words Touch.

(** The text has no string or character literal and no comment. *)
Definition no_literal_or_comment (s : str) (sts : list statement_ast) : Prop :=
  ~ In quote s /\ ~ In squote s /\ ~ (exists a b, s = a ++ L "--" ++ b) /\ (forall c, ~ In (Comment c) sts).
(** [d] stands just after [c]. *)
Definition beside (s : str) (c d : char) : Prop := exists a b, s = a ++ c :: d :: b.

(** The whole table: in an accepted text, the classes of two characters in a row are a pair of [touch]. *)
Theorem C81_table : forall s sts c d, file s = Ok [] sts -> no_literal_or_comment s sts -> beside s c d ->
  touch (cls_of c) (cls_of d) = true.
Proof.
  intros s sts c d H (H1 & H2 & H3 & H4) (a & b & E). apply (chain_split a c d b). rewrite <- E.
  apply (chain_file sts); [apply file_sound in H; apply H| |repeat split; assumption].
  apply forallb_forall. intros st Hst. destruct st; try reflexivity. destruct (H4 _ Hst).
Qed.
Print Assumptions C81_table.

Ltac after H d := pose proof (cls_spec d) as S; destruct (cls_of d); try discriminate H; cbn [members In] in S |- *; try tauto.
(** After a letter, a digit or an underscore comes another one, a blank, or one of these signs:
    no operator, no opening bracket or brace and no backslash. *)
Theorem C81_word : forall s sts c d, file s = Ok [] sts -> no_literal_or_comment s sts -> beside s c d ->
  is_name_char c = true -> is_name_char d = true \/ In d [32; 9; 13; 10]%N \/ In d (L ",.=:|()]}").
Proof.
  intros s sts c d H K B Hc. pose proof (C81_table _ _ _ _ H K B) as T. apply cls_name in Hc.
  destruct (cls_of c); try discriminate Hc; after T d; try (left; apply dec_name, S); tauto.
Qed.
Print Assumptions C81_word.

(** After a closing sign comes a blank, a closing sign or a comma, and after [)] also a dot: two
    phrases in brackets, or one and a word, are never written together. *)
Theorem C81_close : forall s sts c d, file s = Ok [] sts -> no_literal_or_comment s sts -> beside s c d ->
  In c (L ")]}") -> In d [32; 9; 13; 10]%N \/ In d (L ",)]}") \/ c = C ")" /\ d = C ".".
Proof.
  intros s sts c d H K B Hc. pose proof (C81_table _ _ _ _ H K B) as T.
  destruct Hc as [<-|[<-|[<-|[]]]]; after T d. right. right. split; [reflexivity|]. destruct S as [<-|[]]. reflexivity.
Qed.
Print Assumptions C81_close.

(** After an operator sign comes a blank, another operator sign or [)], and after [+] and [-] also
    a digit: no sign stands just before a name, a bracket or a comma. *)
Theorem C81_operator : forall s sts c d, file s = Ok [] sts -> no_literal_or_comment s sts -> beside s c d ->
  In c (L "/*$<>&^?%#@~!+-") ->
  In d [32; 9; 13; 10]%N \/ is_op_char d = true \/ d = C ")" \/ In c (L "+-") /\ is_dec d = true.
Proof.
  intros s sts c d H K B Hc. pose proof (C81_table _ _ _ _ H K B) as T.
  assert (Q : (cls_of c = Op \/ cls_of c = Pm /\ In c (L "+-"))).
  { clear - Hc. repeat (destruct Hc as [<-|Hc]; [first [left; reflexivity | right; split; [reflexivity|vm_compute; tauto]]|]). destruct Hc. }
  destruct Q as [Q|[Q Q']]; rewrite Q in T; after T d;
    try solve [right; left; clear - S; repeat (destruct S as [<-|S]; [reflexivity|]); destruct S];
    try solve [right; right; left; destruct S as [<-|[]]; reflexivity]; right; right; right; split; assumption.
Qed.
Print Assumptions C81_operator.

(** After [{] comes a blank, a letter, an underscore or [}]; after [[], [(] and a comma no closing
    sign of another kind. *)
Theorem C81_open : forall s sts c d, file s = Ok [] sts -> no_literal_or_comment s sts -> beside s c d ->
  (c = C "{" -> In d [32; 9; 13; 10]%N \/ is_name_char d = true /\ is_dec d = false \/ d = C "}") /\
  (c = C "[" -> ~ In d (L ")},|=:")) /\ (c = C "(" -> ~ In d (L "]}")) /\ (c = C "," -> ~ In d (L "]}|=:")).
Proof.
  intros s sts c d H K B. pose proof (C81_table _ _ _ _ H K B) as T. split; [|split; [|split]].
  - intros ->. after T d. destruct S as [<-|[]]. tauto.
  - intros -> Q. revert T. clear - Q. repeat (destruct Q as [<-|Q]; [discriminate|]). destruct Q.
  - intros -> Q. revert T. clear - Q. repeat (destruct Q as [<-|Q]; [discriminate|]). destruct Q.
  - intros -> Q. revert T. clear - Q. repeat (destruct Q as [<-|Q]; [discriminate|]). destruct Q.
Qed.
Print Assumptions C81_open.

(** So a block comment can only be a statement of its own: a text without literals and [--] in
    which [{-] occurs has a comment in its tree. *)
Theorem C81_block_comments : forall s sts a b, file s = Ok [] sts ->
  ~ In quote s -> ~ In squote s -> ~ (exists a b, s = a ++ L "--" ++ b) -> s = a ++ L "{-" ++ b -> exists c, In (Comment c) sts.
Proof.
  intros s sts a b H H1 H2 H3 E. destruct (existsb is_comment sts) eqn:X.
  - apply existsb_exists in X as (st & Hst & X). destruct st; try discriminate X. eauto.
  - exfalso. assert (K : no_literal_or_comment s sts).
    { repeat split; try assumption. intros c Hc. assert (Y : existsb is_comment sts = true) by (apply existsb_exists; exists (Comment c); auto). congruence. }
    pose proof (C81_table s sts (C "{") (C "-") H K) as T. discriminate T. exists a, b. exact E.
Qed.
Print Assumptions C81_block_comments.

(** The table is exact: every pair in it occurs in some accepted text. *)
Definition signs7 : list char := L "*+.=:|\".
Definition heads : list str := [L "x"; L "1"; L "-1"; L ".y"; L "\y -> 1"; L "(1)"; L "[1]"; L "{y=x}"].
Definition samples : list str :=
  flat_map (fun a => map (fun b => L "f = (" ++ [a; b] ++ L ")") signs7) signs7
  ++ flat_map (fun e => [L "f = {x=" ++ e ++ L "}"; L "f = (" ++ e ++ L ", 1)"; L "f = (1," ++ e ++ L ")"; L "f = [" ++ e ++ L "]";
       L "f = " ++ e; L "f = \" ++ e ++ L " -> 1"; L "f = ( " ++ e ++ L " )" ]) heads
  ++ map (fun a => L "f = 1 " ++ [a] ++ L " 1") (L "*+")
  ++ [L "f = (,,)"; L "f = [ ]"; L "f = []"; L "f = { }"; L "f = {}"; L "f = ()"; L "f = {y|x=1 }"; L "f = {y1|x1=1 }"; L "f = {y | x = 1 , z=2 }";
      L "f x2y = x2"; L "f = x.y"; L "f = (,).x"; L "type A = B {x:(A),y:{z:A}}"; L "type A = B {x:a }"; L "type A = B {x: a}"; L "type A = B {x1:a}";
      L "import A exposing (A(..),(+))"; L "import A exposing (A1(..))"; L "f = (1 , 2)"; L "infixl 6 +" ++ [newline] ++ L "f = 1";
      L "f = (((1)),[[1]],{a=[1],b={c=(1)}})"; L "f = [(1),{x=1}]"; L "f = {a=[1]}"; L "f = [[1],[2] ] "; L "f = ({},{} )"; L "f = ([],1)";
      L "f = [{},{}]"; L "f = A.B"; L "f = 1.5"; L "f = 11"; L "f  = 1"; L "f : A" ++ [newline] ++ L "f = 1"; L "f = 1 <. 1"; L "f = 1 <\ 1"].
Fixpoint pairs_of (s : str) : list (char * char) := match s with c :: (d :: _) as t => (c, d) :: pairs_of t | _ => [] end.
Lemma pairs_beside s c d : In (c, d) (pairs_of s) <-> beside s c d.
Proof.
  split.
  - induction s as [|x s IH]; [intros []|]. destruct s as [|y s]; [intros []|]. intros [E|H].
    + injection E as <- <-. exists [], s. reflexivity.
    + destruct (IH H) as (a & b & ->). exists (x :: a), b. reflexivity.
  - intros (a & b & ->). induction a as [|x a IH]; [left; reflexivity|]. cbn [app pairs_of]. destruct (a ++ c :: d :: b) eqn:E; [destruct a; discriminate|right; exact IH].
Qed.
Definition fits (s : str) : bool :=
  match file s with
  | Ok [] sts => negb (mem_char quote s) && negb (mem_char squote s) && negb (existsb is_comment sts)
      && forallb (fun p => negb ((fst p =? C "-")%N && (snd p =? C "-")%N)) (pairs_of s)
  | _ => false
  end.
Lemma fits_spec s : fits s = true -> exists sts, file s = Ok [] sts /\ no_literal_or_comment s sts.
Proof.
  unfold fits. destruct (file s) as [[|x r] sts| |]; try discriminate. intros H. exists sts. split; [reflexivity|].
  repeat (apply andb_true_iff in H as [H ?]). repeat match goal with K : negb _ = true |- _ => apply negb_true_iff in K end.
  assert (G : forall x l, mem_char x l = false -> ~ In x l).
  { intros x l E I. unfold mem_char in E. assert (Y : existsb (N.eqb x) l = true) by (apply existsb_exists; exists x; split; [exact I|apply N.eqb_refl]). congruence. }
  split; [apply G; assumption|]. split; [apply G; assumption|]. split.
  - intros (a & b & E). assert (Q : In (C "-", C "-") (pairs_of s)) by (apply pairs_beside; exists a, b; exact E).
    rewrite forallb_forall in H0. specialize (H0 _ Q). discriminate H0.
  - intros c Hc. assert (Y : existsb is_comment sts = true) by (apply existsb_exists; exists (Comment c); auto). congruence.
Qed.
Definition same (a b : cls) : bool := only a b.
Lemma same_eq a b : same a b = true -> a = b.
Proof. destruct a, b; (reflexivity || discriminate). Qed.
Definition covered : list (str * (char * char)) := flat_map (fun s => map (fun p => (s, p)) (pairs_of s)) (filter fits samples).
Lemma covered_spec s c d : In (s, (c, d)) covered -> fits s = true /\ beside s c d.
Proof.
  intros H. apply in_flat_map in H as (s' & H1 & H2). apply in_map_iff in H2 as (p & E & H2). injection E as -> ->.
  apply filter_In in H1 as [_ H1]. split; [exact H1|apply pairs_beside, H2].
Qed.
Definition meets (l : list (str * (char * char))) (a b : cls) : bool :=
  existsb (fun p => same a (cls_of (fst (snd p))) && same b (cls_of (snd (snd p)))) l.
Lemma covered_all : (fun l => forallb (fun a => forallb (fun b => negb (touch a b) || meets l a b) all_cls) all_cls) covered = true.
Proof. vm_compute. reflexivity. Qed.
Theorem C81_exact : forall a b, touch a b = true ->
  exists s sts c d, file s = Ok [] sts /\ no_literal_or_comment s sts /\ beside s c d /\ cls_of c = a /\ cls_of d = b.
Proof.
  intros a b H. pose proof covered_all as G. cbv beta in G. rewrite forallb_forall in G. specialize (G a (all_cls_in a)).
  rewrite forallb_forall in G. specialize (G b (all_cls_in b)). rewrite H in G. apply existsb_exists in G as ((s & c & d) & G1 & G2).
  apply covered_spec in G1 as [G1 G3]. apply andb_true_iff in G2 as [G4 G5]. apply same_eq in G4, G5.
  apply fits_spec in G1 as (sts & G6 & G7). exists s, sts, c, d. auto.
Qed.
Print Assumptions C81_exact.

(** *** Instances *)
Example C81_rejected : Forall (fun s => forall sts, file s <> Ok [] sts)
  [L "f = a+b"; L "f = a +b"; L "f = g[1]"; L "f = g{x = 1}"; L "f = (a)(b)"; L "f = (a)b"; L "f = -x"; L "f = [,1]"; L "f = {- a -} b"].
Proof. repeat constructor; vm_compute; congruence. Qed.
Example C81_instance : exists sts, let s := L "f (x,y) = {a=[-1,2],b=g.h (x)}" in
  file s = Ok [] sts /\ no_literal_or_comment s sts /\ beside s (C "=") (C "[") /\ beside s (C "]") (C ",") /\ beside s (C "-") (C "1") /\ beside s (C "{") (C "a").
Proof.
  destruct (fits_spec (L "f (x,y) = {a=[-1,2],b=g.h (x)}")) as (sts & H1 & H2); [vm_compute; reflexivity|]. exists sts. cbv zeta.
  repeat (split; [first [assumption | apply pairs_beside; vm_compute; tauto]|]). apply pairs_beside. vm_compute. tauto.
Qed.
Example C81_instance_comment : exists sts, let s := L "f = 1" ++ [newline] ++ L "{- a -}" in
  file s = Ok [] sts /\ ~ In quote s /\ ~ In squote s /\ ~ (exists a b, s = a ++ L "--" ++ b) /\ exists a b, s = a ++ L "{-" ++ b.
Proof.
  eexists. cbv zeta. split; [vm_compute; reflexivity|]. split; [vm_compute; intuition discriminate|]. split; [vm_compute; intuition discriminate|].
  split; [|exists (L "f = 1" ++ [newline]), (L " a -}"); reflexivity].
  intros (a & b & E). assert (Q : beside (L "f = 1" ++ [newline] ++ L "{- a -}") (C "-") (C "-")) by (exists a, b; exact E).
  apply pairs_beside in Q. revert Q. vm_compute. intuition discriminate.
Qed.
