(** * C54 and C55 *)
From Verif Require Import Base Nom Ast Good Spec Helpers Types Expr Stmt Follow Render CompleteE CompleteX SoundE CompleteT Language TypesExact Solution Unique.

(** ** C54: types, exactly

    [dotted_at s q r]: [s] begins with the qualified name [q] and [r] follows.
    [items sep item s l r]: [s] consists of the items [l], each after a
    separator, and of [r]; [no_item sep item r]: [r] does not begin with
    another (Language.v).  [lay_gt i t j], [olay i t]: blank space (Spec.v). *)

(** a constructor with its arguments, a variable, or a braced or parenthesised
    type ([C54_record], [C54_parentheses]) *)
Theorem C54_type : forall i s r t, type_ i s = Ok r t <->
  (exists q s1 ts, dotted_at s q s1 /\ items nothing (argument_rule reads_type i) s1 ts r /\
     no_item nothing (argument_rule reads_type i) r /\ t = TypeConstructor q ts) \/
  (exists n, s = n ++ r /\ type_var_name n /\ ends is_tyvar_char r /\ t = TypeVariable n) \/
  (exists s', s = L "{" ++ s' /\ type_ i s = Ok r t) \/
  (exists s', s = L "(" ++ s' /\ type_ i s = Ok r t).
Proof.
  intros i s r t. split.
  - intros H. destruct (proj1 (type_iff i s r t) H) as [Hc|[(n & (E & Hn & He) & ->)|[(s' & E & _)|(s' & E & _)]]].
    + left. exact Hc.
    + right. left. exists n. auto.
    + right. right. left. exists s'. auto.
    + right. right. right. exists s'. auto.
  - intros [H|[(n & E & Hn & He & ->)|[(s' & _ & H)|(s' & _ & H)]]]; auto; apply type_iff.
    + left. exact H.
    + right. left. exists n. split; [split; auto|reflexivity].
Qed.
Print Assumptions C54_type.
(** an argument begins further to the right than the column [i] of the constructor, or
    on the same line; it is a name or a simple type, never an application *)
Theorem C54_argument : forall i s t r, argument_rule reads_type i s t r <->
  exists b j s', s = b ++ s' /\ lay_gt i b j /\
    ((exists q, dotted_at s' q r /\ t = TypeConstructor q []) \/
     ((forall q ts, t <> TypeConstructor q ts) /\ type_ j s' = Ok r t)).
Proof.
  intros i s t r. split.
  - intros (b & j & s' & E & Hb & [H|H]); exists b, j, s'; split; auto; split; auto.
    right. split; [|apply type_iff; right; exact H].
    intros q ts ->. destruct H as [(n & _ & H)|[(s1 & _ & H)|(s1 & _ & H)]].
    + discriminate H.
    + destruct H as [(? & _ & _ & H)|[(? & ? & ? & ? & ? & ? & _ & _ & _ & _ & _ & H)|(? & ? & ? & ? & ? & ? & ? & ? & ? & ? & ? & ? & ? & _ & _ & _ & _ & _ & _ & _ & _ & H)]]; discriminate H.
    + destruct H as [(? & _ & _ & H)|[(? & ? & ? & ? & ? & ? & _ & _ & _ & _ & _ & H)|(? & ? & ? & _ & _ & (? & ? & ? & ? & _ & _ & _ & H) & _)]]; discriminate H.
  - intros (b & j & s' & E & Hb & [H|[Hn H]]); exists b, j, s'; split; auto; split; auto.
    right. apply type_iff in H as [(q & s1 & ts & _ & _ & _ & H)|H]; [exfalso; exact (Hn q ts H)|exact H].
Qed.
Print Assumptions C54_argument.
(** types joined by arrows, which associate to the right *)
Theorem C54_annotation : forall i s r t, type_annotation i s = Ok r t <->
  exists a s1 l, type_ i s = Ok s1 a /\ items arrow (fun s t r => type_ i s = Ok r t) s1 l r /\
    no_item arrow (fun s t r => type_ i s = Ok r t) r /\ t = arrow_right a l.
Proof. exact annotation_rule_iff. Qed.
Print Assumptions C54_annotation.
Lemma type_open i c s r t : is_upper c = false -> type_ i (c :: s) = Ok r t <-> simple i (c :: s) = Ok r t.
Proof.
  intros Hc. rewrite type_iff, simple_iff. unfold type_rule. split; [|auto].
  intros [H|H]; [|exact H]. exfalso. destruct H as (q & s1 & ts & (E & [Hq Hu] & _) & _).
  destruct q as [|n q]; [congruence|]. inversion Hu as [|? ? (c' & n' & -> & Hc' & _) _].
  subst. destruct q; injection E as E _; congruence.
Qed.
(** an empty record, a record, or an extension of a type variable by at least one field *)
Theorem C54_record : forall i s r t, type_ i (L "{" ++ s) = Ok r t <->
  let field s f r := exists t1 t2 s1, s = fst f ++ t1 ++ L ":" ++ t2 ++ s1 /\ lower_name (fst f) /\
    olay i t1 /\ olay i t2 /\ type_annotation i s1 = Ok r (snd f) in
  (exists t1, s = t1 ++ L "}" ++ r /\ olay i t1 /\ t = TypeRecord []) \/
  (exists t1 s1 f s2 fs t2, s = t1 ++ s1 /\ olay i t1 /\ field s1 f s2 /\
     items (comma i) field s2 fs (t2 ++ L "}" ++ r) /\ olay i t2 /\ t = TypeRecord (f :: fs)) \/
  (exists t1 j1 n t2 j2 t3 j3 s1 f s2 fs t4 j4,
     s = t1 ++ n ++ t2 ++ L "|" ++ t3 ++ s1 /\ lay_ge i t1 j1 /\ type_var_name n /\
     lay_ge i t2 j2 /\ lay_ge i t3 j3 /\ field s1 f s2 /\
     items (comma i) field s2 fs (t4 ++ L "}" ++ r) /\ lay_ge i t4 j4 /\
     t = TypeRecordConstructor (TypeVariable n) (f :: fs)).
Proof.
  intros i s r t. cbv zeta.
  assert (Hf : forall s f r, type_field_rule reads_type i s f r <->
    exists t1 t2 s1, s = fst f ++ t1 ++ L ":" ++ t2 ++ s1 /\ lower_name (fst f) /\
      olay i t1 /\ olay i t2 /\ type_annotation i s1 = Ok r (snd f)).
  { intros s0 f r0. unfold type_field_rule. split; intros (t1 & t2 & s1 & E & Hn & H1 & H2 & H);
      exists t1, t2, s1; repeat (split; [assumption|]); apply annotation_rule_iff, H. }
  assert (Hi := items_eqv (comma i) _ _ Hf).
  change (L "{" ++ s) with (C "{" :: s). rewrite type_open by reflexivity.
  change (C "{" :: s) with (L "{" ++ s). rewrite type_brace_iff.
  split; (intros [H|[(t1 & s1 & f & s2 & fs & t2 & E & H1 & H2 & H3 & H4 & ->)|
      (t1 & j1 & n & t2 & j2 & t3 & j3 & s1 & f & s2 & fs & t4 & j4 & E & H1 & H2 & H3 & H4 & H5 & H6 & H7 & ->)]];
    [left; exact H|right; left; exists t1, s1, f, s2, fs, t2|
     right; right; exists t1, j1, n, t2, j2, t3, j3, s1, f, s2, fs, t4, j4]).
  - apply Hf in H2. apply Hi in H3. auto 8.
  - apply Hf in H5. apply Hi in H6. auto 10.
  - apply Hf in H2. apply Hi in H3. auto 8.
  - apply Hf in H5. apply Hi in H6. auto 10.
Qed.
Print Assumptions C54_record.
(** REFUTED EXPECTATION, that a type may be put in parentheses: unless it is a function
    type, it becomes a tuple with one component. *)
Theorem C54_parentheses : forall i s r t, type_ i (L "(" ++ s) = Ok r t <->
  (exists t1, s = t1 ++ L ")" ++ r /\ olay i t1 /\ t = TypeTuple []) \/
  (exists t1 s1 x s2 xs t2, s = t1 ++ s1 /\ olay i t1 /\ type_ i s1 = Ok s2 x /\
     items (comma i) (fun s t r => type_ i s = Ok r t) s2 xs (t2 ++ L ")" ++ r) /\ olay i t2 /\
     t = TypeTuple (x :: xs)) \/
  (exists t1 s1 a s2 b l t2, s = t1 ++ s1 /\ olay i t1 /\ type_ i s1 = Ok s2 a /\
     items arrow (fun s t r => type_ i s = Ok r t) s2 (b :: l) (t2 ++ L ")" ++ r) /\
     no_item arrow (fun s t r => type_ i s = Ok r t) (t2 ++ L ")" ++ r) /\ olay i t2 /\
     t = TypeApplication a (arrow_right b l)).
Proof.
  intros i s r t. change (L "(" ++ s) with (C "(" :: s). rewrite type_open by reflexivity.
  change (C "(" :: s) with (L "(" ++ s). rewrite type_paren_iff. unfold type_paren_rule.
  split; (intros [H|[H|H]]; [left; exact H|right; left; exact H|right; right]).
  - destruct H as (t1 & s1 & t2 & E & H1 & (a & s2 & b & l & Ha & Hl & Hn & ->) & H2).
    exists t1, s1, a, s2, b, l, t2. auto 10.
  - destruct H as (t1 & s1 & a & s2 & b & l & t2 & E & H1 & Ha & Hl & Hn & H2 & ->).
    exists t1, s1, t2. repeat (split; [assumption|]). split; [|exact H2]. exists a, s2, b, l. auto 10.
Qed.
Print Assumptions C54_parentheses.
Example C54_instance :
  let c n := TypeConstructor [n] [] in let v n := TypeVariable n in
  type_ 0 (L "Dict.Dict comparable Int -> a") =
    Ok (L " -> a") (TypeConstructor [L "Dict"; L "Dict"] [v (L "comparable"); c (L "Int")]) /\
  type_annotation 0 (L "a -> b -> Int") = Ok [] (TypeApplication (v (L "a")) (TypeApplication (v (L "b")) (c (L "Int")))) /\
  type_ 0 (L "(Int)") = Ok [] (TypeTuple [c (L "Int")]) /\
  type_ 0 (L "(a -> b)") = Ok [] (TypeApplication (v (L "a")) (v (L "b"))) /\
  type_ 0 (L "((a -> b))") = Ok [] (TypeTuple [TypeApplication (v (L "a")) (v (L "b"))]) /\
  type_ 0 (L "{x : Int, y : a -> b}") =
    Ok [] (TypeRecord [(L "x", c (L "Int")); (L "y", TypeApplication (v (L "a")) (v (L "b")))]) /\
  type_ 0 (L "{ a | x : Int }") = Ok [] (TypeRecordConstructor (v (L "a")) [(L "x", c (L "Int"))]) /\
  type_ 0 (L "{a | x : Int }") = Err /\
  type_ 0 (L "Maybe (List Int) x") = Ok [] (TypeConstructor [L "Maybe"] [TypeTuple [TypeConstructor [L "List"] [c (L "Int")]]; v (L "x")]).
Proof. cbv zeta. repeat split; vm_compute; reflexivity. Qed.

(** ** C55: the language

    Language.v is a description of the language, type by type, expression by
    expression, statement by statement, that does not mention the parser.  Its
    rules have exactly one solution: what the parser reads. *)
Theorem C55_parser_satisfies_the_rules :
  language (fun i s t r => type_ i s = Ok r t) (fun i s e r => expression i s = Ok r e)
    (fun s st r => statement s = Ok r st) (fun s sts => file s = Ok [] sts).
Proof. exact parser_language. Qed.
Print Assumptions C55_parser_satisfies_the_rules.
Theorem C55_rules_determine_the_parser : forall T E S F, language T E S F ->
  (forall i s t r, T i s t r <-> type_ i s = Ok r t) /\
  (forall i s e r, E i s e r <-> expression i s = Ok r e) /\
  (forall s st r, S s st r <-> statement s = Ok r st) /\
  (forall s sts, F s sts <-> file s = Ok [] sts).
Proof. intros T E S F H. exact (language_unique _ _ _ _ _ _ _ _ H parser_language). Qed.
Print Assumptions C55_rules_determine_the_parser.
(** hence the rules give a text at most one reading, although they were not written as
    an algorithm *)
Theorem C55_unambiguous : forall T E S F, language T E S F ->
  (forall i s t1 t2 r1 r2, T i s t1 r1 -> T i s t2 r2 -> t1 = t2 /\ r1 = r2) /\
  (forall i s e1 e2 r1 r2, E i s e1 r1 -> E i s e2 r2 -> e1 = e2 /\ r1 = r2) /\
  (forall s st1 st2 r1 r2, S s st1 r1 -> S s st2 r2 -> st1 = st2 /\ r1 = r2) /\
  (forall s l1 l2, F s l1 -> F s l2 -> l1 = l2).
Proof.
  intros T E S F H. destruct (C55_rules_determine_the_parser T E S F H) as (HT & HE & HS & HF).
  repeat split; intros; rewrite ?HT, ?HE, ?HS, ?HF in *; congruence.
Qed.
Print Assumptions C55_unambiguous.
Example C55_instance : forall T E S F, language T E S F ->
  F (L "module A exposing (..)

f : Int -> Int
f x =
  x + 1
") [ModuleDeclaration [L "A"] AllExport;
    Function_ (mkFunc (Some (mkSig (L "f") (TypeApplication (TypeConstructor [L "Int"] []) (TypeConstructor [L "Int"] []))))
      (mkDef (L "f") [Variable_ [L "x"]] (BinOp (Variable_ [L "+"]) (Variable_ [L "x"]) (Integer (L "1")))))].
Proof. intros T E S F H. apply (C55_rules_determine_the_parser _ _ _ _ H). vm_compute. reflexivity. Qed.
