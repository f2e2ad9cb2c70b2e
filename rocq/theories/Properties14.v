(** * C53 *)
From Verif Require Import Base Nom Ast Good Spec Helpers Types Expr Stmt Follow Render CompleteE CompleteX SoundE Language Keywords Brackets.

(** ** C53: terms, exactly

    [term i s] is what can be the argument of a function at column [i].
    [RVar v s r]: [s] begins with the name, the qualified name, the operator in
    parentheses or the commas in parentheses [v], and [r] follows (Render.v).
    [items sep item s l r]: [s] consists of the items [l], each after a
    separator, and of [r] (Language.v); [no_item sep item r]: [r] does not begin
    with another.  [bracketed], [parenthesised] and [braced] are spelled out by
    [C53_list], [C53_parentheses] and [C53_record]. *)
Theorem C53_term : forall i s r e, term i s = Ok r e <->
  (exists v s1 fs, RVar v s s1 /\ items dot lower_at s1 fs r /\ no_item dot lower_at r /\
     e = match fs with [] => v | _ => Access v fs end) \/
  (exists n, s = L "." ++ n ++ r /\ lower_name n /\ ends_lower n r /\ e = AccessFunction n) \/
  ((exists n, e = Integer n /\ s = n ++ r /\ integer_text n /\ ends_integer r) \/
   (exists n, e = Float n /\ s = n ++ r /\ float_text n /\ ends is_dec r) \/
   (exists c, e = String_ c /\ multi_at s r c) \/
   (exists c, e = String_ c /\ no_multi s /\ s = quote :: c ++ quote :: r /\ string_content c) \/
   (exists w c, e = Character c /\ s = squote :: w ++ squote :: r /\ char_content w c)) \/
  (exists s', s = L "(" ++ s' /\ parenthesised i s' e r) \/
  (exists s', s = L "[" ++ s' /\ bracketed i s' e r) \/
  (exists s', s = L "{" ++ s' /\ braced i s' e r).
Proof. exact term_iff. Qed.
Print Assumptions C53_term.
Theorem C53_list : forall i s r e, term i (L "[" ++ s) = Ok r e <->
  (exists t, s = t ++ L "]" ++ r /\ olay i t /\ e = List_ []) \/
  (exists t1 s1 x s2 xs t2, s = t1 ++ s1 /\ olay i t1 /\ expression i s1 = Ok s2 x /\
     items (comma i) (fun s e r => expression i s = Ok r e) s2 xs (t2 ++ L "]" ++ r) /\ olay i t2 /\
     e = List_ (x :: xs)).
Proof. exact list_iff. Qed.
Print Assumptions C53_list.
(** an operator in parentheses (with field names), an expression in parentheses
    without any blank space inside, a unit or a tuple *)
Theorem C53_parentheses : forall i s r e, term i (L "(" ++ s) = Ok r e <->
  (exists o s1 fs, s = o ++ L ")" ++ s1 /\
     (operator_name o \/ (o <> [] /\ forallb (fun c => (c =? C ",")%N) o = true)) /\
     items dot lower_at s1 fs r /\ no_item dot lower_at r /\
     e = match fs with [] => Variable_ [o] | _ => Access (Variable_ [o]) fs end) \/
  expression i s = Ok (L ")" ++ r) e \/
  (s = L ")" ++ r /\ e = Tuple []) \/
  (exists x s1 xs, padded i s x s1 /\ items just_comma (padded i) s1 xs (L ")" ++ r) /\
     (xs <> [] \/ expression i s <> Ok (L ")" ++ r) x) /\ e = Tuple (x :: xs)).
Proof. exact paren_iff. Qed.
Print Assumptions C53_parentheses.
(** REFUTED EXPECTATION, that blank space inside parentheses does not matter:
    an expression with blanks around it is always a tuple with one component, without
    blanks never. *)
Theorem C53_blanks_make_tuples : forall i s e r b1 b2, expression i s = Ok (b2 ++ L ")" ++ r) e ->
  blanks b1 -> blanks b2 ->
  term i (L "(" ++ b1 ++ s) = Ok r (match b1 ++ b2 with [] => e | _ => Tuple [e] end).
Proof.
  intros i s e r b1 b2 He H1 H2. destruct (b1 ++ b2) as [|c b] eqn:Eb.
  - apply app_eq_nil in Eb as [-> ->]. apply paren_iff. right. left. exact He.
  - apply paren_iff. right. right. right. exists e, (L ")" ++ r), []. split.
    { exists b1, s, b2. repeat split; auto. }
    split; [constructor|]. split; [right|reflexivity]. intros E.
    destruct b1 as [|c1 b1].
    + change ([] ++ s) with s in E. rewrite He in E. injection E as E. cbn in Eb. subst b2. unfold blanks in H2.
      cbn in E. injection E as -> _. cbn in H2. discriminate H2.
    + apply (expr_ends is_blank) in E; [|exact blank_never]. unfold blanks in H1. cbn in H1, E.
      apply andb_true_iff in H1 as [H1 _]. congruence.
Qed.
Print Assumptions C53_blanks_make_tuples.
(** an update, an empty record, a record, or the short form with names only *)
Theorem C53_record : forall i s r e, term i (L "{" ++ s) = Ok r e <->
  (exists t1 n t2 b s1 fs s2 t3 j3, s = t1 ++ n ++ t2 ++ L "|" ++ b ++ s1 /\ olay i t1 /\ lower_name n /\
     olay i t2 /\ blanks b /\ ends is_blank s1 /\ s2 = t3 ++ L "}" ++ r /\ lay_ge i t3 j3 /\
     ((fs = [] /\ s1 = s2) \/
      exists f fs' s3, fs = f :: fs' /\ update_pair i s1 f s3 /\ items (comma i) (update_pair i) s3 fs' s2) /\
     e = RecordUpdate n fs) \/
  (exists t, s = t ++ L "}" ++ r /\ olay i t /\ e = Record_ []) \/
  (exists t1 s1 f s2 fs t2, s = t1 ++ s1 /\ olay i t1 /\ record_pair i s1 f s2 /\
     items (comma i) (record_pair i) s2 fs (t2 ++ L "}" ++ r) /\ olay i t2 /\ e = Record_ (f :: fs)) \/
  (exists f s1 fs, bare_name s f s1 /\ items just_comma bare_name s1 fs (L "}" ++ r) /\
     e = Record_ (f :: fs)).
Proof. exact brace_iff. Qed.
Print Assumptions C53_record.
(** REFUTED EXPECTATION, that an update may be closed like a record: before its closing
    brace blank space is required. *)
Theorem C53_update_needs_blank : forall i s r n fs, term i (L "{" ++ s) = Ok r (RecordUpdate n fs) ->
  exists u t j, s = u ++ t ++ L "}" ++ r /\ lay_ge i t j.
Proof.
  intros i s r n fs H. apply brace_iff in H as [H|[(t & _ & _ & H)|[(t1 & s1 & f & s2 & gs & t2 & _ & _ & _ & _ & _ & H)|(f & s1 & gs & _ & _ & H)]]];
    try discriminate H.
  destruct H as (t1 & m & t2 & b & s1 & gs & s2 & t3 & j3 & -> & _ & _ & _ & _ & _ & -> & H3 & H & _).
  assert (Hs : exists u, s1 = u ++ t3 ++ L "}" ++ r).
  { destruct H as [[_ ->]|(f & fs' & s3 & _ & Hf & Hi)]; [exists []; reflexivity|].
    assert (Hs3 : exists u, s3 = u ++ t3 ++ L "}" ++ r).
    { clear Hf. remember (t3 ++ L "}" ++ r) as w. induction Hi as [w|t s x s' l w Ht Hx Hl IH]; [exists []; reflexivity|].
      destruct (IH Heqw) as (u & ->). destruct Hx as (b1 & b2 & s4 & -> & _ & _ & _ & Hx).
      apply sound_expression in Hx as (v & -> & _). exists (t ++ fst x ++ b1 ++ L "=" ++ b2 ++ v ++ u).
      rewrite <- !app_assoc. reflexivity. }
    destruct Hs3 as (u & ->). destruct Hf as (b1 & b2 & s4 & -> & _ & _ & _ & Hx).
    apply sound_expression in Hx as (v & -> & _). exists (fst f ++ b1 ++ L "=" ++ b2 ++ v ++ u).
    rewrite <- !app_assoc. reflexivity. }
  destruct Hs as (u & ->). exists (t1 ++ m ++ t2 ++ L "|" ++ b ++ u), t3, j3.
  rewrite <- !app_assoc. auto.
Qed.
Print Assumptions C53_update_needs_blank.
Example C53_instance :
  let x := Variable_ [L "x"] in
  term 0 (L "x.a.b c") = Ok (L " c") (Access x [L "a"; L "b"]) /\
  term 0 (L ".a.b") = Ok (L ".b") (AccessFunction (L "a")) /\
  term 0 (L "(x)") = Ok [] x /\ term 0 (L "( x)") = Ok [] (Tuple [x]) /\
  expression 0 (L "x )") = Ok (L " " ++ L ")" ++ []) x /\
  term 0 (L "(,,).a") = Ok [] (Access (Variable_ [L ",,"]) [L "a"]) /\
  term 0 (L "[x, 1 ]") = Ok [] (List_ [x; Integer (L "1")]) /\
  term 0 (L "{ a = 1, b = x }") = Ok [] (Record_ [(L "a", Integer (L "1")); (L "b", x)]) /\
  term 0 (L "{x}") = Ok [] (Record_ [(L "x", x)]) /\
  term 0 (L "{ x | a = 1 }.") = Ok (L ".") (RecordUpdate (L "x") [(L "a", Integer (L "1"))]) /\
  term 0 (L "{ x | a = 1}") = Err.
Proof. cbv zeta. repeat split; vm_compute; reflexivity. Qed.
