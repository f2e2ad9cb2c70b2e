(** * The properties, continued: completeness and the round trip

    The vocabulary is in Render.v (what text renders a syntax tree), Wf.v
    (well-formed syntax trees) and Printer.v (one rendering of each). *)
From Verif Require Import Base Nom Regex Ast Good Spec Helpers Types Expr Stmt Lexers Total
  Layout Seqs Grammar Follow Sound SoundE SoundS LexProps Heads Rules Render CompleteT CompleteE
  CompleteX CompleteS Wf Printer Round Language Chains Properties.

(** ** C06: every well-formed syntax tree is the answer for its printed text *)
Theorem C06_round_trip : forall sts, wf_file sts -> file (print_file sts) = Ok [] sts.
Proof. exact round_trip. Qed.
Print Assumptions C06_round_trip.
(** hence the syntax trees that [file] produces are exactly the well-formed ones *)
Theorem C06_range : forall sts, (exists s r, file s = Ok r sts) <-> wf_file sts.
Proof.
  intros sts. split.
  - intros (s & r & H). exact (wf_GFile sts s (proj2 (file_sound s r sts H))).
  - intros H. exists (print_file sts), []. apply round_trip, H.
Qed.
Print Assumptions C06_range.
Example C06_instance : wf_file sample_ast /\ file (print_file sample_ast) = Ok [] sample_ast.
Proof.
  assert (H : wf_file sample_ast).
  { apply C06_range. exists sample, []. apply sample_accepted. }
  split; [exact H|apply C06_round_trip, H].
Qed.

(** ** C07: printing an accepted file and parsing it again loses nothing *)
Theorem C07_reprint : forall s r sts, file s = Ok r sts -> file (print_file sts) = Ok [] sts.
Proof. intros s r sts H. apply C06_round_trip, C06_range. eauto. Qed.
Print Assumptions C07_reprint.
(** printing is a normal form: two accepted texts have the same syntax tree
    exactly when they have the same printed text *)
Theorem C07_normal_form : forall s1 s2 a1 a2, file s1 = Ok [] a1 -> file s2 = Ok [] a2 ->
  (print_file a1 = print_file a2 <-> a1 = a2).
Proof.
  intros s1 s2 a1 a2 H1 H2. split; [|congruence]. intros E.
  apply C07_reprint in H1, H2. congruence.
Qed.
Print Assumptions C07_normal_form.
Example C07_instance : print_file sample_ast = L "module Main exposing (main, Msg(..))
import Html exposing (text)
type Msg a = Go a | Stop
-- entry
main : (Int -> Html)
main x = (let y = [1, 2.5]
f a = (a + x) in (case y of [] -> (text """"""none"""""")
_ -> (f x)))".
Proof. vm_compute. reflexivity. Qed.

(** ** C33: every rendering of a syntax tree is accepted *)
(** [RFile sts s] (Render.v) does not mention the parser. *)
Theorem C33_completeness : forall sts s, RFile sts s -> file s = Ok [] sts.
Proof. exact complete_file. Qed.
Print Assumptions C33_completeness.
Theorem C33_expressions : forall i e s r, RE i e s r -> expression i s = Ok r e.
Proof. exact complete_expression. Qed.
Print Assumptions C33_expressions.
Theorem C33_types : forall i t s r, RAnn i t s r -> type_annotation i s = Ok r t.
Proof. exact complete_ann. Qed.
Print Assumptions C33_types.
Theorem C33_statements : forall st s r, RStmt st s r -> statement s = Ok r st.
Proof. exact complete_statement. Qed.
Print Assumptions C33_statements.
(** hence no text renders two syntax trees *)
Theorem C33_unambiguous : forall sts sts' s, RFile sts s -> RFile sts' s -> sts = sts'.
Proof. intros sts sts' s H H'. apply C33_completeness in H, H'. congruence. Qed.
Print Assumptions C33_unambiguous.
Example C33_instance : exists s, RFile sample_ast s /\ length s = 211.
Proof.
  exists (print_file sample_ast). split; [|vm_compute; reflexivity].
  apply print_file_renders, C06_instance.
Qed.

(** ** C16: the off-side rule for function arguments *)
(** The words [arguments], [operation], [no_operation] are defined in Chains.v,
    [width], [trivia], [closed], [lay_gt] in Spec.v.  A term [f] with arguments
    [xs] has been read at indentation [i], and blank space [t] holding a line
    feed separates them from a further term [x]. *)
Theorem C16_not_indented : forall i s s1 f xs t s' s2 x,
  term i s = Ok s1 f -> arguments i s1 xs (t ++ s') ->
  trivia t -> closed t -> has_newline t = true -> term i s' = Ok s2 x ->
  (width i t <= i)%N ->
  expression i s = Ok (t ++ s') (fold_left Application xs f).
Proof. intros; eapply offside_out; eassumption. Qed.
Print Assumptions C16_not_indented.
Theorem C16_indented : forall i s s1 f xs t s' s2 x,
  term i s = Ok s1 f -> arguments i s1 xs (t ++ s') ->
  trivia t -> closed t -> has_newline t = true -> term i s' = Ok s2 x ->
  (i < width i t)%N ->
  exists r e, expression i s = Ok r e /\
    exists ys r1, arguments i s2 ys r1 /\
      ((r = r1 /\ e = fold_left Application (xs ++ x :: ys) f) \/
       exists o e2, operation i r1 o e2 r /\
         e = BinOp (Variable_ [o]) (fold_left Application (xs ++ x :: ys) f) e2).
Proof.
  intros i s s1 f xs t s' s2 x Hf Hxs Ht Hc Hn Hx Hw.
  destruct (term_expression i s s1 f Hf) as (r & e & He). exists r, e. split; [exact He|].
  apply (offside_in i s s1 f xs t (width i t) s' s2 x Hf Hxs); [|exact Hx|exact He].
  repeat split; auto; [|intros _; lia]. intros ->. discriminate Hn.
Qed.
Print Assumptions C16_indented.
(** [f a] on one line, [b] on the next line with 2 or 4 spaces, at indentation 2 *)
Example C16_instance : let t := newline :: L "  " in let t' := newline :: L "    " in
  (exists f s1, term 2 (L "f a" ++ t ++ L "b") = Ok s1 f /\
    arguments 2 s1 [Variable_ [L "a"]] (t ++ L "b")) /\
  width 2 t = 2%N /\ width 2 t' = 4%N /\
  expression 2 (L "f a" ++ t ++ L "b") =
    Ok (t ++ L "b") (Application (Variable_ [L "f"]) (Variable_ [L "a"])) /\
  expression 2 (L "f a" ++ t' ++ L "b") =
    Ok [] (Application (Application (Variable_ [L "f"]) (Variable_ [L "a"])) (Variable_ [L "b"])).
Proof.
  cbv zeta. split; [|vm_compute; auto]. exists (Variable_ [L "f"]), (L " a" ++ newline :: L "  b").
  split; [vm_compute; reflexivity|].
  apply (arguments_cons 2 (L " ") 2 (L "a" ++ newline :: L "  b") (Variable_ [L "a"])
           (newline :: L "  b")); [|vm_compute; reflexivity|constructor].
  repeat split; [repeat constructor|discriminate|discriminate].
Qed.

(** ** C17: function application associates to the left, for any number of arguments *)
Theorem C17_left_nested : forall i s s1 f xs r,
  term i s = Ok s1 f -> arguments i s1 xs r -> no_more_arguments i r -> no_operation i r ->
  expression i s = Ok r (fold_left Application xs f).
Proof.
  intros i s s1 f xs r Hf Hxs Hn Ho. apply (expression_iff _ _ _ _ _ _ Hf). exists xs, r. auto 7.
Qed.
Print Assumptions C17_left_nested.
(** and nothing else is an answer: what an expression starting with a term is *)
Theorem C17_exact : forall i s s1 f r e, term i s = Ok s1 f ->
  (expression i s = Ok r e <->
   exists xs r1, arguments i s1 xs r1 /\ no_more_arguments i r1 /\
     ((r = r1 /\ e = fold_left Application xs f /\ no_operation i r1) \/
      (exists o e2, operation i r1 o e2 r /\
         e = BinOp (Variable_ [o]) (fold_left Application xs f) e2))).
Proof. exact expression_iff. Qed.
Print Assumptions C17_exact.
Ltac layout_now := repeat split; [repeat constructor|discriminate|discriminate].
Example C17_instance : let s := L " (g x) 1 [] 'c'" in
  let xs := [Application (Variable_ [L "g"]) (Variable_ [L "x"]); Integer (L "1"); List_ [];
             Character (C "c")] in
  term 0 (L "f" ++ s) = Ok s (Variable_ [L "f"]) /\ arguments 0 s xs [] /\
  no_more_arguments 0 [] /\ no_operation 0 [].
Proof.
  cbv zeta. split; [vm_compute; reflexivity|]. split.
  - apply (arguments_cons 0 (L " ") 0 (L "(g x) 1 [] 'c'") _ (L " 1 [] 'c'"));
      [layout_now|vm_compute; reflexivity|].
    apply (arguments_cons 0 (L " ") 0 (L "1 [] 'c'") _ (L " [] 'c'"));
      [layout_now|vm_compute; reflexivity|].
    apply (arguments_cons 0 (L " ") 0 (L "[] 'c'") _ (L " 'c'"));
      [layout_now|vm_compute; reflexivity|].
    apply (arguments_cons 0 (L " ") 0 (L "'c'") _ []); [layout_now|vm_compute; reflexivity|].
    constructor.
  - split; [apply stop_arguments; exact I|]. apply no_operation_of_Err. reflexivity.
Qed.

(** ** C18: operators nest to the right, whatever they are *)
(** [chain i s a [(o1,b1); ...; (on,bn)] r] (Chains.v): the text [s] reads
    [a o1 b1 ... on bn]; [nest_right] is [a o1 (b1 o2 (b2 ...))]. *)
Theorem C18_right_nested : forall i s a l r,
  chain i s a l r -> expression i s = Ok r (nest_right a l).
Proof. exact chain_parse. Qed.
Print Assumptions C18_right_nested.
Theorem C18_exact : forall i s r e,
  expression i s = Ok r e <-> exists a l, chain i s a l r /\ e = nest_right a l.
Proof.
  intros i s r e. split.
  - intros H. eapply chain_exists; [apply Nat.lt_succ_diag_r|exact H].
  - intros (a & l & H & ->). apply chain_parse, H.
Qed.
Print Assumptions C18_exact.
Ltac op_now := right; split; [|intros (? & ?); discriminate]; split; [discriminate|];
  split; [reflexivity|]; let H := fresh in intros H; repeat (destruct H as [H|H]; [discriminate H|]); exact H.
Example C18_instance :
  chain 0 (L "a * b + f c :: \x -> x") (Variable_ [L "a"])
    [(L "*", Variable_ [L "b"]); (L "+", Application (Variable_ [L "f"]) (Variable_ [L "c"]));
     (L "::", Lambda [Variable_ [L "x"]] (Variable_ [L "x"]))] [].
Proof.
  apply (chain_more 0 _ _ (L " ") 0 (L "*") (L " ") (L "b + f c :: \x -> x"));
    [|apply ge_space|op_now
     |split; [discriminate|reflexivity]|].
  { apply application_iff. vm_compute. reflexivity. }
  apply (chain_more 0 _ _ (L " ") 0 (L "+") (L " ") (L "f c :: \x -> x"));
    [|apply ge_space|op_now
     |split; [discriminate|reflexivity]|].
  { apply application_iff. vm_compute. reflexivity. }
  apply (chain_more 0 _ _ (L " ") 0 (L "::") (L " ") (L "\x -> x"));
    [|apply ge_space|op_now
     |split; [discriminate|reflexivity]|].
  { apply application_iff. vm_compute. reflexivity. }
  constructor. right. vm_compute. auto.
Qed.

(** ** C19: function types associate to the right, for any arity *)
(** [arrows i s [t1; ...; tn] r] (Chains.v): the text [s] reads [-> t1 ... -> tn]. *)
Theorem C19_right_nested : forall i s r t,
  type_annotation i s = Ok r t <->
  exists a s1 l, type_ i s = Ok s1 a /\ arrows i s1 l r /\ no_more_arrows i r /\ t = arrow_right a l.
Proof. exact annotation_iff. Qed.
Print Assumptions C19_right_nested.
Example C19_instance : let s := L " -> List a" ++ newline :: L " -> (b, c)" in
  type_annotation 0 (L "Int" ++ s) = Ok []
    (TypeApplication (TypeConstructor [L "Int"] [])
      (TypeApplication (TypeConstructor [L "List"] [TypeVariable (L "a")])
        (TypeTuple [TypeVariable (L "b"); TypeVariable (L "c")]))) /\
  arrows 0 s [TypeConstructor [L "List"] [TypeVariable (L "a")];
              TypeTuple [TypeVariable (L "b"); TypeVariable (L "c")]] [].
Proof.
  cbv zeta. split; [vm_compute; reflexivity|].
  apply (arrows_cons 0 (L " ") (L " ") (L "List a" ++ newline :: L " -> (b, c)") _
           (newline :: L " -> (b, c)")); [split; [discriminate|reflexivity]..|vm_compute; reflexivity|].
  apply (arrows_cons 0 (newline :: L " ") (L " ") (L "(b, c)") _ []);
    [split; [discriminate|reflexivity]..|vm_compute; reflexivity|]. constructor.
Qed.

(** ** C20: parentheses *)
Theorem C20_parentheses : forall i e s r,
  expression i s = Ok (L ")" ++ r) e -> term i (L "(" ++ s) = Ok r e.
Proof. exact t_parens. Qed.
Print Assumptions C20_parentheses.
Theorem C20_padded : forall i b1 e s b2 r, blanks b1 -> blanks b2 -> b1 ++ b2 <> [] ->
  expression i s = Ok (b2 ++ L ")" ++ r) e -> term i (L "(" ++ b1 ++ s) = Ok r (Tuple [e]).
Proof. intros; eapply t_tuple_one; eassumption. Qed.
Print Assumptions C20_padded.
Theorem C20_type : forall i t1 s t2 r t, olay i t1 -> olay i t2 ->
  type_ i s = Ok (t2 ++ L ")" ++ r) t -> type_ i (L "(" ++ t1 ++ s) = Ok r (TypeTuple [t]).
Proof. exact type_parens_one. Qed.
Print Assumptions C20_type.
Theorem C20_function_type : forall i t1 s s1 a b l t2 r, olay i t1 -> olay i t2 ->
  type_ i s = Ok s1 a -> arrows i s1 (b :: l) (t2 ++ L ")" ++ r) ->
  type_ i (L "(" ++ t1 ++ s) = Ok r (TypeApplication a (arrow_right b l)).
Proof.
  intros i t1 s s1 a b l t2 r H1 H2 Ha Hl.
  exact (type_parens_arrow i t1 s s1 a (b :: l) t2 r H1 H2 Ha Hl ltac:(discriminate)).
Qed.
Print Assumptions C20_function_type.
Example C20_instance : let e := BinOp (Variable_ [L "+"]) (Variable_ [L "a"]) (Integer (L "1")) in
  expression 0 (L "a + 1)") = Ok (L ")") e /\ term 0 (L "(a + 1)") = Ok [] e /\
  term 0 (L "((a + 1))") = Ok [] e /\
  expression 0 (L "a + 1 )") = Ok (L " )") e /\ term 0 (L "( a + 1 )") = Ok [] (Tuple [e]) /\
  type_ 0 (L "( Int )") = Ok [] (TypeTuple [TypeConstructor [L "Int"] []]) /\
  type_ 0 (L "( Int -> Int )") =
    Ok [] (TypeApplication (TypeConstructor [L "Int"] []) (TypeConstructor [L "Int"] [])).
Proof. cbv zeta. repeat split; vm_compute; reflexivity. Qed.
