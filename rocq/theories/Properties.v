(** * The properties, one block each

    Every theorem is closed by a lemma of the development; [Print Assumptions]
    under each is printed by the build.  The vocabulary of the statements is in
    Spec.v (lexical classes, layout), Grammar.v (the declarative grammar), Wf.v
    (well-formed syntax trees), Occurs.v (sub-expressions) and Follow.v. *)
From Verif Require Import Base Nom Regex Ast Good Spec Helpers Types Expr Stmt Lexers Total
  Layout Seqs Grammar Follow Sound SoundE SoundS LexProps Heads Front Wf Occurs.

(** A file used in the examples below. *)
Definition sample : str := L "
module Main exposing (main, Msg(..))

import Html exposing (text)

type Msg a = Go a | Stop

-- entry
main : Int -> Html
main x =
  let
    y = [1, 2.5]
    f a = a + x
  in
    case y of
      [] -> text ""none""
      _ -> f x
".
Definition sample_ast : list statement_ast :=
  match file sample with Ok _ l => l | _ => [] end.
Example sample_accepted : file sample = Ok [] sample_ast /\ length sample_ast = 5.
Proof. vm_compute. auto. Qed.

(** ** C01: parsing always returns *)
(** The answer is never a panic, an [Incomplete], a [Failure] or an endless loop
    (all of which are values [Abort _] of the model). *)
Theorem C01_parsing_always_returns : forall s,
  (exists sts, file s = Ok [] sts) \/ file s = Err.
Proof. exact file_total. Qed.
Print Assumptions C01_parsing_always_returns.
Example C01_both_cases_occur :
  file (L "a = 1") = Ok [] [Function_ (mkFunc None (mkDef (L "a") [] (Integer (L "1"))))] /\
  file (L "a = ") = Err.
Proof. vm_compute. auto. Qed.

(** ** C02: success means the whole file was read, and it is never empty *)
Theorem C02_whole_file : forall s r sts, file s = Ok r sts -> r = [] /\ sts <> [].
Proof. exact file_nonempty. Qed.
Print Assumptions C02_whole_file.
Theorem C02_blank_file_rejected : forall w, blanks w -> file w = Err.
Proof. exact file_blank_only. Qed.
Print Assumptions C02_blank_file_rejected.
Example C02_instance : exists sts, file sample = Ok [] sts.
Proof. exists sample_ast. apply sample_accepted. Qed.
Example C02_blank_instance : blanks [32; 9; 10; 13; 10]%N.
Proof. reflexivity. Qed.

(** ** C03: leading blank space never matters *)
Theorem C03_leading_blanks : forall w s, blanks w -> file (w ++ s) = file s.
Proof. exact file_blanks. Qed.
Print Assumptions C03_leading_blanks.
Example C03_instance : blanks [10; 13; 9; 32]%N /\ exists sts, file ([10; 13; 9; 32]%N ++ sample) = Ok [] sts.
Proof. split; [reflexivity|]. exists sample_ast. vm_compute. reflexivity. Qed.

(** ** C04: the AST reflects the source text *)
Theorem C04_grammar_soundness : forall s r sts, file s = Ok r sts -> r = [] /\ GFile sts s.
Proof. exact file_sound. Qed.
Print Assumptions C04_grammar_soundness.
Theorem C04_expressions : forall i s r e, expression i s = Ok r e ->
  exists w, s = w ++ r /\ GE i e w.
Proof. exact sound_expression. Qed.
Print Assumptions C04_expressions.
Theorem C04_types : forall i s r t, type_annotation i s = Ok r t ->
  exists w, s = w ++ r /\ GAnn i t w.
Proof. exact sound_type_annotation. Qed.
Print Assumptions C04_types.
Example C04_instance : GFile sample_ast sample.
Proof. exact (proj2 (file_sound _ _ _ (proj1 sample_accepted))). Qed.

(** ** C05: every produced AST is well formed *)
Theorem C05_well_formed : forall s r sts, file s = Ok r sts -> wf_file sts.
Proof. exact (fun s r sts H => wf_GFile sts s (proj2 (file_sound s r sts H))). Qed.
Print Assumptions C05_well_formed.
(** at any depth, the operator of a BinOp is one infix operator or [as] *)
Theorem C05_binop_operator : forall s r sts o a b, file s = Ok r sts ->
  occurs (BinOp o a b) sts -> exists n, o = Variable_ [n] /\ infix_operator n.
Proof.
  exact (fun s r sts o a b H => occurs_binop o a b sts (wf_GFile sts s (proj2 (file_sound s r sts H)))).
Qed.
Print Assumptions C05_binop_operator.
Example C05_instance : wf_file sample_ast.
Proof. exact (C05_well_formed _ _ _ (proj1 sample_accepted)). Qed.

(** ** C08: lower-case names *)
Theorem C08_lower_names : exactly lo_name (fun s r n =>
  s = n ++ r /\ lower_name n /\ (n = L "_" \/ ends is_name_char r)).
Proof. exact (exactly_intro _ _ (fun n => ok_0 _ _ _ (ok_lo_name n)) lo_name_iff). Qed.
Print Assumptions C08_lower_names.
Example C08_instance : lo_name (L "input=1") = Ok (L "=1") (L "input") /\ lo_name (L "in=1") = Err.
Proof. vm_compute. auto. Qed.

(** ** C09: upper-case and module names *)
Theorem C09_upper_names : exactly up_name (fun s r n =>
  s = n ++ r /\ upper_name n /\ ends is_name_char r).
Proof. exact (exactly_intro _ _ (fun n => ok_0 _ _ _ (ok_up_name n)) up_name_iff). Qed.
Print Assumptions C09_upper_names.
Theorem C09_module_names : exactly module_name (fun s r q =>
  s = dotted q ++ r /\ qualified q /\ ends_dotted r).
Proof. exact (exactly_intro _ _ (fun n => ok_0 _ _ _ (ok_module_name n)) module_name_iff). Qed.
Print Assumptions C09_module_names.
Example C09_instance : module_name (L "A.Bc.d") = Ok (L ".d") [L "A"; L "Bc"].
Proof. reflexivity. Qed.

(** ** C10: operators *)
Theorem C10_operators : exactly operator (fun s r o =>
  s = o ++ r /\ operator_name o /\ ends is_op_char r).
Proof. exact (exactly_intro _ _ (fun n => ok_0 _ _ _ (ok_operator n)) operator_iff). Qed.
Print Assumptions C10_operators.
Theorem C10_symbols : length op_chars = 20 /\ NoDup op_chars /\ is_op_char backslash = true.
Proof. split; [reflexivity|]. split; [|reflexivity]. repeat constructor; simpl; intuition discriminate. Qed.
Print Assumptions C10_symbols.
Example C10_instance : operator (L "|> x") = Ok (L " x") (L "|>") /\ operator (L "| x") = Err.
Proof. vm_compute. auto. Qed.

(** ** C11: numbers are kept verbatim *)
Theorem C11_integers : exactly integer (fun s r e =>
  exists n, e = Integer n /\ s = n ++ r /\ integer_text n /\ ends is_dec r).
Proof. exact (exactly_intro _ _ (fun n => ok_0 _ _ _ (ok_integer n)) integer_iff). Qed.
Print Assumptions C11_integers.
Theorem C11_floats : exactly float (fun s r e =>
  exists n, e = Float n /\ s = n ++ r /\ float_text n /\ ends is_dec r).
Proof. exact (exactly_intro _ _ (fun n => ok_0 _ _ _ (ok_float n)) float_iff). Qed.
Print Assumptions C11_floats.
Example C11_instance : integer (L "-99999999999999999999999 x") =
    Ok (L " x") (Integer (L "-99999999999999999999999")) /\
  float (L "+1.50.2") = Ok (L ".2") (Float (L "+1.50")).
Proof. vm_compute. auto. Qed.

(** ** C12: string literals *)
Theorem C12_strings : exactly string_ (fun s r e =>
  exists c, e = String_ c /\
    (multi_at s r c \/
     no_multi s /\ s = quote :: c ++ quote :: r /\ string_content c)).
Proof. exact (exactly_intro _ _ (fun n => ok_0 _ _ _ (ok_string n)) string_iff). Qed.
Print Assumptions C12_strings.
Example C12_instance :
  string_ (L """a\""b\\"" c") = Ok (L " c") (String_ (L "a\""b\\")) /\
  string_ (L """""""two ""lines"" """"""") = Ok (L """two ""lines"" """"""") (String_ []).
Proof. vm_compute. auto. Qed.

(** ** C13: character literals *)
Theorem C13_characters : exactly character (fun s r e =>
  exists w c, e = Character c /\ s = squote :: w ++ squote :: r /\ char_content w c).
Proof. exact (exactly_intro _ _ (fun n => ok_0 _ _ _ (ok_character n)) character_iff). Qed.
Print Assumptions C13_characters.
Example C13_instance : character (L "'\x4a'") = Ok [] (Character (C "J")) /\
  character (L "'\x+a'") = Ok [] (Character 10%N).
Proof. vm_compute. auto. Qed.

(** ** C14: comments *)
Theorem C14_comments : exactly comment (fun s r st =>
  exists c, st = Comment c /\
    (s = L "--" ++ c ++ r /\ forallb not_newline c = true /\ line_end r \/
     s = L "{-" ++ c ++ L "-}" ++ r /\ ~ exists a b, c = a ++ L "-}" ++ b)).
Proof. exact (exactly_intro _ _ (fun n => ok_0 _ _ _ (ok_comment n)) comment_iff). Qed.
Print Assumptions C14_comments.
Example C14_instance : comment (L "{- a {- b -} c -}") = Ok (L " c -}") (Comment (L " a {- b ")).
Proof. reflexivity. Qed.

(** ** C15: layout *)
(** [trivia_run s t r]: [t] is the longest run of spaces, line feeds and comments
    at the head of [s].  The answer is the column of what follows, see [width]. *)
Definition column_ok (ir : IR) (column indentation : N) : Prop :=
  match ir with
  | IR_EQ => column = indentation
  | IR_GT => (column > indentation)%N
  | IR_GTE => (column >= indentation)%N
  end.
Theorem C15_layout : forall i ir, exactly (spaces_or_new_lines_and_indent i ir) (fun s r n =>
  exists t, trivia_run s t r /\ t <> [] /\
    (has_newline t = true -> column_ok ir (width i t) i) /\ n = width i t).
Proof.
  exact (fun i ir => exactly_intro _ _ (fun n => ok_0 _ _ _ (ok_sp n i ir)) (sp_iff i ir)).
Qed.
Print Assumptions C15_layout.
Theorem C15_run_exists_unique : forall s,
  exists t r, trivia_run s t r /\ forall t' r', trivia_run s t' r' -> t' = t /\ r' = r.
Proof. exact trivia_run_exists_unique. Qed.
Print Assumptions C15_run_exists_unique.
Example C15_instance :
  spaces_or_new_lines_and_indent 2 IR_EQ (L " -- c

  x") = Ok (L "x") 2%N /\
  spaces_or_new_lines_and_indent 2 IR_GT (L "
  x") = Err /\
  spaces_or_new_lines_and_indent 2 IR_GT (L "   x") = Ok (L "x") 2%N.
Proof. vm_compute. auto. Qed.

(** ** C21: infix precedence *)
(** [dec_value d] is the number denoted by the digits [d] in base ten. *)
Theorem C21_infix : exactly infix_declaration (fun s r st =>
  exists a w b d b' n,
    st = InfixDeclaration a (dec_value d) n /\
    s = w ++ b ++ d ++ b' ++ n ++ r /\
    infix_word a w /\ spaces1 b /\ digits1 d /\ spaces1 b' /\
    (dec_value d <= 2 ^ 63 - 1)%N /\ name_or_operator_at n r).
Proof.
  exact (exactly_intro _ _ (fun n => ok_0 _ _ _ (ok_infix n)) infix_declaration_iff).
Qed.
Print Assumptions C21_infix.
Example C21_instance :
  infix_declaration (L "infixl 9223372036854775807 <|") =
    Ok [] (InfixDeclaration AssocL (2 ^ 63 - 1) (L "<|")) /\
  infix_declaration (L "infixl 9223372036854775808 <|") = Err.
Proof. vm_compute. auto. Qed.

(** ** C27: let entries *)
(** [entry_kind x]: [x] is a function with a signature or a parameter, or a
    binding whose target is a variable, list, tuple or field-name record. *)
Theorem C27_let_entries : forall s r sts xs b x, file s = Ok r sts ->
  occurs (Let_ xs b) sts -> In x xs -> entry_kind x.
Proof.
  exact (fun s r sts xs b x H =>
           occurs_entry xs b sts x (wf_GFile sts s (proj2 (file_sound s r sts H)))).
Qed.
Print Assumptions C27_let_entries.
Example C27_instance : exists xs b, occurs (Let_ xs b) sample_ast /\ length xs = 2.
Proof.
  eexists _, _. split.
  - eexists _, _. split; [unfold sample_ast; vm_compute; do 4 right; left; reflexivity|].
    split; [apply root_function, fp_body|apply sub_refl].
  - reflexivity.
Qed.

(** ** C28: a file must start like a statement *)
Theorem C28_first_character : forall b c s,
  blanks b -> is_blank c = false -> is_lower c = false -> ~ In c (L "_(-{") ->
  file (b ++ c :: s) = Err.
Proof. exact file_head_In. Qed.
Print Assumptions C28_first_character.
(** e.g. a byte-order mark *)
Example C28_byte_order_mark : forall s, file (65279%N :: s) = Err.
Proof.
  intros s. apply (C28_first_character [] 65279%N s); try reflexivity.
  simpl. intuition discriminate.
Qed.

(** ** C29: recursion depth *)
(** [expression_n n] and [type_n n] answer [Abort OutOfFuel] as soon as more than
    [n] nested calls are needed. *)
Theorem C29_expression_depth : forall n i s, length s < n ->
  expression_n n i s = expression i s /\ forall w, expression_n n i s <> Abort w.
Proof. exact expression_depth. Qed.
Print Assumptions C29_expression_depth.
Theorem C29_type_depth : forall n i s, length s < n ->
  type_n n i s = type_ i s /\ forall w, type_n n i s <> Abort w.
Proof. exact type_depth. Qed.
Print Assumptions C29_type_depth.
(** the bound is reached up to a constant: the depth of nested parentheses *)
Example C29_instance : expression_n 3 0 (L "((a))") = Ok [] (Variable_ [L "a"]) /\
  expression_n 2 0 (L "((a))") = Abort OutOfFuel.
Proof. vm_compute. auto. Qed.

(** ** C30: every construct consumes a prefix and makes progress *)
Theorem C30_progress :
  progress statement /\ (forall i, progress (expression i)) /\ (forall i, progress (term i)) /\
  (forall i, progress (type_ i)) /\ (forall i, progress (type_annotation i)).
Proof. exact all_progress. Qed.
Print Assumptions C30_progress.
Example C30_instance : expression 0 (L "f x = y") = Ok (L " = y") (Application (Variable_ [L "f"]) (Variable_ [L "x"])).
Proof. reflexivity. Qed.

(** ** C32: type variables *)
Theorem C32_type_variables : exactly type_variable (fun s r t =>
  exists n, t = TypeVariable n /\ s = n ++ r /\ type_var_name n /\ ends is_tyvar_char r).
Proof. exact (exactly_intro _ _ (fun n => ok_0 _ _ _ (ok_type_variable n)) type_variable_iff). Qed.
Print Assumptions C32_type_variables.
Example C32_instance : type_variable (L "fooBar") = Ok (L "Bar") (TypeVariable (L "foo")) /\
  type_variable (L "a0") = Ok (L "0") (TypeVariable (L "a")) /\
  type_variable (L "let") = Ok [] (TypeVariable (L "let")).
Proof. vm_compute. auto. Qed.
