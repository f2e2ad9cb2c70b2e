(** * Conformance tests

    Every unit test of the repository, transcribed mechanically and run on the
    model by the kernel.  These are tests of the model's fidelity, not proofs of
    any property. *)
From Verif Require Import Base Nom Regex Ast Helpers Types Expr Stmt.

(** Helper functions of the Rust test modules. *)
Definition var (n : str) := Variable_ [n].
Definition int (n : str) := Integer n.
Definition application := Application.
Definition bin_op := BinOp.
Definition if_ := If_.
Definition tapp := TypeApplication.
Definition tvar := TypeVariable.
Definition tcon (n : str) (v : list type_ast) := TypeConstructor [n] v.
Definition fexp := FunctionExport.
Definition texp := TypeExport.
Definition imp (n : str) (a : option str) (e : option export_set) := ImportStatement [n] a e.
Definition simplified_record_i (i : N) := simplified_record.

(** ** src/ast/helpers.rs *)

(* src/ast/helpers.rs:183 *)
Example t_helpers_simple_operator :
  operator (L "==")
  = Ok (@nil N) (L "==").
Proof. vm_compute. reflexivity. Qed.

(* src/ast/helpers.rs:191 *)
Example t_helpers_another_simple_operator :
  operator (L ":-")
  = Ok (@nil N) (L ":-").
Proof. vm_compute. reflexivity. Qed.

(* src/ast/helpers.rs:199 *)
Example t_helpers_invalid_operator :
  operator (L "=")
  = Err.
Proof. vm_compute. reflexivity. Qed.

(* src/ast/helpers.rs:204 *)
Example t_helpers_valid_zero_spaces :
  spaces_or_new_lines_and_indent 0%N IR_GTE [10; 32]%N
  = Ok (@nil N) 1%N.
Proof. vm_compute. reflexivity. Qed.

(* src/ast/helpers.rs:212 *)
Example t_helpers_invalid_zero_spaces :
  spaces_or_new_lines_and_indent 1%N IR_GTE [10]%N
  = Err.
Proof. vm_compute. reflexivity. Qed.

(* src/ast/helpers.rs:217 *)
Example t_helpers_spaces_with_comment :
  spaces_or_new_lines_and_indent 0%N IR_GTE [32; 45; 45; 32; 67; 111; 109; 109; 101; 110; 116; 10; 32; 32]%N
  = Ok (@nil N) 2%N.
Proof. vm_compute. reflexivity. Qed.

(* src/ast/helpers.rs:225 *)
Example t_helpers_just_spaces :
  spaces_or_new_lines_and_indent 1%N IR_GTE (L "   ")
  = Ok (@nil N) 1%N.
Proof. vm_compute. reflexivity. Qed.

(* src/ast/helpers.rs:233 *)
Example t_helpers_opt_just_spaces :
  opt_spaces_or_new_lines_and_indent 1%N IR_GTE (L "   ")
  = Ok (@nil N) 1%N.
Proof. vm_compute. reflexivity. Qed.

(* src/ast/helpers.rs:241 *)
Example t_helpers_opt_no_spaces :
  opt_spaces_or_new_lines_and_indent 2%N IR_GTE (@nil N)
  = Ok (@nil N) 2%N.
Proof. vm_compute. reflexivity. Qed.

(* src/ast/helpers.rs:249 *)
Example t_helpers_simple_name :
  lo_name (L "goToUserPage")
  = Ok (@nil N) (L "goToUserPage").
Proof. vm_compute. reflexivity. Qed.


(** ** src/ast/mod.rs *)

(* src/ast/mod.rs:22 *)
Example t_mod_simple_file :
  exists r a, file [109; 111; 100; 117; 108; 101; 32; 84; 101; 115; 116; 32; 101; 120; 112; 111; 115; 105; 110; 103; 32; 40; 46; 46; 41; 10; 10; 109; 97; 105; 110; 32; 58; 32; 80; 114; 111; 103; 114; 97; 109; 32; 70; 108; 97; 103; 115; 32; 77; 111; 100; 101; 108; 32; 77; 115; 103; 10; 109; 97; 105; 110; 32; 61; 10; 32; 32; 32; 32; 109; 121; 80; 114; 111; 103; 114; 97; 109; 10]%N
  = Ok r a.
Proof. vm_compute. eexists; eexists; reflexivity. Qed.


(** ** src/ast/expression/access_function.rs *)

(* src/ast/expression/access_function.rs:20 *)
Example t_expression_access_function_simple_access_function :
  access_function (L ".property")
  = Ok (@nil N) (AccessFunction (L "property")).
Proof. vm_compute. reflexivity. Qed.


(** ** src/ast/expression/character.rs *)

(* src/ast/expression/character.rs:41 *)
Example t_expression_character_character_literal :
  character (L "'a'")
  = Ok (@nil N) (Character 97%N).
Proof. vm_compute. reflexivity. Qed.

(* src/ast/expression/character.rs:49 *)
Example t_expression_character_newline_literal :
  character [39; 10; 39]%N
  = Ok (@nil N) (Character 10%N).
Proof. vm_compute. reflexivity. Qed.

(* src/ast/expression/character.rs:57 *)
Example t_expression_character_charcode_literal :
  character (L "'\x23'")
  = Ok (@nil N) (Character 35%N).
Proof. vm_compute. reflexivity. Qed.

(* src/ast/expression/character.rs:66 *)
Example t_expression_character_character_literals_must_contain_one_character :
  character (L "''")
  = Err.
Proof. vm_compute. reflexivity. Qed.


(** ** src/ast/expression/float.rs *)

(* src/ast/expression/float.rs:25 *)
Example t_expression_float_float_literal :
  float (L "1.01")
  = Ok (@nil N) (Float (L "1.01")).
Proof. vm_compute. reflexivity. Qed.

(* src/ast/expression/float.rs:33 *)
Example t_expression_float_postive_float_literal :
  float (L "+1.5")
  = Ok (@nil N) (Float (L "+1.5")).
Proof. vm_compute. reflexivity. Qed.

(* src/ast/expression/float.rs:41 *)
Example t_expression_float_negative_float_literal :
  float (L "-1.8")
  = Ok (@nil N) (Float (L "-1.8")).
Proof. vm_compute. reflexivity. Qed.


(** ** src/ast/expression/function.rs *)

(* src/ast/expression/function.rs:81 *)
Example t_expression_function_simple_function_type :
  function_signature 0%N (L "f : Int -> Int")
  = Ok (@nil N) (mkSig (L "f") (tapp (tcon (L "Int") []) (tcon (L "Int") []))).
Proof. vm_compute. reflexivity. Qed.

(* src/ast/expression/function.rs:95 *)
Example t_expression_function_simple_function_type_with_new_line :
  function_signature 0%N [102; 32; 58; 32; 73; 110; 116; 32; 45; 62; 10; 32; 32; 73; 110; 116]%N
  = Ok (@nil N) (mkSig (L "f") (tapp (tcon (L "Int") []) (tcon (L "Int") []))).
Proof. vm_compute. reflexivity. Qed.

(* src/ast/expression/function.rs:109 *)
Example t_expression_function_simple_function :
  function_definition 0%N (L "f x = a { r | f = 1 }    c")
  = Ok (@nil N) (mkDef (L "f") [(var (L "x"))] (application (application (var (L "a")) (RecordUpdate (L "r") [((L "f"), (Integer (L "1")))])) (var (L "c")))).
Proof. vm_compute. reflexivity. Qed.

(* src/ast/expression/function.rs:133 *)
Example t_expression_function_simple_function_with_new_line :
  function_definition 0%N [102; 32; 120; 32; 61; 32; 97; 32; 10; 32; 99]%N
  = Ok (@nil N) (mkDef (L "f") [(var (L "x"))] (application (var (L "a")) (var (L "c")))).
Proof. vm_compute. reflexivity. Qed.

(* src/ast/expression/function.rs:148 *)
Example t_expression_function_function_type_with_tuple :
  function_signature 0%N (L "h : (Int, Int) -> Int")
  = Ok (@nil N) (mkSig (L "h") (tapp (TypeTuple [(tcon (L "Int") []); (tcon (L "Int") [])]) (tcon (L "Int") []))).
Proof. vm_compute. reflexivity. Qed.

(* src/ast/expression/function.rs:165 *)
Example t_expression_function_function_type_with_operator :
  function_signature 0%N (L "(+) : Int -> Int")
  = Ok (@nil N) (mkSig (L "+") (tapp (tcon (L "Int") []) (tcon (L "Int") []))).
Proof. vm_compute. reflexivity. Qed.

(* src/ast/expression/function.rs:179 *)
Example t_expression_function_function_with_operator :
  function_definition 0%N (L "(+) a b = 1")
  = Ok (@nil N) (mkDef (L "+") [(var (L "a")); (var (L "b"))] (int (L "1"))).
Proof. vm_compute. reflexivity. Qed.

(* src/ast/expression/function.rs:194 *)
Example t_expression_function_multi_line_function_type :
  function_signature 0%N [99; 115; 115; 109; 32; 58; 10; 32; 32; 32; 32; 67; 115; 115; 77; 111; 100; 117; 108; 101; 115; 46; 72; 101; 108; 112; 101; 114; 115; 10; 32; 32; 32; 32; 32; 32; 32; 32; 123; 32; 97; 32; 58; 32; 83; 116; 114; 105; 110; 103; 10; 32; 32; 32; 32; 32; 32; 32; 32; 44; 32; 98; 32; 58; 32; 83; 116; 114; 105; 110; 103; 10; 32; 32; 32; 32; 32; 32; 32; 32; 125; 10; 32; 32; 32; 32; 32; 32; 32; 32; 109; 115; 103]%N
  = Ok (@nil N) (mkSig (L "cssm") (TypeConstructor [(L "CssModules"); (L "Helpers")] [(TypeRecord [((L "a"), (TypeConstructor [(L "String")] [])); ((L "b"), (TypeConstructor [(L "String")] []))]); (TypeVariable (L "msg"))])).
Proof. vm_compute. reflexivity. Qed.

(* src/ast/expression/function.rs:233 *)
Example t_expression_function_multi_line_function_type_with_parens :
  function_signature 0%N [99; 108; 97; 115; 115; 101; 115; 32; 58; 10; 32; 32; 32; 32; 76; 105; 115; 116; 10; 32; 32; 32; 32; 32; 32; 32; 32; 40; 123; 32; 118; 105; 101; 119; 82; 101; 112; 111; 114; 116; 80; 97; 103; 101; 32; 58; 32; 83; 116; 114; 105; 110; 103; 32; 125; 32; 45; 62; 32; 83; 116; 114; 105; 110; 103; 10; 32; 32; 32; 32; 32; 32; 32; 32; 41]%N
  = Ok (@nil N) (mkSig (L "classes") (tcon (L "List") [(tapp (TypeRecord [((L "viewReportPage"), (tcon (L "String") []))]) (tcon (L "String") []))])).
Proof. vm_compute. reflexivity. Qed.

(* src/ast/expression/function.rs:264 *)
Example t_expression_function_function_with_signature :
  function 0%N [102; 32; 58; 32; 73; 110; 116; 32; 45; 62; 32; 73; 110; 116; 10; 102; 32; 120; 32; 61; 32; 97; 32; 10; 32; 99]%N
  = Ok (@nil N) (mkFunc (Some (mkSig (L "f") (tapp (tcon (L "Int") []) (tcon (L "Int") [])))) (mkDef (L "f") [(var (L "x"))] (application (var (L "a")) (var (L "c"))))).
Proof. vm_compute. reflexivity. Qed.

(* src/ast/expression/function.rs:285 *)
Example t_expression_function_function_without_signature :
  function 0%N [102; 32; 120; 32; 61; 32; 97; 32; 10; 32; 99]%N
  = Ok (@nil N) (mkFunc None (mkDef (L "f") [(var (L "x"))] (application (var (L "a")) (var (L "c"))))).
Proof. vm_compute. reflexivity. Qed.


(** ** src/ast/expression/integer.rs *)

(* src/ast/expression/integer.rs:23 *)
Example t_expression_integer_int_literal :
  integer (L "101")
  = Ok (@nil N) (Integer (L "101")).
Proof. vm_compute. reflexivity. Qed.

(* src/ast/expression/integer.rs:31 *)
Example t_expression_integer_postive_int_literal :
  integer (L "+15")
  = Ok (@nil N) (Integer (L "+15")).
Proof. vm_compute. reflexivity. Qed.

(* src/ast/expression/integer.rs:39 *)
Example t_expression_integer_negative_int_literal :
  integer (L "-18")
  = Ok (@nil N) (Integer (L "-18")).
Proof. vm_compute. reflexivity. Qed.


(** ** src/ast/expression/mod.rs *)

(* src/ast/expression/mod.rs:391 *)
Example t_expression_mod_simple_tuple :
  tuple 0%N (L "(a,b)")
  = Ok (@nil N) (Tuple [(var (L "a")); (var (L "b"))]).
Proof. vm_compute. reflexivity. Qed.

(* src/ast/expression/mod.rs:399 *)
Example t_expression_mod_simple_tuple_with_formatting :
  tuple 0%N (L "( a, b )")
  = Ok (@nil N) (Tuple [(var (L "a")); (var (L "b"))]).
Proof. vm_compute. reflexivity. Qed.

(* src/ast/expression/mod.rs:409 *)
Example t_expression_mod_empty_list :
  list_expr 0%N (L "[]")
  = Ok (@nil N) (List_ []).
Proof. vm_compute. reflexivity. Qed.

(* src/ast/expression/mod.rs:417 *)
Example t_expression_mod_simple_list :
  list_expr 0%N (L "[a,b]")
  = Ok (@nil N) (List_ [(var (L "a")); (var (L "b"))]).
Proof. vm_compute. reflexivity. Qed.

(* src/ast/expression/mod.rs:425 *)
Example t_expression_mod_simple_list_with_formatting :
  list_expr 0%N (L "[ a, b ]")
  = Ok (@nil N) (List_ [(var (L "a")); (var (L "b"))]).
Proof. vm_compute. reflexivity. Qed.

(* src/ast/expression/mod.rs:433 *)
Example t_expression_mod_simple_int_list :
  list_expr 0%N (L "[1,2]")
  = Ok (@nil N) (List_ [(int (L "1")); (int (L "2"))]).
Proof. vm_compute. reflexivity. Qed.

(* src/ast/expression/mod.rs:441 *)
Example t_expression_mod_multi_line_list :
  list_expr 0%N [91; 32; 49; 10; 32; 32; 32; 32; 32; 32; 32; 32; 32; 32; 32; 32; 32; 32; 32; 32; 32; 32; 32; 32; 32; 44; 32; 50; 10; 32; 32; 32; 32; 32; 32; 32; 32; 32; 32; 32; 32; 32; 32; 32; 32; 32; 32; 32; 32; 32; 93]%N
  = Ok (@nil N) (List_ [(int (L "1")); (int (L "2"))]).
Proof. vm_compute. reflexivity. Qed.

(* src/ast/expression/mod.rs:456 *)
Example t_expression_mod_tuple_list :
  list_expr 0%N (L "[(a, b), (a, b)]")
  = Ok (@nil N) (List_ [(Tuple [(var (L "a")); (var (L "b"))]); (Tuple [(var (L "a")); (var (L "b"))])]).
Proof. vm_compute. reflexivity. Qed.

(* src/ast/expression/mod.rs:472 *)
Example t_expression_mod_simple_variable :
  application_or_var 0%N (L "abc")
  = Ok (@nil N) (var (L "abc")).
Proof. vm_compute. reflexivity. Qed.

(* src/ast/expression/mod.rs:480 *)
Example t_expression_mod_simple_application :
  application_or_var 0%N (L "f a")
  = Ok (@nil N) (Application (var (L "f")) (var (L "a"))).
Proof. vm_compute. reflexivity. Qed.

(* src/ast/expression/mod.rs:491 *)
Example t_expression_mod_curried_application :
  application_or_var 0%N (L "f a b")
  = Ok (@nil N) (Application (Application (var (L "f")) (var (L "a"))) (var (L "b"))).
Proof. vm_compute. reflexivity. Qed.

(* src/ast/expression/mod.rs:508 *)
Example t_expression_mod_curried_application_with_parens :
  application_or_var 0%N (L "(f a) b")
  = Ok (@nil N) (Application (Application (var (L "f")) (var (L "a"))) (var (L "b"))).
Proof. vm_compute. reflexivity. Qed.

(* src/ast/expression/mod.rs:525 *)
Example t_expression_mod_multiline_application :
  application_or_var 0%N [102; 10; 32; 32; 32; 97; 10; 32; 98]%N
  = Ok (@nil N) (Application (Application (var (L "f")) (var (L "a"))) (var (L "b"))).
Proof. vm_compute. reflexivity. Qed.

(* src/ast/expression/mod.rs:542 *)
Example t_expression_mod_multiline_bug :
  application_or_var 0%N [102; 10; 32; 40; 61; 61; 41]%N
  = Ok (@nil N) (Application (var (L "f")) (var (L "=="))).
Proof. vm_compute. reflexivity. Qed.

(* src/ast/expression/mod.rs:553 *)
Example t_expression_mod_same_multiline_bug :
  application_or_var 0%N [102; 10; 32; 34; 73; 32; 108; 105; 107; 101; 32; 116; 104; 101; 32; 115; 121; 109; 98; 111; 108; 32; 61; 34]%N
  = Ok (@nil N) (Application (var (L "f")) (String_ (L "I like the symbol ="))).
Proof. vm_compute. reflexivity. Qed.

(* src/ast/expression/mod.rs:567 *)
Example t_expression_mod_constructor_application :
  application_or_var 0%N (L "Cons a Nil")
  = Ok (@nil N) (Application (Application (var (L "Cons")) (var (L "a"))) (var (L "Nil"))).
Proof. vm_compute. reflexivity. Qed.

(* src/ast/expression/mod.rs:584 *)
Example t_expression_mod_application_with_record_update :
  application_or_var 0%N (L "a  { r | f = 1 } c")
  = Ok (@nil N) (application (application (var (L "a")) (RecordUpdate (L "r") [((L "f"), (int (L "1")))])) (var (L "c"))).
Proof. vm_compute. reflexivity. Qed.

(* src/ast/expression/mod.rs:606 *)
Example t_expression_mod_simple_record :
  record 0%N (L "{ a = b }")
  = Ok (@nil N) (Record_ [((L "a"), (var (L "b")))]).
Proof. vm_compute. reflexivity. Qed.

(* src/ast/expression/mod.rs:617 *)
Example t_expression_mod_simple_record_with_many_fields :
  record 0%N (L "{ a = b, b = 2 }")
  = Ok (@nil N) (Record_ [((L "a"), (var (L "b"))); ((L "b"), (int (L "2")))]).
Proof. vm_compute. reflexivity. Qed.

(* src/ast/expression/mod.rs:631 *)
Example t_expression_mod_multi_line_record :
  record 1%N [123; 32; 97; 32; 61; 32; 98; 10; 32; 32; 32; 32; 32; 32; 32; 32; 32; 32; 32; 32; 32; 32; 32; 32; 32; 32; 32; 32; 32; 44; 32; 98; 32; 61; 32; 50; 10; 32; 32; 32; 32; 32; 32; 32; 32; 32; 32; 32; 32; 32; 32; 32; 32; 32; 32; 32; 32; 32; 125]%N
  = Ok (@nil N) (Record_ [((L "a"), (var (L "b"))); ((L "b"), (int (L "2")))]).
Proof. vm_compute. reflexivity. Qed.

(* src/ast/expression/mod.rs:652 *)
Example t_expression_mod_multi_line_record_with_comments :
  record 1%N [123; 32; 97; 32; 61; 32; 98; 10; 32; 32; 32; 32; 32; 32; 32; 32; 32; 32; 32; 32; 32; 32; 32; 32; 32; 32; 32; 32; 32; 32; 32; 45; 45; 32; 70; 105; 114; 115; 116; 32; 99; 111; 109; 109; 101; 110; 116; 10; 32; 32; 32; 32; 32; 32; 32; 32; 32; 32; 32; 32; 32; 32; 32; 32; 32; 32; 32; 32; 32; 44; 32; 98; 32; 61; 32; 50; 32; 45; 45; 32; 83; 101; 99; 111; 110; 100; 32; 99; 111; 109; 109; 101; 110; 116; 10; 32; 32; 32; 32; 32; 32; 32; 32; 32; 32; 32; 32; 32; 32; 32; 32; 32; 32; 32; 32; 32; 125]%N
  = Ok (@nil N) (Record_ [((L "a"), (var (L "b"))); ((L "b"), (int (L "2")))]).
Proof. vm_compute. reflexivity. Qed.

(* src/ast/expression/mod.rs:674 *)
Example t_expression_mod_simple_record_with_many_tuple_fields :
  record 0%N (L "{ a = (a, b), b = (a, b) }")
  = Ok (@nil N) (Record_ [((L "a"), (Tuple [(var (L "a")); (var (L "b"))])); ((L "b"), (Tuple [(var (L "a")); (var (L "b"))]))]).
Proof. vm_compute. reflexivity. Qed.

(* src/ast/expression/mod.rs:688 *)
Example t_expression_mod_simple_record_with_updated_field :
  record_update 0%N (L "{ a | b = 2, c = 3 }")
  = Ok (@nil N) (RecordUpdate (L "a") [((L "b"), (int (L "2"))); ((L "c"), (int (L "3")))]).
Proof. vm_compute. reflexivity. Qed.

(* src/ast/expression/mod.rs:702 *)
Example t_expression_mod_simple_record_with_advanced_field :
  record 0%N (L "{ a = Just 2 }")
  = Ok (@nil N) (Record_ [((L "a"), (application (var (L "Just")) (int (L "2"))))]).
Proof. vm_compute. reflexivity. Qed.

(* src/ast/expression/mod.rs:713 *)
Example t_expression_mod_simple_record_update_with_advanced_field :
  record_update 0%N (L "{ a | a = Just 2 }")
  = Ok (@nil N) (RecordUpdate (L "a") [((L "a"), (application (var (L "Just")) (int (L "2"))))]).
Proof. vm_compute. reflexivity. Qed.

(* src/ast/expression/mod.rs:727 *)
Example t_expression_mod_record_update_with_comment :
  record_update 0%N [123; 32; 97; 10; 32; 32; 32; 32; 32; 32; 32; 32; 32; 32; 32; 32; 32; 32; 32; 32; 32; 32; 32; 32; 32; 32; 45; 45; 32; 67; 111; 109; 109; 101; 110; 116; 32; 97; 98; 111; 117; 116; 32; 115; 111; 109; 101; 116; 104; 105; 110; 103; 10; 32; 32; 32; 32; 32; 32; 32; 32; 32; 32; 32; 32; 32; 32; 32; 32; 32; 32; 32; 32; 32; 32; 32; 32; 124; 32; 98; 32; 61; 32; 49; 10; 32; 32; 32; 32; 32; 32; 32; 32; 32; 32; 32; 32; 32; 32; 32; 32; 32; 32; 32; 32; 125]%N
  = Ok (@nil N) (RecordUpdate (L "a") [((L "b"), (int (L "1")))]).
Proof. vm_compute. reflexivity. Qed.

(* src/ast/expression/mod.rs:746 *)
Example t_expression_mod_simple_record_destructuring_pattern :
  simplified_record_i 0%N (L "{ a, b }")
  = Ok (@nil N) (Record_ [((L "a"), (var (L "a"))); ((L "b"), (var (L "b")))]).
Proof. vm_compute. reflexivity. Qed.

(* src/ast/expression/mod.rs:762 *)
Example t_expression_mod_simple_binary_op :
  binary 0%N (L "x + 1")
  = Ok (@nil N) (BinOp (var (L "+")) (var (L "x")) (int (L "1"))).
Proof. vm_compute. reflexivity. Qed.

(* src/ast/expression/mod.rs:775 *)
Example t_expression_mod_let_single_binding :
  let_binding 0%N (L "a = 42")
  = Ok (@nil N) (LetBinding (var (L "a")) (int (L "42"))).
Proof. vm_compute. reflexivity. Qed.

(* src/ast/expression/mod.rs:783 *)
Example t_expression_mod_let_group_single_binding :
  let_bindings 0%N (L "a = 42")
  = Ok (@nil N) [(LetBinding (var (L "a")) (int (L "42")))].
Proof. vm_compute. reflexivity. Qed.

(* src/ast/expression/mod.rs:794 *)
Example t_expression_mod_let_group_single_function :
  let_bindings 0%N (L "a b = 42")
  = Ok (@nil N) [(LetFunction (mkFunc None (mkDef (L "a") [(var (L "b"))] (int (L "42")))))].
Proof. vm_compute. reflexivity. Qed.

(* src/ast/expression/mod.rs:812 *)
Example t_expression_mod_let_group_single_function_and_signature :
  let_bindings 0%N [97; 32; 58; 32; 73; 110; 116; 32; 45; 62; 32; 73; 110; 116; 10; 97; 32; 98; 32; 61; 32; 52; 50]%N
  = Ok (@nil N) [(LetFunction (mkFunc (Some (mkSig (L "a") (tapp (tcon (L "Int") []) (tcon (L "Int") [])))) (mkDef (L "a") [(var (L "b"))] (int (L "42")))))].
Proof. vm_compute. reflexivity. Qed.

(* src/ast/expression/mod.rs:833 *)
Example t_expression_mod_let_group_two_functions :
  let_bindings 0%N [97; 32; 98; 32; 61; 32; 52; 50; 10; 99; 32; 100; 32; 61; 32; 50; 52]%N
  = Ok (@nil N) [(LetFunction (mkFunc None (mkDef (L "a") [(var (L "b"))] (int (L "42"))))); (LetFunction (mkFunc None (mkDef (L "c") [(var (L "d"))] (int (L "24")))))].
Proof. vm_compute. reflexivity. Qed.

(* src/ast/expression/mod.rs:861 *)
Example t_expression_mod_let_block_with_single_binding :
  let_expression 0%N (L "let a = 42 in a")
  = Ok (@nil N) (Let_ [(LetBinding (var (L "a")) (int (L "42")))] (var (L "a"))).
Proof. vm_compute. reflexivity. Qed.

(* src/ast/expression/mod.rs:875 *)
Example t_expression_mod_let_block_bind_to_underscore :
  let_expression 0%N (L "let _ = 42 in 24")
  = Ok (@nil N) (Let_ [(LetBinding (var (L "_")) (int (L "42")))] (int (L "24"))).
Proof. vm_compute. reflexivity. Qed.

(* src/ast/expression/mod.rs:889 *)
Example t_expression_mod_let_block_can_start_with_a_tag_name :
  let_expression 0%N [108; 101; 116; 32; 108; 101; 116; 116; 101; 114; 32; 61; 32; 49; 32; 10; 32; 105; 110; 32; 108; 101; 116; 116; 101; 114]%N
  = Ok (@nil N) (Let_ [(LetBinding (var (L "letter")) (int (L "1")))] (var (L "letter"))).
Proof. vm_compute. reflexivity. Qed.

(* src/ast/expression/mod.rs:903 *)
Example t_expression_mod_let_block_function_1 :
  let_expression 0%N [108; 101; 116; 10; 32; 102; 32; 120; 32; 61; 32; 120; 32; 43; 32; 49; 10; 105; 110; 10; 32; 102; 32; 52]%N
  = Ok (@nil N) (Let_ [(LetFunction (mkFunc None (mkDef (L "f") [(var (L "x"))] (bin_op (var (L "+")) (var (L "x")) (int (L "1"))))))] (application (var (L "f")) (int (L "4")))).
Proof. vm_compute. reflexivity. Qed.

(* src/ast/expression/mod.rs:932 *)
Example t_expression_mod_let_block_function_2 :
  let_expression 0%N [108; 101; 116; 10; 32; 32; 102; 32; 120; 32; 61; 32; 120; 32; 43; 32; 49; 10; 32; 32; 103; 32; 120; 32; 61; 32; 120; 32; 43; 32; 49; 10; 105; 110; 10; 32; 32; 102; 32; 52]%N
  = Ok (@nil N) (Let_ [(LetFunction (mkFunc None (mkDef (L "f") [(var (L "x"))] (bin_op (var (L "+")) (var (L "x")) (int (L "1")))))); (LetFunction (mkFunc None (mkDef (L "g") [(var (L "x"))] (bin_op (var (L "+")) (var (L "x")) (int (L "1"))))))] (application (var (L "f")) (int (L "4")))).
Proof. vm_compute. reflexivity. Qed.

(* src/ast/expression/mod.rs:972 *)
Example t_expression_mod_let_block_multiple_bindings :
  let_expression 0%N [108; 101; 116; 10; 32; 32; 97; 32; 61; 32; 52; 50; 10; 32; 32; 98; 32; 61; 32; 97; 32; 43; 32; 49; 10; 105; 110; 10; 32; 32; 98]%N
  = Ok (@nil N) (Let_ [(LetBinding (var (L "a")) (int (L "42"))); (LetBinding (var (L "b")) (bin_op (var (L "+")) (var (L "a")) (int (L "1"))))] (var (L "b"))).
Proof. vm_compute. reflexivity. Qed.

(* src/ast/expression/mod.rs:998 *)
Example t_expression_mod_let_block_function_with_function_signature :
  let_expression 0%N [108; 101; 116; 10; 32; 102; 32; 58; 32; 73; 110; 116; 32; 45; 62; 32; 73; 110; 116; 10; 32; 102; 32; 120; 32; 61; 32; 120; 32; 43; 32; 49; 10; 105; 110; 10; 32; 102; 32; 52]%N
  = Ok (@nil N) (Let_ [(LetFunction (mkFunc (Some (mkSig (L "f") (tapp (tcon (L "Int") []) (tcon (L "Int") [])))) (mkDef (L "f") [(var (L "x"))] (bin_op (var (L "+")) (var (L "x")) (int (L "1"))))))] (application (var (L "f")) (int (L "4")))).
Proof. vm_compute. reflexivity. Qed.

(* src/ast/expression/mod.rs:1031 *)
Example t_expression_mod_let_block_destructuring :
  expression 0%N (L "let (a,b) = (1,2) in a")
  = Ok (@nil N) (Let_ [(LetBinding (Tuple [(var (L "a")); (var (L "b"))]) (Tuple [(int (L "1")); (int (L "2"))]))] (var (L "a"))).
Proof. vm_compute. reflexivity. Qed.

(* src/ast/expression/mod.rs:1050 *)
Example t_expression_mod_case_simple_statement :
  case_expression 0%N [99; 97; 115; 101; 32; 120; 32; 111; 102; 10; 32; 32; 78; 111; 116; 104; 105; 110; 103; 32; 45; 62; 10; 32; 32; 32; 32; 48; 10; 32; 32; 74; 117; 115; 116; 32; 121; 32; 45; 62; 10; 32; 32; 32; 32; 121]%N
  = Ok (@nil N) (Case_ (var (L "x")) [((var (L "Nothing")), (int (L "0"))); ((application (var (L "Just")) (var (L "y"))), (var (L "y")))]).
Proof. vm_compute. reflexivity. Qed.

(* src/ast/expression/mod.rs:1076 *)
Example t_expression_mod_case_simple_statement_with_blank_line :
  case_expression 0%N [99; 97; 115; 101; 32; 120; 32; 111; 102; 10; 32; 32; 78; 111; 116; 104; 105; 110; 103; 32; 45; 62; 10; 32; 32; 32; 32; 48; 10; 10; 32; 32; 74; 117; 115; 116; 32; 121; 32; 45; 62; 10; 32; 32; 32; 32; 121]%N
  = Ok (@nil N) (Case_ (var (L "x")) [((var (L "Nothing")), (int (L "0"))); ((application (var (L "Just")) (var (L "y"))), (var (L "y")))]).
Proof. vm_compute. reflexivity. Qed.

(* src/ast/expression/mod.rs:1103 *)
Example t_expression_mod_case_binding_to_underscore :
  case_expression 0%N [99; 97; 115; 101; 32; 120; 32; 111; 102; 10; 32; 32; 95; 32; 45; 62; 10; 32; 32; 32; 32; 52; 50]%N
  = Ok (@nil N) (Case_ (var (L "x")) [((var (L "_")), (int (L "42")))]).
Proof. vm_compute. reflexivity. Qed.

(* src/ast/expression/mod.rs:1121 *)
Example t_expression_mod_case_nested :
  case_expression 0%N [99; 97; 115; 101; 32; 120; 32; 111; 102; 10; 32; 32; 97; 32; 45; 62; 32; 97; 10; 32; 32; 98; 32; 45; 62; 10; 32; 32; 32; 32; 99; 97; 115; 101; 32; 121; 32; 111; 102; 10; 32; 32; 32; 32; 32; 32; 97; 49; 32; 45; 62; 32; 97; 49; 10; 32; 32; 32; 32; 32; 32; 98; 49; 32; 45; 62; 32; 98; 49; 10; 32; 32; 99; 32; 45; 62; 32; 99]%N
  = Ok (@nil N) (Case_ (var (L "x")) [((var (L "a")), (var (L "a"))); ((var (L "b")), (Case_ (var (L "y")) [((var (L "a1")), (var (L "a1"))); ((var (L "b1")), (var (L "b1")))])); ((var (L "c")), (var (L "c")))]).
Proof. vm_compute. reflexivity. Qed.

(* src/ast/expression/mod.rs:1158 *)
Example t_expression_mod_if_statement :
  if_expression 0%N [105; 102; 32; 97; 32; 116; 104; 101; 110; 10; 32; 32; 49; 10; 101; 108; 115; 101; 32; 10; 32; 32; 50]%N
  = Ok (@nil N) (if_ (var (L "a")) (int (L "1")) (int (L "2"))).
Proof. vm_compute. reflexivity. Qed.

(* src/ast/expression/mod.rs:1174 *)
Example t_expression_mod_if_statement_with_tuple :
  if_expression 0%N [105; 102; 32; 40; 97; 44; 32; 98; 41; 32; 61; 61; 32; 40; 49; 44; 32; 50; 41; 32; 116; 104; 101; 110; 10; 32; 32; 49; 10; 101; 108; 115; 101; 32; 10; 32; 32; 50]%N
  = Ok (@nil N) (if_ (bin_op (var (L "==")) (Tuple [(var (L "a")); (var (L "b"))]) (Tuple [(int (L "1")); (int (L "2"))])) (int (L "1")) (int (L "2"))).
Proof. vm_compute. reflexivity. Qed.

(* src/ast/expression/mod.rs:1201 *)
Example t_expression_mod_if_statement_else_if_else :
  if_expression 0%N [105; 102; 32; 97; 32; 116; 104; 101; 110; 10; 32; 32; 49; 10; 101; 108; 115; 101; 32; 105; 102; 32; 98; 32; 116; 104; 101; 110; 10; 32; 32; 50; 10; 101; 108; 115; 101; 10; 32; 32; 51]%N
  = Ok (@nil N) (if_ (var (L "a")) (int (L "1")) (if_ (var (L "b")) (int (L "2")) (int (L "3")))).
Proof. vm_compute. reflexivity. Qed.

(* src/ast/expression/mod.rs:1224 *)
Example t_expression_mod_operator_passed_to_map :
  expression 0%N (L "reduce (+) list")
  = Ok (@nil N) (application (application (var (L "reduce")) (var (L "+"))) (var (L "list"))).
Proof. vm_compute. reflexivity. Qed.

(* src/ast/expression/mod.rs:1235 *)
Example t_expression_mod_partial_application :
  expression 0%N (L "(+) 2")
  = Ok (@nil N) (application (var (L "+")) (int (L "2"))).
Proof. vm_compute. reflexivity. Qed.

(* src/ast/expression/mod.rs:1243 *)
Example t_expression_mod_case_with_as :
  expression 0%N [99; 97; 115; 101; 32; 97; 32; 111; 102; 32; 10; 84; 32; 95; 32; 97; 115; 32; 120; 32; 45; 62; 32; 49]%N
  = Ok (@nil N) (Case_ (var (L "a")) [((BinOp (var (L "as")) (application (var (L "T")) (var (L "_"))) (var (L "x"))), (int (L "1")))]).
Proof. vm_compute. reflexivity. Qed.

(* src/ast/expression/mod.rs:1264 *)
Example t_expression_mod_lambda_destructuring :
  expression 0%N (L "\(a,b) acc -> 1")
  = Ok (@nil N) (Lambda [(Tuple [(var (L "a")); (var (L "b"))]); (var (L "acc"))] (int (L "1"))).
Proof. vm_compute. reflexivity. Qed.

(* src/ast/expression/mod.rs:1278 *)
Example t_expression_mod_access :
  expression 0%N (L "Module.a")
  = Ok (@nil N) (Access (var (L "Module")) [(L "a")]).
Proof. vm_compute. reflexivity. Qed.

(* src/ast/expression/mod.rs:1289 *)
Example t_expression_mod_access_function :
  expression 0%N (L "map .a list")
  = Ok (@nil N) (application (application (var (L "map")) (AccessFunction (L "a"))) (var (L "list"))).
Proof. vm_compute. reflexivity. Qed.


(** ** src/ast/expression/string.rs *)

(* src/ast/expression/string.rs:41 *)
Example t_expression_string_empty_string :
  string_ [34; 34]%N
  = Ok (@nil N) (String_ (@nil N)).
Proof. vm_compute. reflexivity. Qed.

(* src/ast/expression/string.rs:49 *)
Example t_expression_string_simple_string :
  string_ [34; 104; 101; 108; 108; 111; 34]%N
  = Ok (@nil N) (String_ (L "hello")).
Proof. vm_compute. reflexivity. Qed.

(* src/ast/expression/string.rs:57 *)
Example t_expression_string_escaped_string :
  string_ [34; 104; 101; 108; 108; 111; 44; 32; 92; 34; 119; 111; 114; 108; 100; 92; 34; 34]%N
  = Ok (@nil N) (String_ [104; 101; 108; 108; 111; 44; 32; 92; 34; 119; 111; 114; 108; 100; 92; 34]%N).
Proof. vm_compute. reflexivity. Qed.

(* src/ast/expression/string.rs:68 *)
Example t_expression_string_double_escaped_string :
  string_ [34; 92; 92; 34]%N
  = Ok (@nil N) (String_ (L "\\")).
Proof. vm_compute. reflexivity. Qed.

(* src/ast/expression/string.rs:76 *)
Example t_expression_string_empty_triple_quote_string :
  string_ [34; 34; 34; 34; 34; 34]%N
  = Ok (@nil N) (String_ (@nil N)).
Proof. vm_compute. reflexivity. Qed.

(* src/ast/expression/string.rs:84 *)
Example t_expression_string_simple_multi_line_string :
  string_ [34; 34; 34; 104; 101; 108; 108; 111; 10; 119; 111; 114; 108; 100; 34; 34; 34]%N
  = Ok (@nil N) (String_ [104; 101; 108; 108; 111; 10; 119; 111; 114; 108; 100]%N).
Proof. vm_compute. reflexivity. Qed.


(** ** src/ast/expression/variable.rs *)

(* src/ast/expression/variable.rs:47 *)
Example t_expression_variable_simple_variable :
  variable (L "abc")
  = Ok (@nil N) (Variable_ [(L "abc")]).
Proof. vm_compute. reflexivity. Qed.

(* src/ast/expression/variable.rs:58 *)
Example t_expression_variable_simple_variable_with_digits :
  variable (L "abc123")
  = Ok (@nil N) (Variable_ [(L "abc123")]).
Proof. vm_compute. reflexivity. Qed.

(* src/ast/expression/variable.rs:69 *)
Example t_expression_variable_single_letter_variable :
  variable (L "a")
  = Ok (@nil N) (Variable_ [(L "a")]).
Proof. vm_compute. reflexivity. Qed.

(* src/ast/expression/variable.rs:77 *)
Example t_expression_variable_upper_letter_variable :
  variable (L "Abc")
  = Ok (@nil N) (Variable_ [(L "Abc")]).
Proof. vm_compute. reflexivity. Qed.

(* src/ast/expression/variable.rs:88 *)
Example t_expression_variable_operator_in_parens :
  variable (L "(==)")
  = Ok (@nil N) (Variable_ [(L "==")]).
Proof. vm_compute. reflexivity. Qed.

(* src/ast/expression/variable.rs:99 *)
Example t_expression_variable_invalid_variable_2 :
  variable (L "3bc")
  = Err.
Proof. vm_compute. reflexivity. Qed.


(** ** src/ast/statement/comment.rs *)

(* src/ast/statement/comment.rs:36 *)
Example t_statement_comment_simple_comment :
  comment (L "-- abc")
  = Ok (@nil N) (Comment (L " abc")).
Proof. vm_compute. reflexivity. Qed.

(* src/ast/statement/comment.rs:44 *)
Example t_statement_comment_comment_with_trailing_white_space :
  comment (L "-- abc  ")
  = Ok (@nil N) (Comment (L " abc  ")).
Proof. vm_compute. reflexivity. Qed.

(* src/ast/statement/comment.rs:52 *)
Example t_statement_comment_open_close_comment :
  comment (L "{- cba -}")
  = Ok (@nil N) (Comment (L " cba ")).
Proof. vm_compute. reflexivity. Qed.

(* src/ast/statement/comment.rs:60 *)
Example t_statement_comment_multi_line_comment :
  comment [123; 45; 32; 99; 10; 98; 10; 97; 32; 45; 125]%N
  = Ok (@nil N) (Comment [32; 99; 10; 98; 10; 97; 32]%N).
Proof. vm_compute. reflexivity. Qed.


(** ** src/ast/statement/export.rs *)

(* src/ast/statement/export.rs:91 *)
Example t_statement_export_simple_all_export :
  exports (L "(..)")
  = Ok (@nil N) AllExport.
Proof. vm_compute. reflexivity. Qed.

(* src/ast/statement/export.rs:99 *)
Example t_statement_export_simple_function_export :
  exports (L "(a, b)")
  = Ok (@nil N) (SubsetExport [(fexp (L "a")); (fexp (L "b"))]).
Proof. vm_compute. reflexivity. Qed.

(* src/ast/statement/export.rs:110 *)
Example t_statement_export_simple_multiline_function_export :
  exports [40; 32; 97; 10; 44; 10; 32; 98; 10; 44; 10; 99; 41]%N
  = Ok (@nil N) (SubsetExport [(fexp (L "a")); (fexp (L "b")); (fexp (L "c"))]).
Proof. vm_compute. reflexivity. Qed.

(* src/ast/statement/export.rs:121 *)
Example t_statement_export_simple_operator_export :
  exports (L "((=>), (++))")
  = Ok (@nil N) (SubsetExport [(fexp (L "=>")); (fexp (L "++"))]).
Proof. vm_compute. reflexivity. Qed.

(* src/ast/statement/export.rs:132 *)
Example t_statement_export_simple_constructors_export :
  exports (L "(ReadOnly, Write(..), Sync(First, Last))")
  = Ok (@nil N) (SubsetExport [(TypeExport (L "ReadOnly") None); (TypeExport (L "Write") (Some AllExport)); (TypeExport (L "Sync") (Some (SubsetExport [(fexp (L "First")); (fexp (L "Last"))])))]).
Proof. vm_compute. reflexivity. Qed.


(** ** src/ast/statement/import.rs *)

(* src/ast/statement/import.rs:48 *)
Example t_statement_import_simple_import :
  import_statement (L "import A")
  = Ok (@nil N) (imp (L "A") None None).
Proof. vm_compute. reflexivity. Qed.

(* src/ast/statement/import.rs:56 *)
Example t_statement_import_import_as :
  import_statement (L "import A as B")
  = Ok (@nil N) (imp (L "A") (Some (L "B")) None).
Proof. vm_compute. reflexivity. Qed.

(* src/ast/statement/import.rs:64 *)
Example t_statement_import_import_exposing_all :
  import_statement (L "import A exposing (..)")
  = Ok (@nil N) (imp (L "A") None (Some AllExport)).
Proof. vm_compute. reflexivity. Qed.

(* src/ast/statement/import.rs:72 *)
Example t_statement_import_import_exposing :
  import_statement (L "import A exposing (A, b)")
  = Ok (@nil N) (imp (L "A") None (Some (SubsetExport [(texp (L "A") None); (fexp (L "b"))]))).
Proof. vm_compute. reflexivity. Qed.

(* src/ast/statement/import.rs:87 *)
Example t_statement_import_import_exposing_union :
  import_statement (L "import A exposing (A(..))")
  = Ok (@nil N) (imp (L "A") None (Some (SubsetExport [(texp (L "A") (Some AllExport))]))).
Proof. vm_compute. reflexivity. Qed.

(* src/ast/statement/import.rs:105 *)
Example t_statement_import_import_exposing_constructor_subset :
  import_statement (L "import A exposing (A(A))")
  = Ok (@nil N) (imp (L "A") None (Some (SubsetExport [(texp (L "A") (Some (SubsetExport [(fexp (L "A"))])))]))).
Proof. vm_compute. reflexivity. Qed.

(* src/ast/statement/import.rs:123 *)
Example t_statement_import_import_multiline :
  import_statement [105; 109; 112; 111; 114; 116; 32; 65; 32; 97; 115; 32; 66; 32; 101; 120; 112; 111; 115; 105; 110; 103; 32; 40; 65; 44; 32; 66; 44; 10; 99; 41]%N
  = Ok (@nil N) (imp (L "A") (Some (L "B")) (Some (SubsetExport [(texp (L "A") None); (texp (L "B") None); (fexp (L "c"))]))).
Proof. vm_compute. reflexivity. Qed.


(** ** src/ast/statement/infix.rs *)

(* src/ast/statement/infix.rs:33 *)
Example t_statement_infix_non :
  infix_declaration (L "infix 9 :-")
  = Ok (@nil N) (InfixDeclaration AssocN 9%N (L ":-")).
Proof. vm_compute. reflexivity. Qed.

(* src/ast/statement/infix.rs:44 *)
Example t_statement_infix_left :
  infix_declaration (L "infixl 8 :=:")
  = Ok (@nil N) (InfixDeclaration AssocL 8%N (L ":=:")).
Proof. vm_compute. reflexivity. Qed.

(* src/ast/statement/infix.rs:55 *)
Example t_statement_infix_right :
  infix_declaration (L "infixr 7 -+-")
  = Ok (@nil N) (InfixDeclaration AssocR 7%N (L "-+-")).
Proof. vm_compute. reflexivity. Qed.


(** ** src/ast/statement/mod.rs *)

(* src/ast/statement/mod.rs:58 *)
Example t_statement_mod_simple_statements :
  exists r a, statements [109; 111; 100; 117; 108; 101; 32; 84; 101; 115; 116; 32; 101; 120; 112; 111; 115; 105; 110; 103; 32; 40; 46; 46; 41; 10; 10; 109; 97; 105; 110; 32; 58; 32; 80; 114; 111; 103; 114; 97; 109; 32; 70; 108; 97; 103; 115; 32; 77; 111; 100; 101; 108; 32; 77; 115; 103; 10; 109; 97; 105; 110; 32; 61; 10; 32; 32; 32; 32; 109; 121; 80; 114; 111; 103; 114; 97; 109; 10]%N
  = Ok r a.
Proof. vm_compute. eexists; eexists; reflexivity. Qed.


(** ** src/ast/statement/module.rs *)

(* src/ast/statement/module.rs:79 *)
Example t_statement_module_simple_declaration_exposing_all :
  module_declaration (L "module A exposing (..)")
  = Ok (@nil N) (ModuleDeclaration [(L "A")] AllExport).
Proof. vm_compute. reflexivity. Qed.

(* src/ast/statement/module.rs:90 *)
Example t_statement_module_declaration_exposing_particular_things :
  module_declaration (L "module A exposing (A, b)")
  = Ok (@nil N) (ModuleDeclaration [(L "A")] (SubsetExport [(TypeExport (L "A") None); (fexp (L "b"))])).
Proof. vm_compute. reflexivity. Qed.

(* src/ast/statement/module.rs:107 *)
Example t_statement_module_declaration_exposing_an_infix_operator :
  module_declaration (L "module A exposing ((?))")
  = Ok (@nil N) (ModuleDeclaration [(L "A")] (SubsetExport [(fexp (L "?"))])).
Proof. vm_compute. reflexivity. Qed.

(* src/ast/statement/module.rs:121 *)
Example t_statement_module_declaration_exposing_union :
  module_declaration (L "module A exposing (A(..))")
  = Ok (@nil N) (ModuleDeclaration [(L "A")] (SubsetExport [(TypeExport (L "A") (Some AllExport))])).
Proof. vm_compute. reflexivity. Qed.

(* src/ast/statement/module.rs:138 *)
Example t_statement_module_declaration_exposing_constructor_subset :
  module_declaration (L "module A exposing (A(A))")
  = Ok (@nil N) (ModuleDeclaration [(L "A")] (SubsetExport [(TypeExport (L "A") (Some (SubsetExport [(fexp (L "A"))])))])).
Proof. vm_compute. reflexivity. Qed.

(* src/ast/statement/module.rs:155 *)
Example t_statement_module_multiline_declaration :
  module_declaration [109; 111; 100; 117; 108; 101; 10; 32; 65; 10; 32; 101; 120; 112; 111; 115; 105; 110; 103; 10; 32; 40; 32; 65; 44; 32; 66; 44; 10; 99; 41]%N
  = Ok (@nil N) (ModuleDeclaration [(L "A")] (SubsetExport [(TypeExport (L "A") None); (TypeExport (L "B") None); (fexp (L "c"))])).
Proof. vm_compute. reflexivity. Qed.

(* src/ast/statement/module.rs:173 *)
Example t_statement_module_declaration_using_a_port :
  port_module_declaration (L "port module A exposing (A(..))")
  = Ok (@nil N) (PortModuleDeclaration [(L "A")] (SubsetExport [(TypeExport (L "A") (Some AllExport))])).
Proof. vm_compute. reflexivity. Qed.

(* src/ast/statement/module.rs:190 *)
Example t_statement_module_simple_effects :
  effect_module_declaration (L "effect module A where {subscription = MySub, command = MyCmd} exposing (..)")
  = Ok (@nil N) (EffectModuleDeclaration [(L "A")] [((L "subscription"), (L "MySub")); ((L "command"), (L "MyCmd"))] AllExport).
Proof. vm_compute. reflexivity. Qed.


(** ** src/ast/statement/port.rs *)

(* src/ast/statement/port.rs:56 *)
Example t_statement_port_constant :
  port_type_declaration (L "port focus : String -> Cmd msg")
  = Ok (@nil N) (PortTypeDeclaration (L "focus") (tapp (tcon (L "String") []) (tcon (L "Cmd") [(tvar (L "msg"))]))).
Proof. vm_compute. reflexivity. Qed.

(* src/ast/statement/port.rs:70 *)
Example t_statement_port_another_port_type_declaration :
  port_type_declaration (L "port users : (User -> msg) -> Sub msg")
  = Ok (@nil N) (PortTypeDeclaration (L "users") (tapp (tapp (tcon (L "User") []) (tvar (L "msg"))) (tcon (L "Sub") [(tvar (L "msg"))]))).
Proof. vm_compute. reflexivity. Qed.

(* src/ast/statement/port.rs:87 *)
Example t_statement_port_port_definition :
  port_declaration (L "port focus = Cmd.none")
  = Ok (@nil N) (PortDeclaration (L "focus") [] (Access (Variable_ [(L "Cmd")]) [(L "none")])).
Proof. vm_compute. reflexivity. Qed.


(** ** src/ast/statement/type_declaration.rs *)

(* src/ast/statement/type_declaration.rs:58 *)
Example t_statement_type_declaration_can_parse_empty_record_aliases :
  type_alias_declaration (L "type alias A = {}")
  = Ok (@nil N) (TypeAliasDeclaration (TypeConstructor [(L "A")] []) (TypeRecord [])).
Proof. vm_compute. reflexivity. Qed.

(* src/ast/statement/type_declaration.rs:72 *)
Example t_statement_type_declaration_can_parse_aliases_of_unit :
  type_alias_declaration (L "type alias A = ()")
  = Ok (@nil N) (TypeAliasDeclaration (TypeConstructor [(L "A")] []) (TypeTuple [])).
Proof. vm_compute. reflexivity. Qed.

(* src/ast/statement/type_declaration.rs:86 *)
Example t_statement_type_declaration_multi_line_record :
  type_alias_declaration [116; 121; 112; 101; 32; 97; 108; 105; 97; 115; 32; 65; 32; 61; 10; 32; 123; 32; 97; 32; 58; 32; 83; 116; 114; 105; 110; 103; 10; 32; 44; 32; 98; 32; 58; 32; 83; 116; 114; 105; 110; 103; 10; 32; 125]%N
  = Ok (@nil N) (TypeAliasDeclaration (TypeConstructor [(L "A")] []) (TypeRecord [((L "a"), (TypeConstructor [(L "String")] [])); ((L "b"), (TypeConstructor [(L "String")] []))])).
Proof. vm_compute. reflexivity. Qed.

(* src/ast/statement/type_declaration.rs:111 *)
Example t_statement_type_declaration_multi_line_record_with_tuple_list :
  type_alias_declaration [116; 121; 112; 101; 32; 97; 108; 105; 97; 115; 32; 65; 32; 61; 10; 32; 123; 32; 97; 32; 58; 32; 83; 116; 114; 105; 110; 103; 10; 32; 44; 32; 98; 32; 58; 32; 76; 105; 115; 116; 32; 40; 32; 83; 116; 114; 105; 110; 103; 44; 32; 83; 116; 114; 105; 110; 103; 32; 41; 10; 32; 125]%N
  = Ok (@nil N) (TypeAliasDeclaration (TypeConstructor [(L "A")] []) (TypeRecord [((L "a"), (TypeConstructor [(L "String")] [])); ((L "b"), (TypeConstructor [(L "List")] [(TypeTuple [(tcon (L "String") []); (tcon (L "String") [])])]))])).
Proof. vm_compute. reflexivity. Qed.

(* src/ast/statement/type_declaration.rs:142 *)
Example t_statement_type_declaration_can_parse_simple_type_declaration :
  type_declaration 0%N (L "type A = A")
  = Ok (@nil N) (TypeDeclaration (TypeConstructor [(L "A")] []) [(TypeConstructor [(L "A")] [])]).
Proof. vm_compute. reflexivity. Qed.

(* src/ast/statement/type_declaration.rs:156 *)
Example t_statement_type_declaration_can_parse_multi_type_declaration :
  type_declaration 0%N (L "type A = A | B | C")
  = Ok (@nil N) (TypeDeclaration (TypeConstructor [(L "A")] []) [(TypeConstructor [(L "A")] []); (TypeConstructor [(L "B")] []); (TypeConstructor [(L "C")] [])]).
Proof. vm_compute. reflexivity. Qed.

(* src/ast/statement/type_declaration.rs:174 *)
Example t_statement_type_declaration_can_parse_multiline_type_declaration :
  type_declaration 0%N [116; 121; 112; 101; 32; 65; 10; 32; 32; 61; 32; 65; 32; 124; 32; 66; 10; 32; 32; 124; 32; 67; 10; 32; 32; 124; 32; 68]%N
  = Ok (@nil N) (TypeDeclaration (TypeConstructor [(L "A")] []) [(TypeConstructor [(L "A")] []); (TypeConstructor [(L "B")] []); (TypeConstructor [(L "C")] []); (TypeConstructor [(L "D")] [])]).
Proof. vm_compute. reflexivity. Qed.

(* src/ast/statement/type_declaration.rs:193 *)
Example t_statement_type_declaration_can_parse_complex_function_alias :
  type_alias_declaration [116; 121; 112; 101; 32; 97; 108; 105; 97; 115; 32; 76; 97; 110; 103; 117; 97; 103; 101; 72; 101; 108; 112; 101; 114; 32; 97; 32; 98; 32; 61; 10; 32; 32; 32; 32; 40; 123; 32; 98; 10; 32; 32; 32; 32; 32; 32; 32; 32; 124; 32; 99; 111; 109; 109; 111; 110; 69; 114; 114; 111; 114; 78; 97; 109; 101; 32; 58; 32; 97; 10; 32; 32; 32; 32; 32; 32; 32; 32; 44; 32; 99; 111; 109; 109; 111; 110; 69; 114; 114; 111; 114; 68; 101; 115; 99; 114; 105; 112; 116; 105; 111; 110; 32; 58; 32; 97; 10; 32; 32; 32; 32; 32; 32; 32; 32; 44; 32; 107; 112; 105; 69; 114; 114; 111; 114; 67; 97; 108; 99; 117; 108; 97; 116; 105; 111; 110; 84; 121; 112; 101; 32; 58; 32; 97; 10; 32; 32; 32; 32; 32; 32; 32; 32; 44; 32; 107; 112; 105; 69; 114; 114; 111; 114; 65; 103; 103; 114; 101; 103; 97; 116; 105; 111; 110; 84; 121; 112; 101; 32; 58; 32; 97; 10; 32; 32; 32; 32; 32; 125; 10; 32; 32; 32; 32; 32; 45; 62; 32; 97; 10; 32; 32; 32; 32; 41; 10; 32; 32; 32; 32; 45; 62; 32; 83; 116; 114; 105; 110; 103]%N
  = Ok (@nil N) (TypeAliasDeclaration (tcon (L "LanguageHelper") [(tvar (L "a")); (tvar (L "b"))]) (tapp (tapp (TypeRecordConstructor (tvar (L "b")) [((L "commonErrorName"), (tvar (L "a"))); ((L "commonErrorDescription"), (tvar (L "a"))); ((L "kpiErrorCalculationType"), (tvar (L "a"))); ((L "kpiErrorAggregationType"), (tvar (L "a")))]) (tvar (L "a"))) (tcon (L "String") []))).
Proof. vm_compute. reflexivity. Qed.


(** ** src/ast/type_/mod.rs *)

(* src/ast/type_/mod.rs:190 *)
Example t_type__mod_constant :
  type_annotation 0%N (L "Int")
  = Ok (@nil N) (TypeConstructor [(L "Int")] []).
Proof. vm_compute. reflexivity. Qed.

(* src/ast/type_/mod.rs:201 *)
Example t_type__mod_variables :
  type_annotation 0%N (L "a")
  = Ok (@nil N) (tvar (L "a")).
Proof. vm_compute. reflexivity. Qed.

(* src/ast/type_/mod.rs:209 *)
Example t_type__mod_variables_with_numbers :
  type_annotation 0%N (L "a1")
  = Ok (@nil N) (tvar (L "a1")).
Proof. vm_compute. reflexivity. Qed.

(* src/ast/type_/mod.rs:217 *)
Example t_type__mod_empty_record :
  type_annotation 0%N (L "{}")
  = Ok (@nil N) (TypeRecord []).
Proof. vm_compute. reflexivity. Qed.

(* src/ast/type_/mod.rs:225 *)
Example t_type__mod_empty_tuple :
  type_annotation 0%N (L "()")
  = Ok (@nil N) (TypeTuple []).
Proof. vm_compute. reflexivity. Qed.

(* src/ast/type_/mod.rs:233 *)
Example t_type__mod_basic_record :
  type_annotation 0%N (L "{ a : String }")
  = Ok (@nil N) (TypeRecord [((L "a"), (tcon (L "String") []))]).
Proof. vm_compute. reflexivity. Qed.

(* src/ast/type_/mod.rs:244 *)
Example t_type__mod_two_entry_record :
  type_annotation 0%N (L "{ a : String, b : String }")
  = Ok (@nil N) (TypeRecord [((L "a"), (tcon (L "String") [])); ((L "b"), (tcon (L "String") []))]).
Proof. vm_compute. reflexivity. Qed.

(* src/ast/type_/mod.rs:258 *)
Example t_type__mod_multi_line_record :
  type_annotation 0%N [123; 10; 32; 32; 32; 32; 32; 32; 32; 32; 32; 32; 32; 32; 32; 32; 32; 32; 32; 97; 32; 58; 32; 83; 116; 114; 105; 110; 103; 10; 32; 32; 32; 32; 32; 32; 32; 32; 32; 32; 32; 32; 32; 32; 32; 44; 32; 98; 32; 58; 32; 83; 116; 114; 105; 110; 103; 10; 125]%N
  = Ok (@nil N) (TypeRecord [((L "a"), (tcon (L "String") [])); ((L "b"), (tcon (L "String") []))]).
Proof. vm_compute. reflexivity. Qed.

(* src/ast/type_/mod.rs:280 *)
Example t_type__mod_multi_line_record_with_comments :
  type_annotation 0%N [123; 10; 32; 32; 32; 32; 32; 32; 32; 32; 32; 32; 32; 32; 32; 32; 32; 32; 32; 45; 45; 32; 70; 105; 114; 115; 116; 32; 99; 111; 109; 109; 101; 110; 116; 10; 32; 32; 32; 32; 32; 32; 32; 32; 32; 32; 32; 32; 32; 32; 32; 32; 32; 97; 32; 58; 32; 83; 116; 114; 105; 110; 103; 10; 10; 32; 32; 32; 32; 32; 32; 32; 32; 32; 32; 32; 32; 32; 32; 32; 32; 32; 45; 45; 32; 83; 101; 99; 111; 110; 100; 32; 99; 111; 109; 109; 101; 110; 116; 10; 32; 32; 32; 32; 32; 32; 32; 32; 32; 32; 32; 32; 32; 32; 32; 44; 32; 98; 32; 58; 32; 83; 116; 114; 105; 110; 103; 32; 45; 45; 32; 84; 104; 105; 114; 100; 32; 99; 111; 109; 109; 101; 110; 116; 10; 125]%N
  = Ok (@nil N) (TypeRecord [((L "a"), (tcon (L "String") [])); ((L "b"), (tcon (L "String") []))]).
Proof. vm_compute. reflexivity. Qed.

(* src/ast/type_/mod.rs:305 *)
Example t_type__mod_list_of_tuples :
  type_annotation 0%N (L "List ( String, String )")
  = Ok (@nil N) (tcon (L "List") [(TypeTuple [(tcon (L "String") []); (tcon (L "String") [])])]).
Proof. vm_compute. reflexivity. Qed.

(* src/ast/type_/mod.rs:322 *)
Example t_type__mod_application :
  type_annotation 0%N (L "a -> b")
  = Ok (@nil N) (tapp (tvar (L "a")) (tvar (L "b"))).
Proof. vm_compute. reflexivity. Qed.

(* src/ast/type_/mod.rs:330 *)
Example t_type__mod_application_associativity :
  type_annotation 0%N (L "a -> b -> c")
  = Ok (@nil N) (tapp (tvar (L "a")) (tapp (tvar (L "b")) (tvar (L "c")))).
Proof. vm_compute. reflexivity. Qed.

(* src/ast/type_/mod.rs:338 *)
Example t_type__mod_application_parens :
  type_annotation 0%N (L "(a -> b) -> c")
  = Ok (@nil N) (tapp (tapp (tvar (L "a")) (tvar (L "b"))) (tvar (L "c"))).
Proof. vm_compute. reflexivity. Qed.

(* src/ast/type_/mod.rs:346 *)
Example t_type__mod_qualified_types :
  type_annotation 0%N (L "Html.App Msg")
  = Ok (@nil N) (TypeConstructor [(L "Html"); (L "App")] [(TypeConstructor [(L "Msg")] [])]).
Proof. vm_compute. reflexivity. Qed.

(* src/ast/type_/mod.rs:360 *)
Example t_type__mod_multi_line_type :
  type_annotation 0%N [67; 115; 115; 77; 111; 100; 117; 108; 101; 115; 46; 72; 101; 108; 112; 101; 114; 115; 10; 32; 32; 32; 32; 32; 32; 32; 32; 123; 32; 97; 32; 58; 32; 83; 116; 114; 105; 110; 103; 10; 32; 32; 32; 32; 32; 32; 32; 32; 44; 32; 98; 32; 58; 32; 83; 116; 114; 105; 110; 103; 10; 32; 32; 32; 32; 32; 32; 32; 32; 125; 10; 32; 32; 32; 32; 32; 32; 32; 32; 109; 115; 103]%N
  = Ok (@nil N) (TypeConstructor [(L "CssModules"); (L "Helpers")] [(TypeRecord [((L "a"), (TypeConstructor [(L "String")] [])); ((L "b"), (TypeConstructor [(L "String")] []))]); (TypeVariable (L "msg"))]).
Proof. vm_compute. reflexivity. Qed.

(* src/ast/type_/mod.rs:395 *)
Example t_type__mod_can_parse_simple_type_record_constructor :
  type_annotation 0%N (L "{ b | commonErrorName : a }")
  = Ok (@nil N) (TypeRecordConstructor (tvar (L "b")) [((L "commonErrorName"), (tvar (L "a")))]).
Proof. vm_compute. reflexivity. Qed.

(* src/ast/type_/mod.rs:409 *)
Example t_type__mod_can_parse_multi_line_type_record_constructor :
  type_annotation 0%N [123; 32; 98; 10; 32; 32; 32; 32; 32; 32; 32; 32; 124; 32; 99; 111; 109; 109; 111; 110; 69; 114; 114; 111; 114; 78; 97; 109; 101; 32; 58; 32; 97; 10; 32; 32; 32; 32; 32; 32; 32; 32; 44; 32; 99; 111; 109; 109; 111; 110; 69; 114; 114; 111; 114; 68; 101; 115; 99; 114; 105; 112; 116; 105; 111; 110; 32; 58; 32; 97; 10; 32; 32; 32; 32; 32; 32; 32; 32; 44; 32; 107; 112; 105; 69; 114; 114; 111; 114; 67; 97; 108; 99; 117; 108; 97; 116; 105; 111; 110; 84; 121; 112; 101; 32; 58; 32; 97; 10; 32; 32; 32; 32; 32; 32; 32; 32; 44; 32; 107; 112; 105; 69; 114; 114; 111; 114; 65; 103; 103; 114; 101; 103; 97; 116; 105; 111; 110; 84; 121; 112; 101; 32; 58; 32; 97; 10; 32; 32; 32; 32; 32; 125]%N
  = Ok (@nil N) (TypeRecordConstructor (tvar (L "b")) [((L "commonErrorName"), (tvar (L "a"))); ((L "commonErrorDescription"), (tvar (L "a"))); ((L "kpiErrorCalculationType"), (tvar (L "a"))); ((L "kpiErrorAggregationType"), (tvar (L "a")))]).
Proof. vm_compute. reflexivity. Qed.

(* src/ast/type_/mod.rs:438 *)
Example t_type__mod_can_parse_multi_line_type_record_constructor_in_function :
  type_annotation 0%N [40; 123; 32; 98; 10; 32; 32; 32; 32; 32; 32; 32; 32; 124; 32; 99; 111; 109; 109; 111; 110; 69; 114; 114; 111; 114; 78; 97; 109; 101; 32; 58; 32; 97; 10; 32; 32; 32; 32; 32; 32; 32; 32; 44; 32; 99; 111; 109; 109; 111; 110; 69; 114; 114; 111; 114; 68; 101; 115; 99; 114; 105; 112; 116; 105; 111; 110; 32; 58; 32; 97; 10; 32; 32; 32; 32; 32; 32; 32; 32; 44; 32; 107; 112; 105; 69; 114; 114; 111; 114; 67; 97; 108; 99; 117; 108; 97; 116; 105; 111; 110; 84; 121; 112; 101; 32; 58; 32; 97; 10; 32; 32; 32; 32; 32; 32; 32; 32; 44; 32; 107; 112; 105; 69; 114; 114; 111; 114; 65; 103; 103; 114; 101; 103; 97; 116; 105; 111; 110; 84; 121; 112; 101; 32; 58; 32; 97; 10; 32; 32; 32; 32; 32; 32; 125; 10; 32; 32; 32; 32; 32; 32; 45; 62; 32; 97; 10; 32; 32; 32; 32; 32; 41; 10; 32; 32; 32; 32; 32; 45; 62; 32; 83; 116; 114; 105; 110; 103]%N
  = Ok (@nil N) (tapp (tapp (TypeRecordConstructor (tvar (L "b")) [((L "commonErrorName"), (tvar (L "a"))); ((L "commonErrorDescription"), (tvar (L "a"))); ((L "kpiErrorCalculationType"), (tvar (L "a"))); ((L "kpiErrorAggregationType"), (tvar (L "a")))]) (tvar (L "a"))) (tcon (L "String") [])).
Proof. vm_compute. reflexivity. Qed.

(* src/ast/type_/mod.rs:476 *)
Example t_type__mod_multi_line_with_parens :
  type_annotation 0%N [76; 105; 115; 116; 10; 32; 32; 32; 32; 40; 123; 32; 118; 105; 101; 119; 82; 101; 112; 111; 114; 116; 80; 97; 103; 101; 32; 58; 32; 83; 116; 114; 105; 110; 103; 32; 125; 32; 45; 62; 32; 83; 116; 114; 105; 110; 103; 10; 32; 32; 32; 32; 41]%N
  = Ok (@nil N) (tcon (L "List") [(tapp (TypeRecord [((L "viewReportPage"), (tcon (L "String") []))]) (tcon (L "String") []))]).
Proof. vm_compute. reflexivity. Qed.

(* the files of examples/; BrowserElement.elm is in Limits.v *)
Definition file_of_lines (ls : list str) : str := concat (map (fun l => l ++ [10%N]) ls).
(* examples/Basic.elm *)
Example t_examples_basic :
  file (file_of_lines [L "module Basic exposing (..)"; []; L "import String"; []; []; L "a : Int"; L "a ="; L "    1"])
  = Ok [] [ModuleDeclaration [L "Basic"] AllExport; ImportStatement [L "String"] None None;
           Function_ (mkFunc (Some (mkSig (L "a") (TypeConstructor [L "Int"] []))) (mkDef (L "a") [] (Integer (L "1"))))].
Proof. vm_compute. reflexivity. Qed.
(* examples/Lists.elm *)
Example t_examples_lists :
  exists f, file (file_of_lines [L "module Lists exposing (..)"; []; L "isListLengthFour : (List a) -> Bool";
    L "isListLengthFour list ="; L "  case List.length list of"; L "    4 -> True"; L "    _ -> False"])
  = Ok [] [ModuleDeclaration [L "Lists"] AllExport; Function_ f].
Proof. eexists. vm_compute. reflexivity. Qed.
(* examples/MutateRecord.elm *)
Example t_examples_mutate_record :
  exists a f, file (file_of_lines [L "module MutateRecord exposing (..)"; []; L "type alias Model ="; L "  { name: String"; L "  }"; [];
    L "renameToSteve : Model -> Model"; L "renameToSteve model ="; L "  { model | name = ""Steve"" }"])
  = Ok [] [ModuleDeclaration [L "MutateRecord"] AllExport; a; Function_ f].
Proof. do 2 eexists. vm_compute. reflexivity. Qed.
