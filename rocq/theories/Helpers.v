(** * src/ast/helpers.rs *)
From Verif Require Import Base Nom Regex.

(** src/ast/helpers.rs:11-14 *)
Definition RESERVED_WORDS : list str :=
  [L "module"; L "where"; L "import"; L "as"; L "exposing"; L "type"; L "alias";
   L "port"; L "if"; L "then"; L "else"; L "let"; L "in"; L "case"; L "of"].

(** src/ast/helpers.rs:16 *)
Definition RESERVED_OPERATORS : list str :=
  [L "="; L "."; L ".."; L "->"; L "--"; L "|"; L ":"].

(** The regular expression ^[a-z][a-zA-Z0-9_]* of src/ast/helpers.rs:22; the capturing
    group does not matter for find_iter. *)
Definition re_lo_name : re :=
  RSeq RBegin
    (RSeq (RClass false [(C "a", C "z")])
          (RStar (RClass false [(C "a", C "z"); (C "A", C "Z"); (C "0", C "9"); (C "_", C "_")]))).

(** src/ast/helpers.rs:18-34 *)
Definition lo_name : parser str :=
  tag (L "_")
  <|> map_res (fun name => if mem_str name RESERVED_WORDS then None else Some name)
              (map_index0 (re_matches re_lo_name)).

(** src/ast/helpers.rs:36-38 *)
Definition function_name : parser str := map_ (fun s => s) lo_name.

(** ^[A-Z][a-zA-Z0-9_]* of src/ast/helpers.rs:48 *)
Definition re_up_name : re :=
  RSeq RBegin
    (RSeq (RClass false [(C "A", C "Z")])
          (RStar (RClass false [(C "a", C "z"); (C "A", C "Z"); (C "0", C "9"); (C "_", C "_")]))).

(** src/ast/helpers.rs:47-49 *)
Definition up_name : parser str := map_index0 (re_matches re_up_name).

(** src/ast/helpers.rs:40-45 *)
Definition module_name : parser (list str) :=
  separated_nonempty_list (char_ (C ".")) up_name.

(** The class of ^([-+\\-\\/*=.$<>:&|^?%#@~!]+), src/ast/helpers.rs:54: in the raw
    string, [\\-\\] is the range from backslash (code 92) to backslash. *)
Definition re_operator : re :=
  RSeq RBegin
    (RPlus (RClass false
      [(C "-", C "-"); (C "+", C "+"); (92, 92)%N; (C "/", C "/"); (C "*", C "*");
       (C "=", C "="); (C ".", C "."); (C "$", C "$"); (C "<", C "<"); (C ">", C ">");
       (C ":", C ":"); (C "&", C "&"); (C "|", C "|"); (C "^", C "^"); (C "?", C "?");
       (C "%", C "%"); (C "#", C "#"); (C "@", C "@"); (C "~", C "~"); (C "!", C "!")])).

(** src/ast/helpers.rs:51-64 *)
Definition operator : parser str :=
  map_res (fun op => if mem_str op RESERVED_OPERATORS then None else Some op)
          (map_index0 (re_matches re_operator)).

(** src/ast/helpers.rs:66-68 *)
Definition spaces : parser str := is_a [32%N].

(** src/ast/helpers.rs:70-72 *)
Definition spaces0 : parser str :=
  map_ (fun o => match o with Some c => c | None => [] end) (opt (is_a [32%N])).

(** src/ast/helpers.rs:74-76 *)
Definition spaces_and_newlines : parser str := is_a [32%N; 10%N].

(** ^.* of src/ast/helpers.rs:79 *)
Definition re_line : re := RSeq RBegin (RStar RDot).

(** src/ast/helpers.rs:78-80 *)
Definition single_line_comment : parser str :=
  map_index0 (preceded (tag (L "--")) (re_matches re_line)).

(** src/ast/helpers.rs:82-87 *)
Inductive IR := IR_EQ | IR_GT | IR_GTE.

(** src/ast/helpers.rs:89-94 *)
Inductive spaces_content := Spaces | CommentC | NewLineAndSpaces.

Definition is_newline_content (c : spaces_content) : bool :=
  match c with NewLineAndSpaces => true | _ => false end.

(** [s.len() as u32], src/ast/helpers.rs:106, 163: the cast wraps modulo 2^32. *)
Definition len_u32 (s : str) : N := (N.of_nat (length s) mod 4294967296)%N.

(** src/ast/helpers.rs:98-112, the repeated alternatives *)
Definition spaces_item (indentation : N) : parser (list (spaces_content * N)) :=
  value [(Spaces, indentation)] spaces
  <|> map_ (fun _ => [(CommentC, 0%N)]) single_line_comment
  <|> many1 (preceded (char_ 10%N)
        (map_ (fun s => (NewLineAndSpaces, len_u32 s)) spaces0
         <|> map_ (fun _ => (CommentC, 0%N)) single_line_comment)).

(** src/ast/helpers.rs:113-145, the closure *)
Definition check_indent (indentation : N) (ir : IR)
  (v : list (list (spaces_content * N))) : option N :=
  let '(_, new_indent) := last (last v []) (Spaces, 0%N) in
  let has_new_line := existsb (existsb (fun '(c, _) => is_newline_content c)) v in
  match ir with
  | IR_EQ => if negb has_new_line || (new_indent =? indentation)%N
             then Some new_indent else None
  | IR_GT => if negb has_new_line || (indentation <? new_indent)%N
             then Some new_indent else None
  | IR_GTE => if negb has_new_line || (indentation <=? new_indent)%N
              then Some new_indent else None
  end.

(** src/ast/helpers.rs:96-147 *)
Definition spaces_or_new_lines_and_indent (indentation : N) (ir : IR) : parser N :=
  map_res (check_indent indentation ir) (many1 (spaces_item indentation)).

(** src/ast/helpers.rs:149-156 *)
Definition opt_spaces_or_new_lines_and_indent (indentation : N) (ir : IR) : parser N :=
  map_ (fun v => match v with Some n => n | None => indentation end)
       (opt (spaces_or_new_lines_and_indent indentation ir)).

(** src/ast/helpers.rs:158-175 *)
Definition new_line_and_same_indent (indentation : N) : parser N :=
  map_res (fun n => if (n =? indentation)%N then Some n else None)
          (preceded (char_ 10%N) (map_ len_u32 spaces0)).
