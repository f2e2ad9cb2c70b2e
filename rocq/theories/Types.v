(** * src/ast/type_/mod.rs

    The parsers are mutually recursive through [type_].  Each is written with
    the recursive parser [T] as a parameter; [type_n n] ties the knot with a
    bound [n] on the nesting of calls and [type_] chooses a bound that is
    proved sufficient (TypesGood.v). *)
From Verif Require Import Base Nom Regex Ast Helpers.

(** ^[a-z][a-z1-9_]* of src/ast/type_/mod.rs:11 *)
Definition re_type_variable : re :=
  RSeq RBegin
    (RSeq (RClass false [(C "a", C "z")])
          (RStar (RClass false [(C "a", C "z"); (C "1", C "9"); (C "_", C "_")]))).

(** src/ast/type_/mod.rs:10-12 *)
Definition type_variable : parser type_ast :=
  map_ TypeVariable (map_index0 (re_matches re_type_variable)).

(** src/ast/type_/mod.rs:14-22 *)
Definition type_constant : parser type_ast :=
  map_ (fun v => TypeConstructor v [])
       (separated_nonempty_list (char_ (C ".")) up_name).

(** [opt!(call!(spaces_or_new_lines_and_indent, indentation, IR::GTE))], used
    throughout src/ast/type_/mod.rs, src/ast/expression/mod.rs and src/ast/statement/export.rs *)
Definition opt_sp (i : N) : parser (option N) :=
  opt (spaces_or_new_lines_and_indent i IR_GTE).

(** The separator [delimited!(opt sp, char!(','), opt sp)] of
    src/ast/type_/mod.rs:29-33 and 55-59, src/ast/expression/mod.rs:55-59 and 74-78 *)
Definition comma_sep (i : N) : parser char :=
  delimited (opt_sp i) (char_ (C ",")) (opt_sp i).

(** type_annotation's closure, src/ast/type_/mod.rs:145-167: pop the last two types and
    fold the others, from right to left, onto them. *)
Definition arrow_of_list (v : list type_ast) : option type_ast :=
  match v with
  | [] => None
  | [t] => Some t
  | _ => match rev v with
         | t2 :: t1 :: rest =>
             Some (fold_left (fun app entry => TypeApplication entry app) rest
                             (TypeApplication t1 t2))
         | _ => None
         end
  end.

Section WithT.
  Variable T : N -> parser type_ast.   (* the recursive parser [type_] *)

  (** src/ast/type_/mod.rs:139-169 *)
  Definition type_annotation_f (i : N) : parser type_ast :=
    map_res arrow_of_list
      (separated_nonempty_list
         (delimited spaces_and_newlines (tag (L "->")) spaces_and_newlines)
         (T i)).

  (** src/ast/type_/mod.rs:24-40 *)
  Definition type_tuple_f (i : N) : parser type_ast :=
    map_ TypeTuple
      (delimited
         (preceded (char_ (C "(")) (opt_sp i))
         (separated_list (comma_sep i) (T i))
         (terminated (opt_sp i) (char_ (C ")")))).

  (** src/ast/type_/mod.rs:42-51 *)
  Definition type_record_pair_f (i : N) : parser (str * type_ast) :=
    name <- lo_name ;;
    opt_sp i ;;;
    char_ (C ":") ;;;
    opt_sp i ;;;
    t <- type_annotation_f i ;;
    ret (name, t).

  (** src/ast/type_/mod.rs:53-62 *)
  Definition type_record_pairs_f (i : N) : parser (list (str * type_ast)) :=
    separated_list (comma_sep i) (type_record_pair_f i).

  (** src/ast/type_/mod.rs:64-79 *)
  Definition type_record_constructor_f (i : N) : parser type_ast :=
    delimited (char_ (C "{"))
      (spaces_or_new_lines_and_indent i IR_GTE ;;;
       var <- type_variable ;;
       spaces_or_new_lines_and_indent i IR_GTE ;;;
       char_ (C "|") ;;;
       spaces_or_new_lines_and_indent i IR_GTE ;;;
       record_pairs <- type_record_pairs_f i ;;
       spaces_or_new_lines_and_indent i IR_GTE ;;;
       ret (TypeRecordConstructor var record_pairs))
      (char_ (C "}")).

  (** src/ast/type_/mod.rs:81-90 *)
  Definition type_record_f (i : N) : parser type_ast :=
    delimited
      (preceded (char_ (C "{")) (opt_sp i))
      (map_ TypeRecord (type_record_pairs_f i))
      (terminated (opt_sp i) (char_ (C "}"))).

  (** The parenthesised annotation of src/ast/type_/mod.rs:99-103 and 131-135 *)
  Definition type_parens_f (i : N) : parser type_ast :=
    delimited
      (preceded (char_ (C "(")) (opt_sp i))
      (type_annotation_f i)
      (terminated (opt_sp i) (char_ (C ")"))).

  (** src/ast/type_/mod.rs:92-105 *)
  Definition type_parameter_f (i : N) : parser type_ast :=
    type_variable
    <|> type_constant
    <|> type_record_constructor_f i
    <|> type_record_f i
    <|> type_tuple_f i
    <|> type_parens_f i.

  (** src/ast/type_/mod.rs:107-122 *)
  Definition type_constructor_f (i : N) : parser type_ast :=
    first <- separated_nonempty_list (char_ (C ".")) up_name ;;
    second <- many0 (new_indent <- spaces_or_new_lines_and_indent i IR_GT ;;
                     t <- type_parameter_f new_indent ;;
                     ret t) ;;
    ret (TypeConstructor first second).

  (** src/ast/type_/mod.rs:124-137 *)
  Definition type_f (i : N) : parser type_ast :=
    type_constructor_f i
    <|> type_variable
    <|> type_record_constructor_f i
    <|> type_record_f i
    <|> type_tuple_f i
    <|> type_parens_f i.
End WithT.

(** The recursive knot. *)
Fixpoint type_n (n : nat) (i : N) (s : str) : res type_ast :=
  match n with
  | O => Abort OutOfFuel
  | S n' => type_f (type_n n') i s
  end.

(** src/ast/type_/mod.rs:124-137, type_: the recursion above with a bound that is never reached (C01, C29) *)
Definition type_ (i : N) : parser type_ast := fun s => type_n (S (length s)) i s.

Definition type_annotation (i : N) : parser type_ast := type_annotation_f type_ i.
Definition type_constructor (i : N) : parser type_ast := type_constructor_f type_ i.
