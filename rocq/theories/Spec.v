(** * Vocabulary of the specifications

    Nothing here refers to the parser.  These definitions are what the
    statements of the properties are written with. *)
From Verif Require Import Base.

Definition between (lo c hi : char) : bool := (lo <=? c)%N && (c <=? hi)%N.

(** a..z, A..Z, 0..9 *)
Definition is_lower (c : char) : bool := between (C "a") c (C "z").
Definition is_upper (c : char) : bool := between (C "A") c (C "Z").
Definition is_dec (c : char) : bool := between (C "0") c (C "9").

(** letters, digits and underscore: what may follow the first letter of a name *)
Definition is_name_char (c : char) : bool :=
  is_lower c || is_upper c || is_dec c || (c =? C "_")%N.

(** what may follow the first letter of a type variable (src/ast/type_/mod.rs:11):
    no capital letter and no zero *)
Definition is_tyvar_char (c : char) : bool :=
  is_lower c || between (C "1") c (C "9") || (c =? C "_")%N.

(** the twenty operator symbols *)
Definition op_chars : str := L "-+\/*=.$<>:&|^?%#@~!".
Definition is_op_char (c : char) : bool := mem_char c op_chars.

Definition newline : char := 10%N.
Definition space : char := 32%N.
Definition quote : char := 34%N.
Definition squote : char := 39%N.
Definition backslash : char := 92%N.

(** space, tab, carriage return, line feed *)
Definition is_blank (c : char) : bool := mem_char c [32; 9; 13; 10]%N.

(** [r] does not go on with a character satisfying [P]. *)
Definition ends (P : char -> bool) (r : str) : Prop :=
  match r with [] => True | c :: _ => P c = false end.

(** [w] is the longest prefix of [s] made of characters satisfying [P], and [r]
    is what follows it. *)
Definition longest (P : char -> bool) (w s r : str) : Prop :=
  s = w ++ r /\ forallb P w = true /\ ends P r.

(** The fifteen reserved words and the seven reserved operators. *)
Definition reserved_words : list str :=
  [L "module"; L "where"; L "import"; L "as"; L "exposing"; L "type"; L "alias";
   L "port"; L "if"; L "then"; L "else"; L "let"; L "in"; L "case"; L "of"].
Definition reserved_operators : list str :=
  [L "="; L "."; L ".."; L "->"; L "--"; L "|"; L ":"].

(** Lexical validity of the names of an AST. *)
Definition lower_name (n : str) : Prop :=
  n = L "_" \/
  (exists c t, n = c :: t /\ is_lower c = true /\ forallb is_name_char t = true)
  /\ ~ In n reserved_words.
Definition upper_name (n : str) : Prop :=
  exists c t, n = c :: t /\ is_upper c = true /\ forallb is_name_char t = true.
Definition operator_name (n : str) : Prop :=
  n <> [] /\ forallb is_op_char n = true /\ ~ In n reserved_operators.
Definition type_var_name (n : str) : Prop :=
  exists c t, n = c :: t /\ is_lower c = true /\ forallb is_tyvar_char t = true.

(** ** Layout

    Blank space between tokens ("trivia") is a sequence of spaces, line feeds
    and comments that run from [--] to the end of the line. *)
Definition not_newline (c : char) : bool := negb (c =? newline)%N.
Definition all_spaces (t : str) : bool := forallb (fun c => (c =? space)%N) t.
Definition has_newline (t : str) : bool := existsb (fun c => (c =? newline)%N) t.

Definition line_end (t : str) : Prop :=
  match t with [] => True | c :: _ => c = newline end.

Inductive trivia : str -> Prop :=
| trivia_nil : trivia []
| trivia_space t : trivia t -> trivia (space :: t)
| trivia_newline t : trivia t -> trivia (newline :: t)
| trivia_comment c t :
    forallb not_newline c = true -> line_end t -> trivia t ->
    trivia (L "--" ++ c ++ t).

(** What follows the last line feed (everything if there is none). *)
Fixpoint last_line (t : str) : str :=
  match t with
  | [] => []
  | c :: t' => if has_newline t' then last_line t'
               else if (c =? newline)%N then t' else t
  end.

(** [r] does not start with a piece of trivia. *)
Definition no_trivia (r : str) : Prop :=
  match r with
  | [] => True
  | c :: r' => c <> space /\ c <> newline /\
               ~ (c = C "-" /\ exists r'', r' = C "-" :: r'')
  end.

(** [t] is the longest trivia at the head of [s]; [r] is what follows. *)
Definition trivia_run (s t r : str) : Prop :=
  s = t ++ r /\ trivia t /\ no_trivia r /\ (all_spaces (last_line t) = true \/ r = []).

(** The column at which the text after the trivia stands: [i] (the current
    indentation) if there was no line feed, else the number of spaces after the
    last line feed, kept in 32 bits; 0 if the last line holds a comment. *)
Definition width (i : N) (t : str) : N :=
  if all_spaces (last_line t)
  then if has_newline t then (N.of_nat (length (last_line t)) mod 2 ^ 32)%N else i
  else 0%N.

(** The last line of [t] is not a comment: a token may follow. *)
Definition closed (t : str) : Prop := all_spaces (last_line t) = true.

(** [lay R i t j]: the trivia [t], met where the current indentation is [i],
    is acceptable if a column in relation [R] to [i] is wanted, and leads to
    column [j].  Trivia without line feed is always acceptable. *)
Definition lay (R : N -> N -> Prop) (i : N) (t : str) (j : N) : Prop :=
  trivia t /\ closed t /\ t <> [] /\
  (has_newline t = true -> R (width i t) i) /\ j = width i t.
Definition lay_gt := lay N.gt.
Definition lay_ge := lay N.ge.
Definition lay_eq := lay eq.
(** optional layout *)
Definition olay (i : N) (t : str) : Prop := t = [] \/ exists j, lay_ge i t j.

(** Other blank space *)
Definition blanks (b : str) : Prop := forallb is_blank b = true.
Definition blanks1 (b : str) : Prop := b <> [] /\ blanks b.
Definition spaces1 (b : str) : Prop := b <> [] /\ all_spaces b = true.
Definition ospaces (b : str) : Prop := all_spaces b = true.
Definition is_space_or_newline (c : char) : bool := (c =? space)%N || (c =? newline)%N.
Definition spnl1 (b : str) : Prop := b <> [] /\ forallb is_space_or_newline b = true.
Definition ospnl (b : str) : Prop := forallb is_space_or_newline b = true.
Definition is_space_or_tab (c : char) : bool := (c =? space)%N || (c =? 9)%N.
Definition tabs1 (b : str) : Prop := b <> [] /\ forallb is_space_or_tab b = true.

(** ** Literals *)

(** The raw content of a single-line string literal, read from left to right:
    a backslash followed by a backslash or a quote is an escape; any other
    character except quote and line feed stands alone (also a backslash, if what
    follows it in the content does not make it an escape). *)
Inductive string_content : str -> Prop :=
| sc_nil : string_content []
| sc_escape c s : c = backslash \/ c = quote -> string_content s ->
                  string_content (backslash :: c :: s)
| sc_backslash c s : c <> backslash -> c <> quote -> string_content (c :: s) ->
                     string_content (backslash :: c :: s)
| sc_char c s : c <> backslash -> c <> quote -> c <> newline -> string_content s ->
                string_content (c :: s).

Definition no_quote (s : str) : Prop := ~ In quote s.

Definition sign_text (s : str) : Prop := s = [] \/ s = L "+" \/ s = L "-".
Definition digits1 (s : str) : Prop := s <> [] /\ forallb is_dec s = true.

Definition integer_text (s : str) : Prop :=
  exists sg d, s = sg ++ d /\ sign_text sg /\ digits1 d.
Definition float_text (s : str) : Prop :=
  exists sg d e, s = sg ++ d ++ L "." ++ e /\ sign_text sg /\ digits1 d /\ digits1 e.

(** the value of one hexadecimal digit *)
Definition hex_value (c : char) (v : N) : Prop :=
  (is_dec c = true /\ v = c - C "0")%N \/
  (between (C "a") c (C "f") = true /\ v = c - C "a" + 10)%N \/
  (between (C "A") c (C "F") = true /\ v = c - C "A" + 10)%N.

(** The content of a character literal and the character it stands for: any
    character stands for itself; backslash x and two hexadecimal digits (or a
    plus and one digit) stand for the character with that code. *)
Inductive char_content : str -> char -> Prop :=
| cc_self c : char_content [c] c
| cc_hex c d v w : hex_value c v -> hex_value d w ->
                   char_content [backslash; C "x"; c; d] (v * 16 + w)%N
| cc_plus d w : hex_value d w -> char_content [backslash; C "x"; C "+"; d] w.

(** ** Qualified names *)

Fixpoint join (sep : str) (l : list str) : str :=
  match l with
  | [] => []
  | [x] => x
  | x :: l' => x ++ sep ++ join sep l'
  end.

Definition qualified (q : list str) : Prop := q <> [] /\ Forall upper_name q.
Definition dotted (q : list str) : str := join (L ".") q.

(** An operator that may stand between two operands: a text starting with [--]
    would be a comment there. *)
Definition infix_operator (o : str) : Prop :=
  o = L "as" \/ (operator_name o /\ ~ exists o', o = L "--" ++ o').

(** The value of a decimal numeral *)
Definition dec_value (s : str) : N :=
  fold_left (fun acc c => acc * 10 + (c - C "0"))%N s 0%N.
