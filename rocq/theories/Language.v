(** * The language

    A complete description of the texts that are read and of the syntax trees
    they are read as, without reference to the parser.  It is a set of rules
    for relations [T] (types), [E] (expressions), [S] (statements) and [F]
    (files): [E i s e r] says that at indentation [i] the text [s] starts with
    the expression [e] and that [r] is the rest of it.  The rules mention [T] and
    [E] again for the parts of a phrase, also negatively ("and no further
    argument follows"), so they are equations to be solved rather than an
    inductive definition.  Properties15.v shows that they have exactly one
    solution, the parser.

    Blank space comes in the following kinds (Spec.v):
    [lay_gt i t j], [lay_ge i t j], [lay_eq i t j]: spaces, line feeds and line
    comments; if there is a line feed, the width [j] of the last line is
    greater than, not less than, equal to [i].  [olay]: the same as [lay_ge], or
    nothing.  [blanks]: any of space, tab, line feed, carriage return.
    [spaces1]: spaces.  [tabs1]: spaces and tabs.  [spnl1]: spaces and line
    feeds. *)
From Verif Require Import Base Ast Spec Grammar Follow Render.

(** ** Repetition *)

(** [items sepR itemR s l r]: the text [s] consists of the items [l], each after a
    separator, and of [r] *)
Inductive items {A} (sepR : str -> Prop) (itemR : str -> A -> str -> Prop) : str -> list A -> str -> Prop :=
| items_nil r : items sepR itemR r [] r
| items_cons t s x s' l r : sepR t -> itemR s x s' -> items sepR itemR s' l r ->
    items sepR itemR (t ++ s) (x :: l) r.
(** no separator with a further item follows *)
Definition no_item {A} (sepR : str -> Prop) (itemR : str -> A -> str -> Prop) (r : str) : Prop :=
  forall t s x r', r = t ++ s -> sepR t -> ~ itemR s x r'.

(** ** Separators *)

Definition nothing (t : str) : Prop := t = [].
Definition dot (t : str) : Prop := t = L ".".
Definition just_comma (t : str) : Prop := t = L ",".
(** a comma with optional layout on both sides *)
Definition comma (i : N) (t : str) : Prop :=
  exists t1 t2, t = t1 ++ L "," ++ t2 /\ olay i t1 /\ olay i t2.
Definition arrow (t : str) : Prop :=
  exists b1 b2, t = b1 ++ L "->" ++ b2 /\ spnl1 b1 /\ spnl1 b2.
(** a vertical bar between constructors *)
Definition bar (m : N) (t : str) : Prop :=
  exists t1 j b, t = t1 ++ L "|" ++ b /\ lay_ge m t1 j /\ spaces1 b.
(** a new line with exactly [m] spaces, or blanks on the same line *)
Definition same_column (m : N) (t : str) : Prop := exists j, lay_eq m t j.
(** a new line with more than [i] spaces, or blanks on the same line *)
Definition beyond (i : N) (t : str) : Prop := exists j, lay_gt i t j.

(** ** Names *)

Definition lower_at (s n r : str) : Prop := s = n ++ r /\ lower_name n /\ ends_lower n r.
Definition dotted_at (s : str) (q : list str) (r : str) : Prop :=
  s = dotted q ++ r /\ qualified q /\ ends_dotted r.
Definition type_variable_at (s n r : str) : Prop :=
  s = n ++ r /\ type_var_name n /\ ends is_tyvar_char r.

(** ** Types *)

(** [t0 -> (t1 -> (t2 ...))] *)
Fixpoint arrow_right (a : type_ast) (l : list type_ast) : type_ast :=
  match l with
  | [] => a
  | b :: l' => TypeApplication a (arrow_right b l')
  end.

Section Types.
  Variable T : N -> str -> type_ast -> str -> Prop.

  (** a type, or types joined by arrows *)
  Definition annotation_rule (i : N) (s : str) (t : type_ast) (r : str) : Prop :=
    exists a s1 l, T i s a s1 /\ items arrow (T i) s1 l r /\ no_item arrow (T i) r /\
      t = arrow_right a l.
  (** the same with at least one arrow *)
  Definition function_type_rule (i : N) (s : str) (t : type_ast) (r : str) : Prop :=
    exists a s1 b l, T i s a s1 /\ items arrow (T i) s1 (b :: l) r /\ no_item arrow (T i) r /\
      t = arrow_right a (b :: l).

  (** [name : type] *)
  Definition type_field_rule (i : N) (s : str) (f : str * type_ast) (r : str) : Prop :=
    exists t1 t2 s1, s = fst f ++ t1 ++ L ":" ++ t2 ++ s1 /\ lower_name (fst f) /\
      olay i t1 /\ olay i t2 /\ annotation_rule i s1 (snd f) r.

  (** what may follow an opening brace *)
  Definition type_record_rule (i : N) (s : str) (t : type_ast) (r : str) : Prop :=
    (exists t1, s = t1 ++ L "}" ++ r /\ olay i t1 /\ t = TypeRecord []) \/
    (exists t1 s1 f s2 fs t2, s = t1 ++ s1 /\ olay i t1 /\ type_field_rule i s1 f s2 /\
       items (comma i) (type_field_rule i) s2 fs (t2 ++ L "}" ++ r) /\ olay i t2 /\ t = TypeRecord (f :: fs)) \/
    (exists t1 j1 n t2 j2 t3 j3 s1 f s2 fs t4 j4,
       s = t1 ++ n ++ t2 ++ L "|" ++ t3 ++ s1 /\ lay_ge i t1 j1 /\ type_var_name n /\
       lay_ge i t2 j2 /\ lay_ge i t3 j3 /\ type_field_rule i s1 f s2 /\
       items (comma i) (type_field_rule i) s2 fs (t4 ++ L "}" ++ r) /\ lay_ge i t4 j4 /\
       t = TypeRecordConstructor (TypeVariable n) (f :: fs)).

  (** what may follow an opening parenthesis: only function types are
      parenthesised, anything else is a tuple *)
  Definition type_paren_rule (i : N) (s : str) (t : type_ast) (r : str) : Prop :=
    (exists t1, s = t1 ++ L ")" ++ r /\ olay i t1 /\ t = TypeTuple []) \/
    (exists t1 s1 x s2 xs t2, s = t1 ++ s1 /\ olay i t1 /\ T i s1 x s2 /\
       items (comma i) (T i) s2 xs (t2 ++ L ")" ++ r) /\ olay i t2 /\ t = TypeTuple (x :: xs)) \/
    (exists t1 s1 t2, s = t1 ++ s1 /\ olay i t1 /\ function_type_rule i s1 t (t2 ++ L ")" ++ r) /\ olay i t2).

  Definition simple_type_rule (i : N) (s : str) (t : type_ast) (r : str) : Prop :=
    (exists n, type_variable_at s n r /\ t = TypeVariable n) \/
    (exists s', s = L "{" ++ s' /\ type_record_rule i s' t r) \/
    (exists s', s = L "(" ++ s' /\ type_paren_rule i s' t r).

  (** an argument of a type constructor; its column is the indentation for its parts *)
  Definition argument_rule (i : N) (s : str) (t : type_ast) (r : str) : Prop :=
    exists t1 j s', s = t1 ++ s' /\ lay_gt i t1 j /\
      ((exists q, dotted_at s' q r /\ t = TypeConstructor q []) \/ simple_type_rule j s' t r).

  Definition constructed_rule (i : N) (s : str) (t : type_ast) (r : str) : Prop :=
    exists q s1 ts, dotted_at s q s1 /\ items nothing (argument_rule i) s1 ts r /\
      no_item nothing (argument_rule i) r /\ t = TypeConstructor q ts.

  (** *** the rule for types *)
  Definition type_rule (i : N) (s : str) (t : type_ast) (r : str) : Prop :=
    constructed_rule i s t r \/ simple_type_rule i s t r.
End Types.

(** ** Expressions *)

(** a literal; the forms exclude each other *)
Definition literal (s : str) (e : expr) (r : str) : Prop :=
  (exists n, e = Integer n /\ s = n ++ r /\ integer_text n /\ ends_integer r) \/
  (exists n, e = Float n /\ s = n ++ r /\ float_text n /\ ends is_dec r) \/
  (exists c, e = String_ c /\ multi_at s r c) \/
  (exists c, e = String_ c /\ no_multi s /\ s = quote :: c ++ quote :: r /\ string_content c) \/
  (exists w c, e = Character c /\ s = squote :: w ++ squote :: r /\ char_content w c).

Definition with_fields (v : expr) (fs : list str) : expr :=
  match fs with [] => v | _ => Access v fs end.

(** a name between blanks, in the short form [{ a, b }] *)
Definition bare_name (s : str) (f : str * expr) (r : str) : Prop :=
  exists b1 b2, s = b1 ++ fst f ++ b2 ++ r /\ blanks b1 /\ lower_name (fst f) /\ blanks b2 /\
    ends is_blank r /\ (b2 = [] -> ends_lower (fst f) r) /\ snd f = Variable_ [fst f].
Definition bare_record (s : str) (e : expr) (r : str) : Prop :=
  exists f s1 fs, bare_name s f s1 /\ items just_comma bare_name s1 fs (L "}" ++ r) /\
    e = Record_ (f :: fs).

Section Expressions.
  Variable T : N -> str -> type_ast -> str -> Prop.
  Variable E : N -> str -> expr -> str -> Prop.

  (** *** Brackets *)

  (** what may follow an opening bracket *)
  Definition list_rule (i : N) (s : str) (e : expr) (r : str) : Prop :=
    (exists t, s = t ++ L "]" ++ r /\ olay i t /\ e = List_ []) \/
    (exists t1 s1 x s2 xs t2, s = t1 ++ s1 /\ olay i t1 /\ E i s1 x s2 /\
       items (comma i) (E i) s2 xs (t2 ++ L "]" ++ r) /\ olay i t2 /\ e = List_ (x :: xs)).

  (** an expression between blanks *)
  Definition padded_rule (i : N) (s : str) (e : expr) (r : str) : Prop :=
    exists b1 s1 b2, s = b1 ++ s1 /\ blanks b1 /\ E i s1 e (b2 ++ r) /\ blanks b2 /\ ends is_blank r.

  (** expressions between blanks, with commas and a closing parenthesis *)
  Definition tuple_rule (i : N) (s : str) (es : list expr) (r : str) : Prop :=
    (es = [] /\ s = L ")" ++ r) \/
    (exists x s1 xs, padded_rule i s x s1 /\ items just_comma (padded_rule i) s1 xs (L ")" ++ r) /\ es = x :: xs).

  (** what may follow an opening parenthesis, if it is not an operator or commas:
      a single expression without blanks around it stands for itself *)
  Definition paren_rule (i : N) (s : str) (e : expr) (r : str) : Prop :=
    E i s e (L ")" ++ r) \/
    (exists es, tuple_rule i s es r /\ (forall x, es = [x] -> ~ E i s x (L ")" ++ r)) /\ e = Tuple es).

  (** [name = expression] in a record *)
  Definition field_rule (i : N) (s : str) (f : str * expr) (r : str) : Prop :=
    exists t1 t2 s1, s = fst f ++ t1 ++ L "=" ++ t2 ++ s1 /\ lower_name (fst f) /\
      olay i t1 /\ olay i t2 /\ E i s1 (snd f) r.
  (** [name = expression] in an update *)
  Definition update_rule (i : N) (s : str) (f : str * expr) (r : str) : Prop :=
    exists b1 b2 s1, s = fst f ++ b1 ++ L "=" ++ b2 ++ s1 /\ lower_name (fst f) /\
      blanks b1 /\ blanks b2 /\ E i s1 (snd f) r.

  (** what may follow an opening brace *)
  Definition record_rule (i : N) (s : str) (e : expr) (r : str) : Prop :=
    (exists t, s = t ++ L "}" ++ r /\ olay i t /\ e = Record_ []) \/
    (exists t1 s1 f s2 fs t2, s = t1 ++ s1 /\ olay i t1 /\ field_rule i s1 f s2 /\
       items (comma i) (field_rule i) s2 fs (t2 ++ L "}" ++ r) /\ olay i t2 /\ e = Record_ (f :: fs)) \/
    bare_record s e r \/
    (exists t1 n t2 b s1 fs t3 j3, s = t1 ++ n ++ t2 ++ L "|" ++ b ++ s1 /\ olay i t1 /\ lower_name n /\
       olay i t2 /\ blanks b /\ ends is_blank s1 /\ lay_ge i t3 j3 /\
       ((fs = [] /\ s1 = t3 ++ L "}" ++ r) \/
        exists f fs' s2, fs = f :: fs' /\ update_rule i s1 f s2 /\
          items (comma i) (update_rule i) s2 fs' (t3 ++ L "}" ++ r)) /\
       e = RecordUpdate n fs).

  (** *** Terms *)
  Definition term_rule (i : N) (s : str) (e : expr) (r : str) : Prop :=
    (exists v s1 fs, RVar v s s1 /\ items dot lower_at s1 fs r /\ no_item dot lower_at r /\
       e = with_fields v fs) \/
    (exists s' n, s = L "." ++ s' /\ lower_at s' n r /\ e = AccessFunction n) \/
    literal s e r \/
    (exists s', s = L "(" ++ s' /\ paren_rule i s' e r) \/
    (exists s', s = L "[" ++ s' /\ list_rule i s' e r) \/
    (exists s', s = L "{" ++ s' /\ record_rule i s' e r).

  (** *** Applications and operators *)
  Definition application_rule (i : N) (s : str) (e : expr) (r : str) : Prop :=
    exists f s1 xs, term_rule i s f s1 /\ items (beyond i) (term_rule i) s1 xs r /\
      no_item (beyond i) (term_rule i) r /\ e = fold_left Application xs f.
  Definition operation_rule (i : N) (s : str) (o : str) (e : expr) (r : str) : Prop :=
    exists t j b s', s = t ++ o ++ b ++ s' /\ lay_ge i t j /\ infix_operator o /\ blanks1 b /\ E i s' e r.

  (** *** Functions *)
  Definition signature_rule (i : N) (s : str) (sg : function_signature_ast) (r : str) : Prop :=
    exists n b t j s' ty, RName n s (b ++ L ":" ++ t ++ s') /\ spaces1 b /\ lay_gt i t j /\
      annotation_rule T j s' ty r /\ sg = mkSig n ty.
  Definition definition_rule (i : N) (s : str) (d : func_def) (r : str) : Prop :=
    exists n s1 args b t j s' e, RName n s s1 /\
      items spaces1 (term_rule i) s1 args (b ++ L "=" ++ t ++ s') /\ spaces1 b /\ lay_gt i t j /\
      E j s' e r /\ d = mkDef n args e.
  (** the definition begins the line after its signature, in the same column (modulo [2^32]) *)
  Definition function_rule (i : N) (s : str) (f : func) (r : str) : Prop :=
    (exists d, definition_rule i s d r /\ f = mkFunc None d) \/
    (exists sg b s' d, signature_rule i s sg ([newline] ++ b ++ s') /\ all_spaces b = true /\
       (N.of_nat (length b) mod 2 ^ 32 = i)%N /\ definition_rule i s' d r /\ f = mkFunc (Some sg) d).

  (** *** Keywords *)

  (** the pattern of a let binding: here even a single expression in parentheses is a tuple *)
  Definition target_rule (i : N) (s : str) (e : expr) (r : str) : Prop :=
    RVar e s r \/
    (exists s', s = L "[" ++ s' /\ list_rule i s' e r) \/
    (exists s' es, s = L "(" ++ s' /\ tuple_rule i s' es r /\ e = Tuple es) \/
    (exists s', s = L "{" ++ s' /\ ((s' = L "}" ++ r /\ e = Record_ []) \/ bare_record s' e r)).
  Definition binding_rule (m : N) (s : str) (x : let_entry) (r : str) : Prop :=
    exists p t1 j1 t2 j2 s' e, target_rule m s p (t1 ++ L "=" ++ t2 ++ s') /\
      lay_ge m t1 j1 /\ lay_ge m t2 j2 /\ E j2 s' e r /\ x = LetBinding p e.
  Definition entry_rule (m : N) (s : str) (x : let_entry) (r : str) : Prop :=
    binding_rule m s x r \/
    ((forall x' r', ~ binding_rule m s x' r') /\ exists f, function_rule m s f r /\ x = LetFunction f).
  Definition let_rule (i : N) (s : str) (e : expr) (r : str) : Prop :=
    exists t1 m s1 x s2 es t2 j2 t3 j3 s3 b,
      s = t1 ++ s1 /\ lay_ge i t1 m /\
      entry_rule m s1 x s2 /\ items (same_column m) (entry_rule m) s2 es (t2 ++ L "in" ++ t3 ++ s3) /\
      lay_ge i t2 j2 /\ lay_ge i t3 j3 /\ E i s3 b r /\ e = Let_ (x :: es) b.

  Definition branch_rule (m : N) (s : str) (b : expr * expr) (r : str) : Prop :=
    exists t1 j1 t2 j2 s', E m s (fst b) (t1 ++ L "->" ++ t2 ++ s') /\
      lay_ge m t1 j1 /\ lay_ge m t2 j2 /\ E j2 s' (snd b) r.
  Definition case_rule (i : N) (s : str) (e : expr) (r : str) : Prop :=
    exists t1 j1 s1 x t2 j2 t3 m s2 b s3 bs,
      s = t1 ++ s1 /\ lay_ge i t1 j1 /\ E i s1 x (t2 ++ L "of" ++ t3 ++ s2) /\
      lay_ge i t2 j2 /\ lay_ge i t3 m /\
      branch_rule m s2 b s3 /\ items (same_column m) (branch_rule m) s3 bs r /\
      no_item (same_column m) (branch_rule m) r /\ e = Case_ x (b :: bs).

  Definition if_rule (i : N) (s : str) (e : expr) (r : str) : Prop :=
    exists t1 j1 s1 c t2 j2 t3 j3 s2 a t4 j4 t5 j5 s3 b,
      s = t1 ++ s1 /\ lay_ge i t1 j1 /\
      E i s1 c (t2 ++ L "then" ++ t3 ++ s2) /\ lay_ge i t2 j2 /\ lay_ge i t3 j3 /\
      E j3 s2 a (t4 ++ L "else" ++ t5 ++ s3) /\ lay_ge i t4 j4 /\ lay_ge i t5 j5 /\
      E j5 s3 b r /\ e = If_ c a b.

  Definition lambda_rule (i : N) (s : str) (e : expr) (r : str) : Prop :=
    exists x s1 xs t1 j1 t2 j2 s2 b,
      term_rule i s x s1 /\ items tabs1 (term_rule i) s1 xs (t1 ++ L "->" ++ t2 ++ s2) /\
      lay_ge i t1 j1 /\ lay_ge i t2 j2 /\ E j2 s2 b r /\ e = Lambda (x :: xs) b.

  (** *** the rule for expressions *)
  Definition expr_rule (i : N) (s : str) (e : expr) (r : str) : Prop :=
    (application_rule i s e r /\ forall o e2 r', ~ operation_rule i r o e2 r') \/
    (exists a r1 o e2, application_rule i s a r1 /\ operation_rule i r1 o e2 r /\ e = BinOp (Variable_ [o]) a e2) \/
    (exists s', s = L "\" ++ s' /\ lambda_rule i s' e r) \/
    (exists s', s = L "if" ++ s' /\ if_rule i s' e r) \/
    (exists s', s = L "case" ++ s' /\ case_rule i s' e r) \/
    (exists s', s = L "let" ++ s' /\ let_rule i s' e r).
End Expressions.

(** ** Statements and files *)

Definition alias_text (s : str) (n r : str) : Prop :=
  exists b1 b2, s = b1 ++ L "as" ++ b2 ++ n ++ r /\ spaces1 b1 /\ spaces1 b2 /\ upper_name n /\
    ends is_name_char r.
Definition exposing_text (s : str) (e : export_set) (r : str) : Prop :=
  exists b1 b2 s', s = b1 ++ L "exposing" ++ b2 ++ s' /\ spaces1 b1 /\ spaces1 b2 /\ RExports e s' r.
(** an optional part: present, or absent because the text does not have it *)
Definition optional {A} (P : str -> A -> str -> Prop) (s : str) (o : option A) (r : str) : Prop :=
  match o with
  | Some a => P s a r
  | None => r = s /\ forall a r', ~ P s a r'
  end.
Section Statements.
  Variable T : N -> str -> type_ast -> str -> Prop.
  Variable E : N -> str -> expr -> str -> Prop.

  Definition statement_rule (s : str) (st : statement_ast) (r : str) : Prop :=
    match st with
    | ModuleDeclaration q e =>
        exists t1 t2 t3 s', lay0 t1 /\ lay0 t2 /\ lay0 t3 /\ qualified q /\ RExports e s' r /\
          s = L "module" ++ t1 ++ dotted q ++ t2 ++ L "exposing" ++ t3 ++ s'
    | PortModuleDeclaration q e =>
        exists t0 t1 t2 t3 s', lay0 t0 /\ lay0 t1 /\ lay0 t2 /\ lay0 t3 /\ qualified q /\ RExports e s' r /\
          s = L "port" ++ t0 ++ L "module" ++ t1 ++ dotted q ++ t2 ++ L "exposing" ++ t3 ++ s'
    | EffectModuleDeclaration q fs e =>
        exists t0 t1 t2 t3 sf t4 t5 s', lay0 t0 /\ lay0 t1 /\ lay0 t2 /\ lay0 t3 /\ lay0 t4 /\ lay0 t5 /\
          qualified q /\ REffectFields fs sf (L "}" ++ t4 ++ L "exposing" ++ t5 ++ s') /\ RExports e s' r /\
          s = L "effect" ++ t0 ++ L "module" ++ t1 ++ dotted q ++ t2 ++ L "where" ++ t3 ++ L "{" ++ sf
    | ImportStatement q al ex =>
        exists b s1 s2, s = L "import" ++ b ++ dotted q ++ s1 /\ spaces1 b /\ qualified q /\ ends_dotted s1 /\
          optional alias_text s1 al s2 /\ optional exposing_text s2 ex r
    | TypeAliasDeclaration n ty =>
        exists b1 b2 s1 b3 t j s2, s = L "type" ++ b1 ++ L "alias" ++ b2 ++ s1 /\ spaces1 b1 /\ spaces1 b2 /\
          T 0%N s1 n (b3 ++ L "=" ++ t ++ s2) /\ spaces1 b3 /\ lay_ge 1 t j /\ annotation_rule T 1 s2 ty r
    | TypeDeclaration n cs =>
        exists b s1 t1 m t2 j s2 c cs' s3, s = L "type" ++ b ++ s1 /\ spaces1 b /\
          T 0%N s1 n (t1 ++ L "=" ++ t2 ++ s2) /\ lay_gt 0 t1 m /\ lay_ge m t2 j /\
          constructed_rule T m s2 c s3 /\ items (bar m) (constructed_rule T m) s3 cs' r /\
          no_item (bar m) (constructed_rule T m) r /\ cs = c :: cs'
    | PortTypeDeclaration n ty =>
        exists b1 b2 t j s', s = L "port" ++ b1 ++ n ++ b2 ++ L ":" ++ t ++ s' /\ spaces1 b1 /\ lower_name n /\
          spaces1 b2 /\ lay_gt 0 t j /\ annotation_rule T j s' ty r
    | PortDeclaration n args e =>
        exists b1 s1 b2 t j s', s = L "port" ++ b1 ++ n ++ s1 /\ spaces1 b1 /\ lower_name n /\ ends_lower n s1 /\
          items spaces1 lower_at s1 args (b2 ++ L "=" ++ t ++ s') /\ spaces1 b2 /\ lay_gt 0 t j /\ E j s' e r
    | Function_ f => function_rule T E 0 s f r
    | InfixDeclaration a v n =>
        (exists w b d b', s = w ++ b ++ d ++ b' ++ n ++ r /\ infix_word a w /\ spaces1 b /\ digits1 d /\
           spaces1 b' /\ v = dec_value d /\ (v < 2 ^ 63)%N /\
           ((lower_name n /\ ends_lower n r) \/ (operator_name n /\ ends is_op_char r))) /\
        forall f r', ~ function_rule T E 0 s f r'
    | Comment c =>
        (s = L "--" ++ c ++ r /\ forallb not_newline c = true /\ line_end r) \/
        (s = L "{-" ++ c ++ L "-}" ++ r /\ ~ exists a b, c = a ++ L "-}" ++ b)
    end.
End Statements.

(** statements with at least one blank between them; the blanks around them are free *)
Definition file_rule (S : str -> statement_ast -> str -> Prop) (s : str) (sts : list statement_ast) : Prop :=
  exists b s1 st s2 sts' b', s = b ++ s1 /\ blanks b /\ ends is_blank s1 /\ S s1 st s2 /\
    items (fun t => blanks1 t) (fun s x r => ends is_blank s /\ S s x r) s2 sts' b' /\ blanks b' /\
    sts = st :: sts'.

(** ** Solutions *)
Record language (T : N -> str -> type_ast -> str -> Prop) (E : N -> str -> expr -> str -> Prop)
    (S : str -> statement_ast -> str -> Prop) (F : str -> list statement_ast -> Prop) : Prop := {
  language_types : forall i s t r, T i s t r <-> type_rule T i s t r;
  language_expressions : forall i s e r, E i s e r <-> expr_rule T E i s e r;
  language_statements : forall s st r, S s st r <-> statement_rule T E s st r;
  language_files : forall s sts, F s sts <-> file_rule S s sts
}.
