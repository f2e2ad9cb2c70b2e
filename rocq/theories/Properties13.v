(** * C51, C52 *)
From Verif Require Import Base Nom Ast Good Spec Helpers Types Expr Stmt Follow Render CompleteE CompleteX Language Keywords Decls.

(** ** C51: functions, exactly

    [RName n s r]: [s] begins with the lower-case name [n] or the operator [n]
    in parentheses, and [r] follows (Render.v, C08, C10).  [spaces1 b]: one or
    more spaces.  [lay_gt i t j]: blank space; a line feed in it leads to a column
    beyond [i] (Spec.v).  [items spaces1 (next_argument i) s l r]: terms [l], each
    after spaces (Language.v). *)
Theorem C51_signature : forall i s r sg, function_signature i s = Ok r sg <->
  exists n b t j s' ty, RName n s (b ++ L ":" ++ t ++ s') /\ spaces1 b /\ lay_gt i t j /\
    type_annotation j s' = Ok r ty /\ sg = mkSig n ty.
Proof. exact signature_iff. Qed.
Print Assumptions C51_signature.
Theorem C51_definition : forall i s r d, function_definition i s = Ok r d <->
  exists n s1 args b t j s' e, RName n s s1 /\
    items spaces1 (next_argument i) s1 args (b ++ L "=" ++ t ++ s') /\ spaces1 b /\ lay_gt i t j /\
    expression j s' = Ok r e /\ d = mkDef n args e.
Proof. exact definition_iff. Qed.
Print Assumptions C51_definition.
Theorem C51_function : forall i s r f, function i s = Ok r f <->
  (exists d, function_definition i s = Ok r d /\ f = mkFunc None d) \/
  (exists sg b s' d, function_signature i s = Ok ([newline] ++ b ++ s') sg /\ all_spaces b = true /\
    (N.of_nat (length b) mod 2 ^ 32 = i)%N /\ function_definition i s' = Ok r d /\ f = mkFunc (Some sg) d).
Proof. exact function_iff. Qed.
Print Assumptions C51_function.
Theorem C51_statement : forall s r f, statement s = Ok r (Function_ f) <-> function 0 s = Ok r f.
Proof. exact statement_function_iff. Qed.
Print Assumptions C51_statement.
(** The definition must begin the very next line, in the column of the
    signature: any other blank space between them, a blank line or a comment for
    instance, makes the function unreadable and, at the top of a file, the file
    rejected. *)
Theorem C51_next_line : forall i s t s' sg r d,
  function_signature i s = Ok (t ++ s') sg -> trivia t -> closed t -> function_definition i s' = Ok r d ->
  (exists r' f, function i s = Ok r' f) <->
  (exists b, t = newline :: b /\ all_spaces b = true) /\ width i t = i.
Proof. exact next_line. Qed.
Print Assumptions C51_next_line.
Theorem C51_rejected : forall s t s' sg r d,
  function_signature 0 s = Ok (t ++ s') sg -> trivia t -> closed t -> function_definition 0 s' = Ok r d ->
  (forall b, t = newline :: b -> all_spaces b = true -> width 0 t <> 0%N) -> file s = Err.
Proof. exact rejected_file. Qed.
Print Assumptions C51_rejected.
Example C51_instance :
  let sg := mkSig (L "f") (TypeConstructor [L "Int"] []) in
  let d := mkDef (L "f") [Variable_ [L "x"]; Integer (L "0")] (Variable_ [L "x"]) in
  let t := [newline] ++ L "-- comment" ++ [newline] in
  file (L "f : Int" ++ [newline] ++ L "f x 0 = x") = Ok [] [Function_ (mkFunc (Some sg) d)] /\
  function_signature 0 (L "f : Int" ++ t ++ L "f x 0 = x") = Ok (t ++ L "f x 0 = x") sg /\
  trivia t /\ closed t /\ function_definition 0 (L "f x 0 = x") = Ok [] d /\
  (forall b, t = newline :: b -> all_spaces b = true -> width 0 t <> 0%N) /\
  file (L "f : Int" ++ t ++ L "f x 0 = x") = Err /\
  file (L "f : Int" ++ [newline; newline] ++ L "f x 0 = x") = Err.
Proof.
  cbv zeta. split; [vm_compute; reflexivity|]. split; [vm_compute; reflexivity|].
  split. { apply trivia_newline. apply (trivia_comment (L " comment") [newline]); [reflexivity|reflexivity|repeat constructor]. }
  split; [reflexivity|]. split; [vm_compute; reflexivity|].
  split. { intros b [= <-]. discriminate. }
  split; vm_compute; reflexivity.
Qed.

(** ** C52: type and port declarations, exactly

    [bar m t]: blank space in columns at least [m], a vertical bar, spaces. *)
Theorem C52_alias : forall s r n ty, statement s = Ok r (TypeAliasDeclaration n ty) <->
  exists b1 b2 s1 b3 t j s2, s = L "type" ++ b1 ++ L "alias" ++ b2 ++ s1 /\ spaces1 b1 /\ spaces1 b2 /\
    type_ 0 s1 = Ok (b3 ++ L "=" ++ t ++ s2) n /\ spaces1 b3 /\ lay_ge 1 t j /\
    type_annotation 1 s2 = Ok r ty.
Proof. intros. rewrite statement_alias_iff. apply alias_iff_decl. Qed.
Print Assumptions C52_alias.
Theorem C52_type : forall s r n cs, statement s = Ok r (TypeDeclaration n cs) <->
  exists b s1 t1 m t2 j s2 c cs' s3, s = L "type" ++ b ++ s1 /\ spaces1 b /\
    type_ 0 s1 = Ok (t1 ++ L "=" ++ t2 ++ s2) n /\ lay_gt 0 t1 m /\ lay_ge m t2 j /\
    constructor m s2 c s3 /\ items (bar m) (constructor m) s3 cs' r /\ no_item (bar m) (constructor m) r /\
    cs = c :: cs'.
Proof. intros. rewrite statement_type_iff. apply type_iff_decl. Qed.
Print Assumptions C52_type.
Theorem C52_port_type : forall s r n ty, statement s = Ok r (PortTypeDeclaration n ty) <->
  exists b1 b2 t j s', s = L "port" ++ b1 ++ n ++ b2 ++ L ":" ++ t ++ s' /\ spaces1 b1 /\ lower_name n /\
    spaces1 b2 /\ lay_gt 0 t j /\ type_annotation j s' = Ok r ty.
Proof. intros. rewrite statement_port_type_iff. apply port_type_iff_decl. Qed.
Print Assumptions C52_port_type.
Theorem C52_port : forall s r n args e, statement s = Ok r (PortDeclaration n args e) <->
  exists b1 s1 b2 t j s', s = L "port" ++ b1 ++ n ++ s1 /\ spaces1 b1 /\ lower_name n /\ ends_lower n s1 /\
    items spaces1 lower_at s1 args (b2 ++ L "=" ++ t ++ s') /\ spaces1 b2 /\ lay_gt 0 t j /\
    expression j s' = Ok r e.
Proof. intros. rewrite statement_port_iff. apply port_iff_decl. Qed.
Print Assumptions C52_port.
(** The name of a type may be any type: the expectation that a declared type is
    a name with type variables is refuted. *)
Theorem C52_names_refuted : ~ (forall s r n cs, statement s = Ok r (TypeDeclaration n cs) ->
  exists q vs, n = TypeConstructor q (map TypeVariable vs)).
Proof.
  intros H. destruct (H (L "type (A, b) = C") [] (TypeTuple [TypeConstructor [L "A"] []; TypeVariable (L "b")])
    [TypeConstructor [L "C"] []] eq_refl) as (q & vs & E). discriminate E.
Qed.
Print Assumptions C52_names_refuted.
Example C52_instance :
  statement (L "type alias A a = { x : a }") = Ok [] (TypeAliasDeclaration
    (TypeConstructor [L "A"] [TypeVariable (L "a")]) (TypeRecord [(L "x", TypeVariable (L "a"))])) /\
  statement (L "type A
    = B Int
    | C
  | D") = Ok (L "
  | D") (TypeDeclaration (TypeConstructor [L "A"] [])
    [TypeConstructor [L "B"] [TypeConstructor [L "Int"] []]; TypeConstructor [L "C"] []]) /\
  statement (L "port p : Int") = Ok [] (PortTypeDeclaration (L "p") (TypeConstructor [L "Int"] [])) /\
  statement (L "port p x y = x") = Ok [] (PortDeclaration (L "p") [L "x"; L "y"] (Variable_ [L "x"])).
Proof. vm_compute. auto. Qed.
