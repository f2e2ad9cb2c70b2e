(** * C76: the order of the alternatives *)
From Verif Require Import Base Nom Regex Ast Good Spec Helpers Types Expr Stmt Lexers Total Layout Front Seqs Grammar Follow Sound SoundE SoundS LexProps Heads Language
  CompleteT CompleteE CompleteX CompleteS Keywords Exact Brackets Decls Rules TypesExact Solution Order.
From Coq Require Import Permutation.

(** ** C76: only named kinds of phrase can be confused

    [one_of], [before] and [clash] are defined in Order.v.  The kinds, and the parser of
    each, in the order of the code: *)
Inductive statement_kind := SPortModule | SEffectModule | SModule | SImport | STypeAlias | SType | SPortType | SPort | SDefinition | SInfix | SComment.
Definition statement_kinds := [SPortModule; SEffectModule; SModule; SImport; STypeAlias; SType; SPortType; SPort; SDefinition; SInfix; SComment].
(** src/ast/statement/mod.rs:25-39 *)
Definition read_statement (k : statement_kind) : parser statement_ast :=
  match k with
  | SPortModule => port_module_declaration | SEffectModule => effect_module_declaration | SModule => module_declaration
  | SImport => import_statement | STypeAlias => type_alias_declaration | SType => type_declaration 0
  | SPortType => port_type_declaration | SPort => port_declaration | SDefinition => map_ Function_ (function 0)
  | SInfix => infix_declaration | SComment => comment
  end.
Inductive expression_kind := EOperation | ELet | ECase | EIf | ELambda.
Definition expression_kinds := [EOperation; ELet; ECase; EIf; ELambda].
(** src/ast/expression/mod.rs:343-351 *)
Definition read_expression (i : N) (k : expression_kind) : parser expr :=
  match k with
  | EOperation => binary i | ELet => let_expression i | ECase => case_expression i | EIf => if_expression i | ELambda => lambda i
  end.
Inductive term_kind := TAccess | TVariable | TAccessor | TString | TFloat | TInteger | TCharacter | TParens | TList | TTuple | TUpdate | TRecord | TNames.
Definition term_kinds := [TAccess; TVariable; TAccessor; TString; TFloat; TInteger; TCharacter; TParens; TList; TTuple; TUpdate; TRecord; TNames].
(** src/ast/expression/mod.rs:153-169 *)
Definition read_term (i : N) (k : term_kind) : parser expr :=
  match k with
  | TAccess => access | TVariable => variable | TAccessor => access_function | TString => string_ | TFloat => float
  | TInteger => integer | TCharacter => character | TParens => parens i | TList => list_expr i | TTuple => tuple i
  | TUpdate => record_update i | TRecord => record i | TNames => simplified_record
  end.
Inductive type_kind := YConstructed | YVariable | YExtension | YRecord | YTuple | YParens.
Definition type_kinds := [YConstructed; YVariable; YExtension; YRecord; YTuple; YParens].
(** src/ast/type_/mod.rs:124-137 *)
Definition read_type (i : N) (k : type_kind) : parser type_ast :=
  match k with
  | YConstructed => type_constructor i | YVariable => type_variable | YExtension => type_record_constructor_f type_ i
  | YRecord => type_record_f type_ i | YTuple => type_tuple_f type_ i | YParens => type_parens_f type_ i
  end.
Inductive target_kind := GVariable | GList | GTuple | GNames.
Definition target_kinds := [GVariable; GList; GTuple; GNames].
(** src/ast/expression/mod.rs:212-219 *)
Definition read_target (i : N) (k : target_kind) : parser expr :=
  match k with GVariable => variable | GList => list_expr i | GTuple => tuple i | GNames => simplified_record end.

Ltac no_abort o := let H := fresh in intros H;
  match type of H with ?p ?s = Abort ?w => let K := fresh in assert (K : ok 0 (S (length s)) p p) by o; destruct (K s (le_n _)) as [_ K']; rewrite H in K'; exact K' end.
Ltac alts s := repeat (match goal with |- context [match ?p s with _ => _ end] => destruct (p s); [reflexivity| |reflexivity] end); reflexivity.
Ltac nodup := repeat constructor; cbn; intuition discriminate.
Ltac show_before := first [exists []; eexists; eexists; reflexivity | idtac].

(** two parsers whose first characters differ accept no common text *)
Lemma heads_apart {A B} P Q (p : parser A) (q : parser B) s r a r' b : heads P p -> heads Q q ->
  (forall c, P c = true -> Q c = true -> False) -> p s = Ok r a -> q s = Ok r' b -> False.
Proof.
  intros Hp Hq Hpq H1 H2. destruct (Hp _ _ _ H1) as (c & x & -> & Hc). destruct (Hq _ _ _ H2) as (d & y & E & Hd).
  injection E as <- _. eauto.
Qed.

(** *** Statements *)
Definition statement_pairs := [(SDefinition, SInfix)].
Lemma read_statement_all k s r st : read_statement k s = Ok r st -> k <> SInfix -> statement s = Ok r st.
Proof.
  intros H Hk. destruct k; cbn in H; try congruence.
  - pose proof (port_module_Ok _ _ _ H) as (q & e & -> & H'). apply complete_statement, H'.
  - pose proof (effect_module_Ok _ _ _ H) as (q & fs & e & -> & H'). apply complete_statement, H'.
  - pose proof (module_Ok _ _ _ H) as (q & e & -> & H'). apply complete_statement, H'.
  - pose proof (import_Ok _ _ _ H) as (q & al & ex & ->). apply statement_import_iff, import_iff, H.
  - assert (E : exists n ty, st = TypeAliasDeclaration n ty) by (unfold type_alias_declaration in H; hdr; eauto).
    destruct E as (n & ty & ->). apply statement_alias_iff, H.
  - assert (E : exists n cs, st = TypeDeclaration n cs) by (unfold type_declaration in H; hdr; eauto).
    destruct E as (n & ty & ->). apply statement_type_iff, H.
  - assert (E : exists n ty, st = PortTypeDeclaration n ty) by (unfold port_type_declaration in H; hdr; eauto).
    destruct E as (n & ty & ->). apply statement_port_type_iff, H.
  - assert (E : exists n l e, st = PortDeclaration n l e) by (unfold port_declaration in H; hdr; eauto).
    destruct E as (n & l & e & ->). apply statement_port_iff, H.
  - apply map_Ok in H as (f & H & ->). apply statement_function_iff, H.
  - assert (E : exists c, st = Comment c).
    { unfold comment in H. apply alt_Ok in H as [H|[_ H]]; apply map_Ok in H as (c & _ & ->); eauto. }
    destruct E as (c & ->). apply statement_comment_iff, H.
Qed.
Lemma infix_alone k s r st r' st' : read_statement k s = Ok r st -> infix_declaration s = Ok r' st' -> k = SInfix \/ k = SDefinition.
Proof.
  intros H Hi. apply infix_declaration_iff in Hi as (a & w & b & d & b' & n & _ & -> & Hw & _).
  destruct k; auto; exfalso; cbn [read_statement] in H; destruct Hw; discriminate H.
Qed.
Lemma read_statement_one k k' s r a r' a' : read_statement k s = Ok r a -> read_statement k' s = Ok r' a' ->
  In (k, k') statement_pairs \/ In (k', k) statement_pairs \/ (r = r' /\ a = a').
Proof.
  intros H H'.
  assert (D : forall x y : statement_kind, {x = y} + {x <> y}) by decide equality.
  destruct (D k SInfix) as [->|N1].
  - destruct (infix_alone _ _ _ _ _ _ H' H) as [->| ->]; [|right; left; left; reflexivity]. right. right. split; congruence.
  - destruct (D k' SInfix) as [->|N2].
    + destruct (infix_alone _ _ _ _ _ _ H H') as [->| ->]; [congruence|]. left. left. reflexivity.
    + apply read_statement_all in H, H'; [|assumption..]. right. right. split; congruence.
Qed.
Lemma read_statement_tot s k w : read_statement k s <> Abort w.
Proof. destruct k; cbn [read_statement]; no_abort ltac:(unfold comment; oks). Qed.
Lemma statement_pair k k' : In (k, k') statement_pairs -> before k k' statement_kinds /\
  exists s r a r' a', read_statement k s = Ok r a /\ read_statement k' s = Ok r' a' /\ (r, a) <> (r', a') /\
    forall x, x <> k -> x <> k' -> read_statement x s = Err.
Proof.
  intros [[= <- <-]|[]]. split; [exists [SPortModule; SEffectModule; SModule; SImport; STypeAlias; SType; SPortType; SPort], [], [SComment]; reflexivity|].
  exists (L "infixl 5 f = 1"). do 4 eexists. split; [vm_compute; reflexivity|]. split; [vm_compute; reflexivity|]. split; [discriminate|].
  intros x N1 N2. destruct x; try congruence; vm_compute; reflexivity.
Qed.

Definition kind_of (st : statement_ast) : statement_kind :=
  match st with
  | PortModuleDeclaration _ _ => SPortModule | EffectModuleDeclaration _ _ _ => SEffectModule | ModuleDeclaration _ _ => SModule
  | ImportStatement _ _ _ => SImport | TypeAliasDeclaration _ _ => STypeAlias | TypeDeclaration _ _ => SType
  | PortTypeDeclaration _ _ => SPortType | PortDeclaration _ _ _ => SPort | Function_ _ => SDefinition
  | InfixDeclaration _ _ _ => SInfix | Comment _ => SComment
  end.
Lemma kind_of_read k s r st : read_statement k s = Ok r st -> kind_of st = k.
Proof.
  intros H. destruct k; cbn in H.
  - unfold port_module_declaration in H. hdr. subst st. reflexivity.
  - apply effect_module_Ok in H as (q & fs & e & -> & _). reflexivity.
  - unfold module_declaration in H. hdr. subst st. reflexivity.
  - apply import_Ok in H as (q & al & ex & ->). reflexivity.
  - unfold type_alias_declaration in H. hdr. subst st. reflexivity.
  - unfold type_declaration in H. hdr. subst st. reflexivity.
  - unfold port_type_declaration in H. hdr. subst st. reflexivity.
  - unfold port_declaration in H. hdr. subst st. reflexivity.
  - apply map_Ok in H as (f & _ & ->). reflexivity.
  - unfold infix_declaration in H. hdr. subst st. reflexivity.
  - unfold comment in H. apply alt_Ok in H as [H|[_ H]]; apply map_Ok in H as (c & _ & ->); reflexivity.
Qed.

(** The code tries the kinds in the order of [statement_kinds]; any other order would give
    the same results exactly if definitions are still tried before operator declarations.
    No other two kinds can both read one text. *)
Theorem C76_statements :
  (forall s, statement s = one_of (map read_statement statement_kinds) s) /\
  (forall k k' s r st r' st', read_statement k s = Ok r st -> read_statement k' s = Ok r' st' ->
     k = k' \/ (k = SDefinition /\ k' = SInfix) \/ (k = SInfix /\ k' = SDefinition)) /\
  (forall k k', clash (read_statement k) (read_statement k') <->
     (k = SDefinition /\ k' = SInfix) \/ (k = SInfix /\ k' = SDefinition)) /\
  forall l, Permutation statement_kinds l ->
    ((forall s, one_of (map read_statement l) s = statement s) <-> before SDefinition SInfix l).
Proof.
  assert (E : forall s, statement s = one_of (map read_statement statement_kinds) s).
  { intros s. unfold statement, one_of. cbn. unfold alt. alts s. }
  split; [exact E|]. split.
  { intros k k' s r a r' a' H H'. destruct (read_statement_one _ _ _ _ _ _ _ H H') as [[[= <- <-]|[]]|[[[= <- <-]|[]]|[_ <-]]]; auto.
    left. apply kind_of_read in H, H'. congruence. }
  split.
  - intros k k'. rewrite (clash_iff read_statement statement_kinds statement_pairs read_statement_one statement_pair). cbn.
    split; [intros [[[= <- <-]|[]]|[[= <- <-]|[]]]; auto|intros [[-> ->]|[-> ->]]; auto].
  - intros l Hl.
    pose proof (order_iff read_statement statement_kinds statement_pairs ltac:(unfold statement_kinds; nodup) read_statement_tot read_statement_one statement_pair l Hl) as H.
    split.
    + intros Hs. apply (proj1 H); [|left; reflexivity]. intros s. rewrite <- E. apply Hs.
    + intros Hb s. rewrite E. apply (proj2 H). intros k k' [[= <- <-]|[]]. exact Hb.
Qed.
Print Assumptions C76_statements.

(** *** Expressions *)
Lemma keyword_not_binary {B} w i (f : N -> parser B) s r a : In w reserved_words ->
  (tag w ;;; n <- spaces_or_new_lines_and_indent i IR_GTE ;; f n) s = Ok r a -> binary i s = Err.
Proof.
  intros Hw H. apply bind_Ok in H as (s1 & x & Hx & H). apply tag_Ok in Hx as [-> _].
  apply bind_Ok in H as (s2 & j & Hj & H). apply word_binary; [|exact Hw].
  apply heads_sp in Hj as (c & y & -> & Hc). cbn [ends]. chr.
Qed.
Lemma read_expression_one i k k' s r a r' a' : read_expression i k s = Ok r a -> read_expression i k' s = Ok r' a' -> k = k'.
Proof.
  assert (B : forall x r0 a0, read_expression i x s = Ok r0 a0 -> x <> EOperation -> binary i s = Err).
  { intros x r0 a0 H Hn. destruct x; cbn in H; [congruence|..].
    - eapply (keyword_not_binary (L "let")), H. simpl. auto 25.
    - eapply (keyword_not_binary (L "case")), H. simpl. auto 25.
    - eapply (keyword_not_binary (L "if")), H. simpl. auto 25.
    - apply bind_Ok in H as (s1 & x & Hx & _). apply char_Ok in Hx as [-> _].
      apply binary_Err, no_term_Err. repeat split; intros Hc; try discriminate Hc; destruct Hc; discriminate. }
  intros H H'.
  destruct k, k'; try reflexivity;
    try (exfalso; eapply B in H; [|discriminate]; cbn in H'; congruence);
    try (exfalso; eapply B in H'; [|discriminate]; cbn in H; congruence); exfalso; cbn in H, H';
    apply bind_Ok in H as (s1 & x & Hx & _); apply bind_Ok in H' as (s1' & x' & Hx' & _);
    first [apply tag_Ok in Hx as [-> _]|apply char_Ok in Hx as [-> _]]; discriminate Hx'.
Qed.
Lemma ok_E_let n i : ok 1 n (let_expression_f expression i) (let_expression_f expression i).
Proof. apply ok_down, ok_let_expression_f. intros; apply ok_expression. Qed.
Lemma ok_E_cases n i : ok 1 n (case_expression_f expression i) (case_expression_f expression i).
Proof. apply ok_down, ok_case_expression_f. intros; apply ok_expression. Qed.
Lemma ok_E_if n i : ok 1 n (if_expression_f expression i) (if_expression_f expression i).
Proof. apply ok_down, ok_if_expression_f. intros; apply ok_expression. Qed.
#[local] Hint Resolve ok_E_let ok_E_cases ok_E_if : okdb.
Lemma read_expression_tot i s k w : read_expression i k s <> Abort w.
Proof.
  destruct k; cbn [read_expression]; no_abort ltac:(unfold let_expression, case_expression, if_expression, lambda, binary; oks).
Qed.
(** The kinds of expression exclude one another: they could be tried in any order. *)
Theorem C76_expressions : forall i,
  (forall s, expression i s = one_of (map (read_expression i) expression_kinds) s) /\
  (forall k k' s r e r' e', read_expression i k s = Ok r e -> read_expression i k' s = Ok r' e' -> k = k') /\
  forall l, Permutation expression_kinds l -> forall s, one_of (map (read_expression i) l) s = expression i s.
Proof.
  intros i.
  assert (E : forall s, expression i s = one_of (map (read_expression i) expression_kinds) s).
  { intros s. rewrite expression_eq. unfold expression_f, binary, let_expression, case_expression, if_expression, lambda, one_of. cbn. unfold binary, let_expression, case_expression, if_expression, lambda, alt. alts s. }
  split; [exact E|]. split; [apply read_expression_one|].
  intros l Hl s. rewrite E.
  refine (proj2 (order_iff (read_expression i) expression_kinds [] _ (read_expression_tot i) _ _ l Hl) _ s).
  - unfold expression_kinds. nodup.
  - intros k k' s0 r a r' a' H H'. pose proof (read_expression_one _ _ _ _ _ _ _ _ H H') as <-. right. right. split; congruence.
  - intros k k' [].
  - intros k k' [].
Qed.
Print Assumptions C76_expressions.

(** *** Terms *)
Definition term_pairs := [(TAccess, TVariable); (TFloat, TInteger); (TParens, TTuple)].
Definition term_head (k : term_kind) : char -> bool :=
  match k with
  | TAccess | TVariable => var0 | TAccessor => fun c => (c =? C ".")%N | TString => fun c => (c =? quote)%N | TFloat | TInteger => number0
  | TCharacter => fun c => (c =? squote)%N | TParens | TTuple => fun c => (c =? C "(")%N | TList => fun c => (c =? C "[")%N
  | TUpdate | TRecord | TNames => fun c => (c =? C "{")%N
  end.
Lemma read_term_head i k : heads (term_head k) (read_term i k).
Proof.
  destruct k; cbn [term_head read_term];
    [apply heads_access|apply heads_variable|apply heads_access_function|apply heads_string|apply heads_float|apply heads_integer
    |apply heads_character|apply heads_parens|apply heads_list|apply heads_tuple|apply heads_update|apply heads_record|apply heads_names].
Qed.
Lemma round_no_variable i k s r e : k = TParens \/ k = TTuple -> read_term i k s = Ok r e -> variable s = Err.
Proof.
  intros [->| ->] H; cbn in H.
  - unfold parens, parens_f in H. apply delimited_Ok in H as (s1 & x1 & s2 & x2 & E1 & E2 & E3). apply char_Ok in E1 as [-> _].
    eapply (op_Err_expr i []); [reflexivity|exact E2].
  - destruct (heads_tuple _ _ _ _ _ H) as (c & y & -> & Hc). apply N.eqb_eq in Hc. subst c.
    apply (tuple_f_iff i y) in H as (es & H & _). eapply tuple_no_var, H.
Qed.
Lemma access_variable s r e : access s = Ok r e -> exists r' v, variable s = Ok r' v.
Proof. intros H. apply bind_Ok in H as (s1 & v & H & _). eauto. Qed.
Lemma curly_read i k s r e : k = TUpdate \/ k = TRecord \/ k = TNames -> read_term i k s = Ok r e -> term i s = Ok r e.
Proof.
  intros Hk H. assert (Hh : term_head k (C "{") = true) by (destruct Hk as [->|[->| ->]]; reflexivity).
  destruct (read_term_head i k _ _ _ H) as (c & y & -> & Hc). assert (c = C "{") by (destruct Hk as [->|[->| ->]]; apply N.eqb_eq, Hc). subst c.
  change (C "{" :: y) with (L "{" ++ y). destruct Hk as [->|[->| ->]]; cbn in H.
  - rewrite term_others by apply brace_var_Err. change (L "{" ++ y) with (C "{" :: y). rewrite others_brace. apply alt_left, H.
  - apply brace_iff. right. unfold record, record_f in H. apply map_Ok in H as (l & H & ->).
    apply delimited_Ok in H as (s1 & o1 & s2 & o2 & H1 & H2 & H3).
    apply preceded_Ok in H1 as (u & x & Hx & H1). apply char_Ok in Hx as [[= <-] _].
    apply terminated_Ok in H3 as (u & x' & H3 & Hx). apply char_Ok in Hx as [-> _].
    apply record_pairs in H2 as [(-> & -> & _)|(f & l' & s3 & -> & Hf & Hl & _)]; [left|right; left].
    + destruct (opt_sp_twice _ _ _ _ _ _ H1 H3) as [(t & -> & Ht)|Hn]; [eauto|discriminate Hn].
    + apply opt_sp_lay in H3 as [(t2 & -> & H3)|H3]; [|discriminate H3].
      apply opt_sp_lay in H1 as [(t1 & -> & H1)| ->].
      2: { exfalso. destruct Hf as (? & ? & ? & E & Hn & _).
           destruct (lower_name_head _ Hn) as (c & t & En & _). rewrite En in E. discriminate E. }
      exists t1, s1, f, s3, l', t2. auto 10.
  - apply brace_iff. apply (names_iff y) in H as [[-> ->]|H].
    + right. left. exists []. split; [reflexivity|]. split; [left; reflexivity|reflexivity].
    + right. right. right. exact H.
Qed.
Lemma read_term_one i k k' s r a r' a' : read_term i k s = Ok r a -> read_term i k' s = Ok r' a' ->
  In (k, k') term_pairs \/ In (k', k) term_pairs \/ (r = r' /\ a = a').
Proof.
  intros H H'.
  assert (Hd : (forall c, term_head k c = true -> term_head k' c = true -> False) -> False)
    by (intros Hx; exact (heads_apart _ _ _ _ _ _ _ _ _ (read_term_head i k) (read_term_head i k') Hx H H')).
  destruct k, k';
    try (exfalso; apply Hd; cbn [term_head]; unfold var0, number0; intros c H1 H2; chr);
    try (left; cbn; auto; fail); try (right; left; cbn; auto; fail); try (right; right; cbn in H, H'; split; congruence).
  all: try (right; right; apply curly_read in H, H'; [|auto..]; split; congruence).
  all: exfalso; first
    [apply round_no_variable in H; [|auto]; first [cbn in H'; congruence|apply access_variable in H' as (? & ? & ?); congruence]
    |apply round_no_variable in H'; [|auto]; first [cbn in H; congruence|apply access_variable in H as (? & ? & ?); congruence]].
Qed.
Lemma read_term_tot i s k w : read_term i k s <> Abort w.
Proof.
  destruct k; cbn [read_term]; no_abort ltac:(unfold parens, list_expr, tuple, record_update, record; oks).
Qed.
Lemma term_pair i k k' : In (k, k') term_pairs -> before k k' term_kinds /\
  exists s r a r' a', read_term i k s = Ok r a /\ read_term i k' s = Ok r' a' /\ (r, a) <> (r', a') /\
    forall x, x <> k -> x <> k' -> read_term i x s = Err.
Proof.
  intros [[= <- <-]|[[= <- <-]|[[= <- <-]|[]]]].
  - split; [exists [], []; eexists; reflexivity|]. exists (L "a.b"). do 4 eexists.
    split; [vm_compute; reflexivity|]. split; [vm_compute; reflexivity|]. split; [discriminate|].
    intros x N1 N2. destruct x; try congruence; vm_compute; reflexivity.
  - split; [exists [TAccess; TVariable; TAccessor; TString], []; eexists; reflexivity|]. exists (L "1.2"). do 4 eexists.
    split; [vm_compute; reflexivity|]. split; [vm_compute; reflexivity|]. split; [discriminate|].
    intros x N1 N2. destruct x; try congruence; vm_compute; reflexivity.
  - split; [exists [TAccess; TVariable; TAccessor; TString; TFloat; TInteger; TCharacter], [TList]; eexists; reflexivity|]. exists (L "(a)"). do 4 eexists.
    split; [vm_compute; reflexivity|]. split; [vm_compute; reflexivity|]. split; [discriminate|].
    intros x N1 N2. destruct x; try congruence; vm_compute; reflexivity.
Qed.
Theorem C76_terms : forall i,
  (forall s, term i s = one_of (map (read_term i) term_kinds) s) /\
  (forall k k', clash (read_term i k) (read_term i k') <->
     let pair a b := (k = a /\ k' = b) \/ (k = b /\ k' = a) in
     pair TAccess TVariable \/ pair TFloat TInteger \/ pair TParens TTuple) /\
  forall l, Permutation term_kinds l ->
    ((forall s, one_of (map (read_term i) l) s = term i s) <->
     before TAccess TVariable l /\ before TFloat TInteger l /\ before TParens TTuple l).
Proof.
  intros i.
  assert (E : forall s, term i s = one_of (map (read_term i) term_kinds) s).
  { intros s. unfold term, term_f, one_of. cbn. unfold alt. alts s. }
  split; [exact E|]. split.
  - intros k k'. rewrite (clash_iff (read_term i) term_kinds term_pairs (read_term_one i) (term_pair i)). cbn.
    split; intros H; repeat match goal with
      | H : _ \/ _ |- _ => destruct H as [H|H]
      | H : False |- _ => destruct H
      | H : _ /\ _ |- _ => destruct H as [-> ->]
      | H : (_, _) = (_, _) |- _ => injection H as <- <-
      end; auto 10.
  - intros l Hl.
    pose proof (order_iff (read_term i) term_kinds term_pairs ltac:(unfold term_kinds; nodup) (read_term_tot i) (read_term_one i) (term_pair i) l Hl) as H.
    split.
    + intros Hs. repeat split; apply (proj1 H); try (cbn; auto; fail); intros s; rewrite <- E; apply Hs.
    + intros (H1 & H2 & H3) s. rewrite E. apply (proj2 H). intros k k' [[= <- <-]|[[= <- <-]|[[= <- <-]|[]]]]; assumption.
Qed.
Print Assumptions C76_terms.

(** *** Types *)
Definition type_pairs := [(YTuple, YParens)].
Definition type_head (k : type_kind) : char -> bool :=
  match k with
  | YConstructed => is_upper | YVariable => is_lower | YExtension | YRecord => fun c => (c =? C "{")%N | YTuple | YParens => fun c => (c =? C "(")%N
  end.
Lemma read_type_head i k : heads (type_head k) (read_type i k).
Proof.
  destruct k; cbn [type_head read_type];
    [apply heads_T_constructor|apply heads_type_variable|apply heads_T_rc|apply heads_T_record|apply heads_T_tuple|apply heads_T_parens].
Qed.
Lemma curly_type i k s r t : k = YExtension \/ k = YRecord -> read_type i k s = Ok r t -> simple i s = Ok r t.
Proof.
  intros Hk H. destruct (read_type_head i k _ _ _ H) as (c & y & -> & Hc).
  assert (c = C "{") by (destruct Hk as [->| ->]; apply N.eqb_eq, Hc). subst c. destruct Hk as [->| ->]; cbn in H.
  - apply alt_right; [nohead heads_type_variable|]. apply alt_left, H.
  - apply (type_brace_iff i y). unfold type_record_f in H. apply delimited_Ok in H as (s1 & o1 & s2 & o2 & H1 & H & H3).
    apply preceded_Ok in H1 as (u & x & Hx & H1). apply char_Ok in Hx as [[= <-] _].
    apply terminated_Ok in H3 as (u & x' & H3 & Hx). apply char_Ok in Hx as [-> _].
    apply map_Ok in H as (l & H & ->).
    apply type_fields in H as [(-> & -> & _)|(f & fs & s3 & -> & Hf & Hfs & _)].
    + left. destruct (opt_sp_twice _ _ _ _ _ _ H1 H3) as [(t & -> & Ht)|Hn]; [eauto|discriminate Hn].
    + right. left. apply opt_sp_lay in H3 as [(t2 & -> & H3)|H3]; [|discriminate H3].
      apply opt_sp_lay in H1 as [(t1 & -> & H1)| ->].
      * exists t1, s1, f, s3, fs, t2. auto 10.
      * exfalso. destruct (field_head _ _ _ _ Hf) as (u & s' & Eu & Hl & _).
        destruct (lower_name_head _ Hl) as (c & z & Ey & _). rewrite Ey in Eu. discriminate Eu.
Qed.
Lemma read_type_one i k k' s r a r' a' : read_type i k s = Ok r a -> read_type i k' s = Ok r' a' ->
  In (k, k') type_pairs \/ In (k', k) type_pairs \/ (r = r' /\ a = a').
Proof.
  intros H H'.
  assert (Hd : (forall c, type_head k c = true -> type_head k' c = true -> False) -> False)
    by (intros Hx; exact (heads_apart _ _ _ _ _ _ _ _ _ (read_type_head i k) (read_type_head i k') Hx H H')).
  destruct k, k';
    try (exfalso; apply Hd; cbn [type_head]; intros c H1 H2; chr);
    try (left; cbn; auto; fail); try (right; left; cbn; auto; fail); try (right; right; cbn in H, H'; split; congruence).
  all: right; right; apply curly_type in H, H'; [|auto..]; split; congruence.
Qed.
Lemma read_type_tot i s k w : read_type i k s <> Abort w.
Proof. destruct k; cbn [read_type]; no_abort ltac:(unfold type_constructor; oks). Qed.
Lemma type_pair i k k' : In (k, k') type_pairs -> before k k' type_kinds /\
  exists s r a r' a', read_type i k s = Ok r a /\ read_type i k' s = Ok r' a' /\ (r, a) <> (r', a') /\
    forall x, x <> k -> x <> k' -> read_type i x s = Err.
Proof.
  intros [[= <- <-]|[]]. split; [exists [YConstructed; YVariable; YExtension; YRecord], []; eexists; reflexivity|]. exists (L "(a)"). do 4 eexists.
  split; [vm_compute; reflexivity|]. split; [vm_compute; reflexivity|]. split; [discriminate|].
  intros x N1 N2. destruct x; try congruence; vm_compute; reflexivity.
Qed.
Theorem C76_types : forall i,
  (forall s, type_ i s = one_of (map (read_type i) type_kinds) s) /\
  (forall k k', clash (read_type i k) (read_type i k') <-> (k = YTuple /\ k' = YParens) \/ (k = YParens /\ k' = YTuple)) /\
  forall l, Permutation type_kinds l ->
    ((forall s, one_of (map (read_type i) l) s = type_ i s) <-> before YTuple YParens l).
Proof.
  intros i.
  assert (E : forall s, type_ i s = one_of (map (read_type i) type_kinds) s).
  { intros s. rewrite type_alt. unfold simple, one_of. cbn. unfold alt. alts s. }
  split; [exact E|]. split.
  - intros k k'. rewrite (clash_iff (read_type i) type_kinds type_pairs (read_type_one i) (type_pair i)). cbn.
    split; [intros [[[= <- <-]|[]]|[[= <- <-]|[]]]; auto|intros [[-> ->]|[-> ->]]; auto].
  - intros l Hl.
    pose proof (order_iff (read_type i) type_kinds type_pairs ltac:(unfold type_kinds; nodup) (read_type_tot i) (read_type_one i) (type_pair i) l Hl) as H.
    split.
    + intros Hs. apply (proj1 H); [|left; reflexivity]. intros s. rewrite <- E. apply Hs.
    + intros Hb s. rewrite E. apply (proj2 H). intros k k' [[= <- <-]|[]]. exact Hb.
Qed.
Print Assumptions C76_types.

(** *** What a let binds *)
Definition target_term (k : target_kind) : term_kind :=
  match k with GVariable => TVariable | GList => TList | GTuple => TTuple | GNames => TNames end.
Lemma target_is_term i k : read_target i k = read_term i (target_term k).
Proof. destruct k; reflexivity. Qed.
Lemma read_target_one i k k' s r a r' a' : read_target i k s = Ok r a -> read_target i k' s = Ok r' a' -> k = k'.
Proof.
  rewrite !target_is_term. intros H H'.
  assert (Hd : (forall c, term_head (target_term k) c = true -> term_head (target_term k') c = true -> False) -> False)
    by (intros Hx; exact (heads_apart _ _ _ _ _ _ _ _ _ (read_term_head i _) (read_term_head i _) Hx H H')).
  destruct k, k'; try reflexivity; exfalso; try (apply Hd; cbn [term_head target_term]; unfold var0; intros c H1 H2; chr).
  - apply round_no_variable in H'; [|auto]. cbn in H. congruence.
  - apply round_no_variable in H; [|auto]. cbn in H'. congruence.
Qed.
(** The left hand sides exclude one another: they could be tried in any order. *)
Theorem C76_targets : forall i,
  (forall s, let_binding_target i s = one_of (map (read_target i) target_kinds) s) /\
  (forall k k' s r e r' e', read_target i k s = Ok r e -> read_target i k' s = Ok r' e' -> k = k') /\
  forall l, Permutation target_kinds l -> forall s, one_of (map (read_target i) l) s = let_binding_target i s.
Proof.
  intros i.
  assert (E : forall s, let_binding_target i s = one_of (map (read_target i) target_kinds) s).
  { intros s. unfold let_binding_target, let_binding_target_f, one_of. cbn. unfold alt. alts s. }
  split; [exact E|]. split; [apply read_target_one|].
  intros l Hl s. rewrite E.
  refine (proj2 (order_iff (read_target i) target_kinds [] _ _ _ _ l Hl) _ s).
  - unfold target_kinds. nodup.
  - intros s0 k w. rewrite target_is_term. apply read_term_tot.
  - intros k k' s0 r a r' a' H H'. pose proof (read_target_one _ _ _ _ _ _ _ _ H H') as <-. right. right. split; congruence.
  - intros k k' [].
  - intros k k' [].
Qed.
Print Assumptions C76_targets.

(** A binding of a name without arguments can be read as a definition too, and a string in
    three quotes can be read as an empty string: there the first alternative of the code wins. *)
Theorem C76_two_readings :
  (forall i, clash (let_binding i) (map_ LetFunction (function i))) /\
  (forall i s r b r' x l, let_binding i s = Ok r b -> let_bindings i s = Ok r' (x :: l) -> x = b) /\
  clash multi_string single_string /\
  (forall s r b, multi_string s = Ok r b -> string_ s = Ok r (String_ b)).
Proof.
  split; [|split; [|split]].
  - intros i. exists (L "a = 1"). do 4 eexists. split; [vm_compute; reflexivity|split; [vm_compute; reflexivity|discriminate]].
  - intros i s r b r' x l H Hl. apply separated_nonempty_list_Ok in Hl as (y & l' & s1 & [= <- <-] & Hy & _).
    erewrite alt_left in Hy by exact H. injection Hy as _ <-. reflexivity.
  - exists [quote; quote; quote; quote; quote; quote]. do 4 eexists. split; [vm_compute; reflexivity|split; [vm_compute; reflexivity|discriminate]].
  - intros s r b H. apply map_intro, alt_left, H.
Qed.
Print Assumptions C76_two_readings.

(** The permutations are not only the order of the code: here are others that keep, and that
    do not keep, the pairs. *)
Example C76_instances :
  Permutation statement_kinds [SComment; SDefinition; SInfix; SPort; SPortType; SType; STypeAlias; SImport; SModule; SEffectModule; SPortModule] /\
  before SDefinition SInfix [SComment; SDefinition; SInfix; SPort; SPortType; SType; STypeAlias; SImport; SModule; SEffectModule; SPortModule] /\
  Permutation type_kinds [YParens; YTuple; YRecord; YExtension; YVariable; YConstructed] /\
  ~ before YTuple YParens [YParens; YTuple; YRecord; YExtension; YVariable; YConstructed] /\
  one_of (map (read_type 0) [YParens; YTuple; YRecord; YExtension; YVariable; YConstructed]) (L "(a)") = Ok [] (TypeVariable (L "a")) /\
  type_ 0 (L "(a)") = Ok [] (TypeTuple [TypeVariable (L "a")]) /\
  read_statement SDefinition (L "infixl 5 f = 1") <> Err /\ read_statement SInfix (L "infixl 5 f = 1") <> Err.
Proof.
  split; [|split; [|split; [|split; [|split; [|split; [|split]]]]]].
  - change (Permutation statement_kinds (SComment :: [SDefinition; SInfix] ++ [SPort; SPortType; SType; STypeAlias; SImport; SModule; SEffectModule; SPortModule])).
    apply NoDup_Permutation; [unfold statement_kinds; nodup|cbn; nodup|]. intros x. destruct x; cbn; intuition.
  - exists [SComment], []. eexists. reflexivity.
  - apply (Permutation_rev type_kinds).
  - intros H. apply (before_first _ [] YParens [YTuple; YRecord; YExtension; YVariable; YConstructed]) in H; [destruct H|nodup|reflexivity].
  - vm_compute. reflexivity.
  - vm_compute. reflexivity.
  - vm_compute. discriminate.
  - vm_compute. discriminate.
Qed.
