(** * The symbols of a syntax tree, from left to right

    [symbols] of a tree are the words and signs that every text of this tree must
    contain, in this order.  Only blank space, comments and round brackets are left
    to the writer.  The definitions do not refer to the parser or to the grammar. *)
From Verif Require Import Base Ast Spec Grammar Wf.

Inductive symbol :=
| Key (k : str)        (* a keyword or a sign, written as it is *)
| Name (n : str)       (* a name or an operator, written as it is *)
| Label (n : str)      (* the name of a field of a record *)
| Number (s : str)     (* a number, written as it is *)
| Text (s : str)       (* the contents of a string *)
| Chr (c : char)       (* a character *)
| Prec (p : N)         (* the number of an infix declaration *)
| Remark (c : str).    (* the contents of a comment *)

Fixpoint sep_by (k : str) (l : list (list symbol)) : list symbol :=
  match l with
  | [] => []
  | [x] => x
  | x :: l' => x ++ Key k :: sep_by k l'
  end.

Definition path (q : list str) : list symbol := sep_by (L ".") (map (fun n => [Name n]) q).

Fixpoint type_symbols (t : type_ast) : list symbol :=
  match t with
  | TypeConstructor q args => path q ++ concat (map type_symbols args)
  | TypeVariable n => [Name n]
  | TypeRecordConstructor v fs =>
      [Key (L "{")] ++ type_symbols v ++ [Key (L "|")] ++
      sep_by (L ",") (map (fun f => [Name (fst f); Key (L ":")] ++ type_symbols (snd f)) fs) ++ [Key (L "}")]
  | TypeRecord fs =>
      [Key (L "{")] ++
      sep_by (L ",") (map (fun f => [Name (fst f); Key (L ":")] ++ type_symbols (snd f)) fs) ++ [Key (L "}")]
  | TypeTuple ts => sep_by (L ",") (map type_symbols ts)
  | TypeApplication a b => type_symbols a ++ [Key (L "->")] ++ type_symbols b
  end.

Definition sig_symbols (sg : option function_signature_ast) : list symbol :=
  match sg with
  | None => []
  | Some g => [Name (sig_name g); Key (L ":")] ++ type_symbols (sig_type g)
  end.

Fixpoint expr_symbols (e : expr) : list symbol :=
  match e with
  | Character c => [Chr c]
  | String_ s => [Text s]
  | Integer s | Float s => [Number s]
  | Variable_ q => path q
  | List_ es => [Key (L "[")] ++ sep_by (L ",") (map expr_symbols es) ++ [Key (L "]")]
  | Tuple es => sep_by (L ",") (map expr_symbols es)
  | Access e fs => expr_symbols e ++ concat (map (fun f => [Key (L "."); Name f]) fs)
  | AccessFunction n => [Key (L "."); Name n]
  | Record_ fs =>
      [Key (L "{")] ++
      sep_by (L ",") (map (fun f => [Label (fst f); Key (L "=")] ++ expr_symbols (snd f)) fs) ++ [Key (L "}")]
  | RecordUpdate n fs =>
      [Key (L "{"); Name n; Key (L "|")] ++
      sep_by (L ",") (map (fun f => [Name (fst f); Key (L "=")] ++ expr_symbols (snd f)) fs) ++ [Key (L "}")]
  | If_ c t e =>
      [Key (L "if")] ++ expr_symbols c ++ [Key (L "then")] ++ expr_symbols t ++ [Key (L "else")] ++ expr_symbols e
  | Let_ es e => [Key (L "let")] ++ concat (map entry_symbols es) ++ [Key (L "in")] ++ expr_symbols e
  | Case_ e bs =>
      [Key (L "case")] ++ expr_symbols e ++ [Key (L "of")] ++
      concat (map (fun b => expr_symbols (fst b) ++ [Key (L "->")] ++ expr_symbols (snd b)) bs)
  | Lambda args e =>
      [Key (L "\")] ++ concat (map expr_symbols args) ++ [Key (L "->")] ++ expr_symbols e
  | Application f x => expr_symbols f ++ expr_symbols x
  | BinOp o a b => expr_symbols a ++ expr_symbols o ++ expr_symbols b
  end
with entry_symbols (x : let_entry) : list symbol :=
  match x with
  | LetFunction f => func_symbols f
  | LetBinding t e => expr_symbols t ++ [Key (L "=")] ++ expr_symbols e
  end
with func_symbols (f : func) : list symbol :=
  match f with mkFunc sg d => sig_symbols sg ++ def_symbols d end
with def_symbols (d : func_def) : list symbol :=
  match d with
  | mkDef n args e => [Name n] ++ concat (map expr_symbols args) ++ [Key (L "=")] ++ expr_symbols e
  end.

Fixpoint export_symbols (e : export_set) : list symbol :=
  match e with
  | AllExport => [Key (L "..")]
  | SubsetExport l => sep_by (L ",") (map export_symbols l)
  | FunctionExport n => [Name n]
  | TypeExport n None => [Name n]
  | TypeExport n (Some c) => [Name n] ++ export_symbols c
  end.

Definition statement_symbols (st : statement_ast) : list symbol :=
  match st with
  | ModuleDeclaration q e => [Key (L "module")] ++ path q ++ [Key (L "exposing")] ++ export_symbols e
  | PortModuleDeclaration q e =>
      [Key (L "port"); Key (L "module")] ++ path q ++ [Key (L "exposing")] ++ export_symbols e
  | EffectModuleDeclaration q fs e =>
      [Key (L "effect"); Key (L "module")] ++ path q ++ [Key (L "where"); Key (L "{")] ++
      sep_by (L ",") (map (fun f => [Name (fst f); Key (L "="); Name (snd f)]) fs) ++
      [Key (L "}"); Key (L "exposing")] ++ export_symbols e
  | ImportStatement q al ex =>
      [Key (L "import")] ++ path q ++
      match al with None => [] | Some a => [Key (L "as"); Name a] end ++
      match ex with None => [] | Some e => [Key (L "exposing")] ++ export_symbols e end
  | TypeAliasDeclaration n t => [Key (L "type"); Key (L "alias")] ++ type_symbols n ++ [Key (L "=")] ++ type_symbols t
  | TypeDeclaration n cs =>
      [Key (L "type")] ++ type_symbols n ++ [Key (L "=")] ++ sep_by (L "|") (map type_symbols cs)
  | PortTypeDeclaration n t => [Key (L "port"); Name n; Key (L ":")] ++ type_symbols t
  | PortDeclaration n args e =>
      [Key (L "port"); Name n] ++ map Name args ++ [Key (L "=")] ++ expr_symbols e
  | Function_ f => func_symbols f
  | InfixDeclaration a p n =>
      [Key (match a with AssocL => L "infixl" | AssocR => L "infixr" | AssocN => L "infix" end); Prec p; Name n]
  | Comment c => [Remark c]
  end.

(** ** How a symbol is written *)
Definition keys : list str :=
  [L "module"; L "port"; L "effect"; L "where"; L "exposing"; L "import"; L "as"; L "type"; L "alias";
   L "infixl"; L "infixr"; L "infix"; L "let"; L "in"; L "case"; L "of"; L "if"; L "then"; L "else";
   L "{"; L "}"; L "["; L "]"; L ","; L "."; L ".."; L "="; L "|"; L ":"; L "->"; L "\"].
(** A name of a value, of a type, of a type variable; an operator; the function that makes tuples *)
Definition name_shape (n : str) : Prop :=
  lower_name n \/ upper_name n \/ type_var_name n \/ operator_name n \/ infix_operator n \/
  (n <> [] /\ forallb (fun c => (c =? C ",")%N) n = true).
Inductive spelled : symbol -> str -> Prop :=
| sp_key k : In k keys -> spelled (Key k) k
| sp_name n : name_shape n -> spelled (Name n) n
| sp_label n : lower_name n -> spelled (Label n) n
| sp_number s : integer_text s \/ float_text s -> spelled (Number s) s
| sp_text s : string_content s -> spelled (Text s) ([quote] ++ s ++ [quote])
| sp_text3 s : no_quote s -> spelled (Text s) ([quote; quote; quote] ++ s ++ [quote; quote; quote])
| sp_char c w : char_content w c -> spelled (Chr c) ([squote] ++ w ++ [squote])
| sp_prec d : digits1 d -> spelled (Prec (dec_value d)) d
| sp_line c : forallb not_newline c = true -> spelled (Remark c) (L "--" ++ c)
| sp_block c : ~ (exists a b, c = a ++ L "-}" ++ b) -> spelled (Remark c) (L "{-" ++ c ++ L "-}").

(** Two words do not touch: if [w] ends with a letter, digit or underscore, then [s] does not
    go on with one. *)
Definition apart (w s : str) : Prop := is_name_char (last w space) = true -> ends is_name_char s.

(** Blank space, a round bracket *)
Inductive filler : str -> Prop :=
| fl_blank c : is_blank c = true -> filler [c]
| fl_open : filler (L "(")
| fl_close : filler (L ")").

(** [written l s]: [s] is the symbols [l] in this order, with nothing but filler and
    comments to the end of the line between them, and no word touches another one.
    A field [a = a] may be written [a]. *)
Inductive written : list symbol -> str -> Prop :=
| wr_nil : written [] []
| wr_symbol x w l s : spelled x w -> apart w s -> written l s -> written (x :: l) (w ++ s)
| wr_filler g l s : filler g -> written l s -> written l (g ++ s)
| wr_comment c l s : forallb not_newline c = true -> line_end s -> written l s -> written l (L "--" ++ c ++ s)
| wr_short n l s : lower_name n -> apart n s -> written l s -> written (Label n :: Key (L "=") :: Name n :: l) (n ++ s).

(** ** Every text of a tree is its symbols and filler *)

Definition reads (l : list symbol) (w : str) : Prop :=
  forall l' s, apart w s -> written l' s -> written (l ++ l') (w ++ s).
(** [w] does not start, or does not end, with a word *)
Definition fine_start (w : str) : Prop := ends is_name_char w.
Definition fine_end (w : str) : Prop := is_name_char (last w space) = false.
Definition joint (v w : str) : Prop := fine_end v \/ fine_start w.

Lemma last_app {A} (v w : list A) d : last (v ++ w) d = match w with [] => last v d | _ => last w d end.
Proof.
  destruct w as [|c w]; [rewrite app_nil_r; reflexivity|].
  induction v as [|x v IH]; [reflexivity|]. cbn [app]. rewrite <- IH. cbn. destruct (v ++ c :: w) eqn:E; [destruct v; discriminate|reflexivity].
Qed.
Lemma fine_start_app v w : fine_start v -> fine_start w -> fine_start (v ++ w).
Proof. destruct v; cbn; auto. Qed.
Lemma fine_end_app v w : fine_end v -> fine_end w -> fine_end (v ++ w).
Proof. unfold fine_end. rewrite last_app. destruct w; auto. Qed.
Lemma fine_end_app_r v c w : fine_end (c :: w) -> fine_end (v ++ c :: w).
Proof. unfold fine_end. rewrite last_app. auto. Qed.
Lemma joint_apart v w s : joint v w -> apart (v ++ w) s -> apart v (w ++ s) /\ apart w s.
Proof.
  unfold joint, fine_end, fine_start, apart. rewrite last_app. intros J H. destruct w as [|c w].
  - split; [exact H|]. cbn. discriminate.
  - split; [|exact H]. intros K. destruct J as [J|J]; [congruence|exact J].
Qed.

Lemma reads_app a v b w : joint v w -> reads a v -> reads b w -> reads (a ++ b) (v ++ w).
Proof. intros J Ha Hb l s K H. destruct (joint_apart _ _ _ J K). rewrite <- !app_assoc. apply Ha; auto. Qed.
Lemma reads_cons x v b w : joint v w -> reads [x] v -> reads b w -> reads (x :: b) (v ++ w).
Proof. apply (reads_app [x]). Qed.
Lemma reads_snoc a v w : joint v w -> reads a v -> reads [] w -> reads a (v ++ w).
Proof. intros J Ha Hb. rewrite <- (app_nil_r a). apply reads_app; assumption. Qed.
Lemma reads_gap g b w : joint g w -> reads [] g -> reads b w -> reads b (g ++ w).
Proof. apply (reads_app []). Qed.
Lemma reads_nil : reads [] [].
Proof. intros l s _ H. exact H. Qed.
Lemma reads_symbol x w : spelled x w -> reads [x] w.
Proof. intros Hx l s K H. apply wr_symbol; assumption. Qed.
Lemma reads_filler g : filler g -> reads [] g.
Proof. intros Hg l s K H. apply wr_filler; assumption. Qed.
Lemma reads_short n : lower_name n -> reads [Label n; Key (L "="); Name n] n.
Proof. intros Hn l s K H. apply wr_short; assumption. Qed.
Lemma reads_key k : mem_str k keys = true -> reads [Key k] k.
Proof. intros H. apply reads_symbol. constructor. apply mem_str_In, H. Qed.
Lemma reads_name k : name_shape k -> reads [Name k] k.
Proof. intros H. apply reads_symbol. constructor. exact H. Qed.
Lemma ns_lower n : lower_name n -> name_shape n.
Proof. unfold name_shape. auto. Qed.
Lemma ns_upper n : upper_name n -> name_shape n.
Proof. unfold name_shape. auto. Qed.
Lemma ns_var n : type_var_name n -> name_shape n.
Proof. unfold name_shape. auto. Qed.
Lemma ns_operator n : operator_name n -> name_shape n.
Proof. unfold name_shape. auto. Qed.
Lemma ns_infix n : infix_operator n -> name_shape n.
Proof. unfold name_shape. auto 7. Qed.
Lemma ns_either n : lower_name n \/ operator_name n -> name_shape n.
Proof. unfold name_shape. tauto. Qed.
Lemma ns_commas n : n <> [] -> forallb (fun c => (c =? C ",")%N) n = true -> name_shape n.
Proof. unfold name_shape. auto 9. Qed.

Lemma blank_not_name c : is_blank c = true -> is_name_char c = false.
Proof. unfold is_blank. cbn. rewrite !orb_true_iff, !N.eqb_eq. intuition (subst; try reflexivity; try discriminate). Qed.
Lemma blanks_start b : blanks b -> fine_start b.
Proof. destruct b as [|c b]; cbn; [auto|]. unfold blanks. cbn. intros [H _]%andb_true_iff. apply blank_not_name, H. Qed.
Lemma blanks_end b : blanks b -> fine_end b.
Proof.
  unfold blanks, fine_end. intros H. destruct b as [|c b]; [reflexivity|]. destruct (@exists_last _ (c :: b)) as (u & z & E'); [discriminate|]. rewrite E' in *. rewrite last_last.
  rewrite forallb_app in H. cbn in H. apply blank_not_name. apply andb_true_iff in H as [_ H]. rewrite andb_true_r in H. exact H.
Qed.
Lemma reads_blanks b : blanks b -> reads [] b.
Proof.
  unfold blanks. induction b as [|c b IH]; cbn; [intros _; apply reads_nil|].
  intros [H1 H2]%andb_true_iff. apply (reads_gap [c]); [left; apply blank_not_name, H1|apply reads_filler; constructor; exact H1|auto].
Qed.
Lemma blanks_of (P : char -> bool) b : (forall c, P c = true -> is_blank c = true) -> forallb P b = true -> blanks b.
Proof.
  intros HP. unfold blanks. induction b as [|c b IH]; cbn [forallb]; [auto|]. intros [H1 H2]%andb_true_iff. rewrite HP by assumption. auto.
Qed.
Lemma bl_all_spaces b : all_spaces b = true -> blanks b.
Proof. apply blanks_of. intros c H%N.eqb_eq. subst. reflexivity. Qed.
Lemma bl_spaces1 b : spaces1 b -> blanks1 b.
Proof. intros [H1 H]. split; [exact H1|]. apply bl_all_spaces, H. Qed.
Lemma bl_ospaces b : ospaces b -> blanks b.
Proof. apply bl_all_spaces. Qed.
Lemma bl_ospnl b : ospnl b -> blanks b.
Proof. apply blanks_of. intros c [H|H]%orb_true_iff; apply N.eqb_eq in H; subst; reflexivity. Qed.
Lemma bl_spnl1 b : spnl1 b -> blanks1 b.
Proof. intros [H1 H]. split; [exact H1|]. apply bl_ospnl, H. Qed.
Lemma bl_tabs1 b : tabs1 b -> blanks1 b.
Proof.
  intros [H1 H]. split; [exact H1|]. revert H. apply blanks_of.
  intros c [H|H]%orb_true_iff; apply N.eqb_eq in H; subst; reflexivity.
Qed.

(** blank space of any kind *)
Definition space_like (t : str) : Prop := reads [] t /\ fine_start t /\ fine_end t.
Lemma sl_blanks b : blanks b -> space_like b.
Proof. intros H. split; [apply reads_blanks, H|split; [apply blanks_start, H|apply blanks_end, H]]. Qed.

Lemma trivia_start t : trivia t -> fine_start t.
Proof. intros H; destruct H; reflexivity || exact I. Qed.
Lemma all_spaces_closed t : all_spaces (last_line t) = true -> fine_end t.
Proof.
  intros H. induction t as [|c t IH]; [reflexivity|]. cbn in H. destruct (has_newline t) eqn:E.
  - apply IH in H. destruct t; [discriminate|exact H].
  - destruct (c =? newline)%N eqn:Ec.
    + apply N.eqb_eq in Ec. subst c. destruct t as [|d t]; [reflexivity|].
      apply bl_all_spaces, blanks_end in H. exact H.
    + apply bl_all_spaces, blanks_end in H. exact H.
Qed.
Lemma last_line_id t : has_newline t = false -> last_line t = t.
Proof.
  destruct t as [|c t]; [reflexivity|]. unfold has_newline. cbn. intros [H1 H2]%orb_false_iff. unfold has_newline. rewrite H2, H1. reflexivity.
Qed.
Lemma trivia_written t l s : trivia t -> closed t -> written l s -> written l (t ++ s).
Proof.
  intros H. unfold closed. induction H as [|t H IH|t H IH|c t Hc Hl H IH]; intros K W.
  - exact W.
  - apply (wr_filler [space]); [constructor; reflexivity|]. apply IH; [|exact W].
    cbn [last_line] in K. destruct (has_newline t) eqn:E; [exact K|]. rewrite last_line_id by exact E. exact K.
  - apply (wr_filler [newline]); [constructor; reflexivity|]. apply IH; [|exact W].
    cbn [last_line] in K. destruct (has_newline t) eqn:E; [exact K|]. rewrite last_line_id by exact E. exact K.
  - destruct t as [|d t].
    + exfalso. rewrite app_nil_r in K.
      assert (N : has_newline (L "--" ++ c) = false).
      { clear - Hc. induction c as [|x c IH]; [reflexivity|]. cbn in Hc. apply andb_true_iff in Hc as [H1 H2]. apply IH in H2.
        unfold not_newline in H1. cbn in *. destruct (x =? newline)%N; [discriminate|exact H2]. }
      rewrite last_line_id in K by exact N. discriminate.
    + rewrite <- !app_assoc. apply wr_comment; [exact Hc|cbn in Hl; cbn; exact Hl|]. apply IH; [|exact W].
      cbn in Hl. subst d.
      assert (R : forall v, last_line (v ++ newline :: t) = last_line (newline :: t)).
      { induction v as [|x v IHv]; [reflexivity|].
        assert (Q : has_newline (v ++ newline :: t) = true).
        { unfold has_newline. rewrite existsb_app. cbn. rewrite orb_true_r. reflexivity. }
        change ((x :: v) ++ newline :: t) with (x :: (v ++ newline :: t)). cbn [last_line]. rewrite Q. exact IHv. }
      rewrite app_assoc, R in K. exact K.
Qed.
Definition space1 (t : str) : Prop := space_like t /\ t <> [].
Lemma sl_blanks1 b : blanks1 b -> space1 b.
Proof. intros [H1 H]. split; [apply sl_blanks, H|exact H1]. Qed.
Lemma sl_lay R i t j : lay R i t j -> space1 t.
Proof.
  intros (H & Hc & Hn & _). split; [|exact Hn]. split; [|split; [apply trivia_start, H|apply all_spaces_closed, Hc]].
  intros l s _ W. apply trivia_written; assumption.
Qed.
Lemma sl_olay i t : olay i t -> space_like t.
Proof. intros [->|[j H]]; [apply sl_blanks; reflexivity|apply (sl_lay _ _ _ _ H)]. Qed.
Lemma sl_lay0 t : lay0 t -> space1 t.
Proof. intros [j H]. eapply sl_lay, H. Qed.

Lemma fs_char c w : is_name_char c = false -> fine_start (c :: w).
Proof. auto. Qed.
Lemma sp_reads t : space_like t -> reads [] t.
Proof. intros H. apply H. Qed.
Lemma sp_start t : space_like t -> fine_start t.
Proof. intros H. apply H. Qed.
Lemma sp_end t : space_like t -> fine_end t.
Proof. intros H. apply H. Qed.
Lemma sp1_reads t : space1 t -> reads [] t.
Proof. intros H. apply H. Qed.
Lemma sp1_start t w : space1 t -> fine_start (t ++ w).
Proof. intros [(_ & H & _) Hn]. destruct t; [congruence|exact H]. Qed.
Lemma sp1_start0 t : space1 t -> fine_start t.
Proof. intros [(_ & H & _) _]. exact H. Qed.
Lemma sp1_end t : space1 t -> fine_end t.
Proof. intros H. apply H. Qed.

Lemma sep_by_cons k x l : l <> [] -> sep_by k (x :: l) = x ++ [Key k] ++ sep_by k l.
Proof. destruct l; [congruence|reflexivity]. Qed.
Lemma map_not_nil {A B} (f : A -> B) l : l <> [] -> map f l <> [].
Proof. destruct l; [congruence|discriminate]. Qed.

Lemma rd_open : reads [] (L "(").
Proof. exact (reads_filler _ fl_open). Qed.
Lemma rd_close : reads [] (L ")").
Proof. exact (reads_filler _ fl_close). Qed.
Lemma rd_newline : reads [] [newline].
Proof. apply reads_filler, fl_blank. reflexivity. Qed.
Lemma flat_start fs : fine_start (flat_map (fun f => L "." ++ f) fs).
Proof. destruct fs; [exact I|reflexivity]. Qed.

#[export] Hint Extern 1 (mem_str _ keys = true) => reflexivity : rd.
#[export] Hint Resolve ns_lower ns_upper ns_var ns_operator ns_infix ns_either ns_commas : rd.
#[export] Hint Resolve reads_nil reads_key reads_name reads_blanks rd_open rd_close rd_newline sp_reads sp_start sp_end sp1_reads sp1_start sp1_start0 sp1_end flat_start : rd.

(** all blank space becomes [space_like] *)
Ltac blank_space :=
  repeat match goal with
  | H : _ /\ _ |- _ => destruct H
  | H : lay_ge _ _ _ |- _ => apply sl_lay in H
  | H : lay_gt _ _ _ |- _ => apply sl_lay in H
  | H : lay_eq _ _ _ |- _ => apply sl_lay in H
  | H : olay _ _ |- _ => apply sl_olay in H
  | H : lay0 _ |- _ => apply sl_lay0 in H
  | H : blanks1 _ |- _ => apply sl_blanks1 in H
  | H : spaces1 _ |- _ => apply bl_spaces1 in H
  | H : ospaces _ |- _ => apply bl_ospaces in H
  | H : all_spaces _ = true |- _ => apply bl_all_spaces in H
  | H : spnl1 _ |- _ => apply bl_spnl1 in H
  | H : ospnl _ |- _ => apply bl_ospnl in H
  | H : tabs1 _ |- _ => apply bl_tabs1 in H
  | H : blanks _ |- _ => apply sl_blanks in H
  end.

Ltac gap1 := first [assumption | solve [eauto 3 with rd]].
Ltac fstart := first [assumption | exact (eq_refl false) | exact I | solve [eauto 2 with rd] | apply fine_start_app; [fstart|fstart]].
Ltac fend := first [assumption | exact (eq_refl false) | solve [eauto 2 with rd] | apply fine_end_app; [fend|fend]].
Ltac jt := solve [left; fend | right; fstart].
Ltac flat := repeat first [rewrite <- app_assoc | rewrite <- (app_comm_cons (A:=symbol)) | rewrite (app_nil_l (A:=symbol)) | rewrite (app_nil_r (A:=symbol))].
Ltac rd :=
  flat;
  repeat lazymatch goal with
  | |- reads ?l (?w ++ ?s) =>
      first [ apply reads_gap; [solve [jt]|solve [gap1]|]
            | apply reads_cons; [solve [jt]|solve [gap1]|]
            | apply reads_app; [solve [jt]|solve [gap1]|]
            | apply reads_snoc; [solve [jt]|solve [gap1]|] ]
  | |- reads _ _ => solve [gap1]
  end.

Lemma reads_path q : q <> [] -> Forall upper_name q -> reads (path q) (dotted q).
Proof.
  intros Hq Hs. induction q as [|x q IH]; [congruence|]. apply Forall_cons_iff in Hs as [Hx Hs].
  destruct q as [|y q]; [apply reads_name, ns_upper, Hx|].
  change (reads ([Name x] ++ [Key (L ".")] ++ path (y :: q)) (x ++ L "." ++ dotted (y :: q))).
  specialize (IH ltac:(discriminate) Hs). rd.
Qed.
Lemma reads_qualified q : qualified q -> reads (path q) (dotted q).
Proof. intros [H1 H2]. apply reads_path; assumption. Qed.
Lemma flat_fields fs : Forall lower_name fs -> reads (concat (map (fun f => [Key (L "."); Name f]) fs)) (flat_map (fun f => L "." ++ f) fs).
Proof.
  induction fs as [|f fs IH]; intros Hs; [apply reads_nil|]. apply Forall_cons_iff in Hs as [Hf Hs]. specialize (IH Hs).
  change (reads ([Key (L ".")] ++ [Name f] ++ concat (map (fun f => [Key (L "."); Name f]) fs)) ((L "." ++ f) ++ flat_map (fun f => L "." ++ f) fs)).
  rd.
Qed.
#[export] Hint Resolve reads_qualified flat_fields : rd.

Lemma start_params i ts w : GParams i ts w -> fine_start w.
Proof. intros H; destruct H; [exact I|]. blank_space. fstart. Qed.
#[export] Hint Resolve start_params : rd.

(** *** Types *)
Definition fields_t (fs : list (str * type_ast)) : list symbol :=
  sep_by (L ",") (map (fun f => [Name (fst f); Key (L ":")] ++ type_symbols (snd f)) fs).

Lemma rd_types :
  (forall i t w, GTy i t w -> reads (type_symbols t) w) /\
  (forall i t w, GTySimple i t w -> reads (type_symbols t) w) /\
  (forall i t w, GParam i t w -> reads (type_symbols t) w) /\
  (forall i ts w, GParams i ts w -> reads (concat (map type_symbols ts)) w) /\
  (forall i ts w, GTyElems i ts w -> ts <> [] /\ reads (sep_by (L ",") (map type_symbols ts)) w) /\
  (forall i fs w, GTyFields i fs w -> fs <> [] /\ reads (fields_t fs) w) /\
  (forall i n t w, GTyField i n t w -> reads ([Name n; Key (L ":")] ++ type_symbols t) w) /\
  (forall i t w, GAnn i t w -> reads (type_symbols t) w).
Proof.
  apply (GType_ind
    (fun _ t w _ => reads (type_symbols t) w)
    (fun _ t w _ => reads (type_symbols t) w)
    (fun _ t w _ => reads (type_symbols t) w)
    (fun _ ts w _ => reads (concat (map type_symbols ts)) w)
    (fun _ ts w _ => ts <> [] /\ reads (sep_by (L ",") (map type_symbols ts)) w)
    (fun _ fs w _ => fs <> [] /\ reads (fields_t fs) w)
    (fun _ n t w _ => reads ([Name n; Key (L ":")] ++ type_symbols t) w)
    (fun _ t w _ => reads (type_symbols t) w)); intros;
    blank_space; cbn [type_symbols map concat];
    try solve [assumption | fold (fields_t fs); rd | rd].
  - split; [discriminate|assumption].
  - split; [discriminate|]. rewrite sep_by_cons by (apply map_not_nil; assumption). rd.
  - split; [discriminate|assumption].
  - split; [discriminate|]. unfold fields_t in *. cbn [map]. rewrite sep_by_cons by (apply map_not_nil; assumption).
    cbn [fst snd]. apply reads_app; [jt|assumption|]. rd.
Qed.
Lemma rd_ty i t w : GTy i t w -> reads (type_symbols t) w.
Proof. apply rd_types. Qed.
Lemma rd_ann i t w : GAnn i t w -> reads (type_symbols t) w.
Proof. apply rd_types. Qed.
Lemma rd_params i ts w : GParams i ts w -> reads (concat (map type_symbols ts)) w.
Proof. apply rd_types. Qed.

(** *** Expressions *)
Lemma rd_GVar e w : GVar e w -> reads (expr_symbols e) w.
Proof. intros H; destruct H; cbn [expr_symbols]; try change (path [?x]) with [Name x]; rd. Qed.
Lemma rd_GName n w : GName n w -> reads [Name n] w.
Proof. intros H; destruct H; blank_space; rd. Qed.

Definition fields_e (fs : list (str * expr)) : list symbol :=
  sep_by (L ",") (map (fun f => [Label (fst f); Key (L "=")] ++ expr_symbols (snd f)) fs).
Definition fields_u (fs : list (str * expr)) : list symbol :=
  sep_by (L ",") (map (fun f => [Name (fst f); Key (L "=")] ++ expr_symbols (snd f)) fs).

Lemma rd_GNames fs w : GNames fs w -> fs <> [] /\ reads (fields_e fs) w.
Proof.
  induction 1 as [b1 n b2 H1 Hn H2|b1 n b2 fs w H1 Hn H2 H [IH0 IH]]; (split; [discriminate|]); unfold fields_e in *; cbn [map fst snd]; blank_space.
  - change (reads ([Label n; Key (L "="); Name n]) (b1 ++ n ++ b2)). apply reads_gap; [jt|gap1|]. apply reads_snoc; [jt|apply reads_short, Hn|gap1].
  - rewrite sep_by_cons by (apply map_not_nil; assumption).
    apply reads_gap; [jt|gap1|]. apply (reads_app [Label n; Key (L "="); Name n]); [jt|apply reads_short, Hn|]. rd.
Qed.
Lemma rd_braces : reads [Key (L "{"); Key (L "}")] (L "{}").
Proof. apply (reads_cons _ (L "{") _ (L "}")); [jt|gap1|gap1]. Qed.
Lemma rd_unit : reads [] (L "()").
Proof. apply (reads_gap (L "(") [] (L ")")); [jt|rd|rd]. Qed.
Lemma rd_GNameRecord e w : GNameRecord e w -> reads (expr_symbols e) w.
Proof.
  intros H; destruct H; cbn [expr_symbols].
  - apply rd_braces.
  - apply rd_GNames in H. destruct H as [_ H]. fold (fields_e fs). rd.
Qed.
Lemma rd_GSig i g w : GSig i g w -> reads ([Name (sig_name g); Key (L ":")] ++ type_symbols (sig_type g)) w.
Proof. intros H; destruct H. apply rd_GName in H. apply rd_ann in H2. blank_space. cbn [sig_name sig_type]. rd. Qed.
Lemma rd_string s : string_content s -> reads [Text s] ([quote] ++ s ++ [quote]).
Proof. intros H. apply reads_symbol. constructor. exact H. Qed.
Lemma rd_string3 s : no_quote s -> reads [Text s] ([quote; quote; quote] ++ s ++ [quote; quote; quote]).
Proof. intros H. apply reads_symbol. constructor. exact H. Qed.
Lemma rd_integer s : integer_text s -> reads [Number s] s.
Proof. intros H. apply reads_symbol. constructor. left. exact H. Qed.
Lemma rd_float s : float_text s -> reads [Number s] s.
Proof. intros H. apply reads_symbol. constructor. right. exact H. Qed.
Lemma rd_label s : lower_name s -> reads [Label s] s.
Proof. intros H. apply reads_symbol. constructor. exact H. Qed.
Lemma rd_chr c w : char_content w c -> reads [Chr c] ([squote] ++ w ++ [squote]).
Proof. intros H. apply reads_symbol. constructor. exact H. Qed.
#[export] Hint Resolve rd_string rd_string3 rd_integer rd_float rd_chr rd_label rd_unit rd_braces flat_fields : rd.

Lemma start_defargs i es w : GDefArgs i es w -> fine_start w.
Proof. intros H; destruct H; [exact I|]. blank_space. fstart. Qed.
#[export] Hint Resolve start_defargs : rd.

Lemma rd_exprs :
  (forall i e w, GE i e w -> reads (expr_symbols e) w) /\
  (forall i e w, GApp i e w -> reads (expr_symbols e) w) /\
  (forall i e w, GTerm i e w -> reads (expr_symbols e) w) /\
  (forall i e w, GList i e w -> reads (expr_symbols e) w) /\
  (forall i es w, GElems i es w -> es <> [] /\ reads (sep_by (L ",") (map expr_symbols es)) w) /\
  (forall i e w, GTuple i e w -> reads (expr_symbols e) w) /\
  (forall i es w, GTupleElems i es w -> es <> [] /\ reads (sep_by (L ",") (map expr_symbols es)) w) /\
  (forall i fs w, GFields i fs w -> fs <> [] /\ reads (fields_e fs) w) /\
  (forall i n e w, GField i n e w -> reads ([Label n; Key (L "=")] ++ expr_symbols e) w) /\
  (forall i fs w, GUpdates i fs w -> fs <> [] /\ reads (fields_u fs) w) /\
  (forall i n e w, GUpdate i n e w -> reads ([Name n; Key (L "=")] ++ expr_symbols e) w) /\
  (forall i es w, GLamArgs i es w -> reads (concat (map expr_symbols es)) w) /\
  (forall i es w, GEntries i es w -> reads (concat (map entry_symbols es)) w) /\
  (forall i x w, GEntry i x w -> reads (entry_symbols x) w) /\
  (forall i e w, GTarget i e w -> reads (expr_symbols e) w) /\
  (forall i f w, GFunc i f w -> reads (func_symbols f) w) /\
  (forall i d w, GDef i d w -> reads (def_symbols d) w) /\
  (forall i es w, GDefArgs i es w -> reads (concat (map expr_symbols es)) w) /\
  (forall i bs w, GBranches i bs w ->
     reads (concat (map (fun b => expr_symbols (fst b) ++ [Key (L "->")] ++ expr_symbols (snd b)) bs)) w) /\
  (forall i p e w, GBranch i p e w -> reads (expr_symbols p ++ [Key (L "->")] ++ expr_symbols e) w).
Proof.
  apply (GExpr_ind
    (fun _ e w _ => reads (expr_symbols e) w)
    (fun _ e w _ => reads (expr_symbols e) w)
    (fun _ e w _ => reads (expr_symbols e) w)
    (fun _ e w _ => reads (expr_symbols e) w)
    (fun _ es w _ => es <> [] /\ reads (sep_by (L ",") (map expr_symbols es)) w)
    (fun _ e w _ => reads (expr_symbols e) w)
    (fun _ es w _ => es <> [] /\ reads (sep_by (L ",") (map expr_symbols es)) w)
    (fun _ fs w _ => fs <> [] /\ reads (fields_e fs) w)
    (fun _ n e w _ => reads ([Label n; Key (L "=")] ++ expr_symbols e) w)
    (fun _ fs w _ => fs <> [] /\ reads (fields_u fs) w)
    (fun _ n e w _ => reads ([Name n; Key (L "=")] ++ expr_symbols e) w)
    (fun _ es w _ => reads (concat (map expr_symbols es)) w)
    (fun _ es w _ => reads (concat (map entry_symbols es)) w)
    (fun _ x w _ => reads (entry_symbols x) w)
    (fun _ e w _ => reads (expr_symbols e) w)
    (fun _ f w _ => reads (func_symbols f) w)
    (fun _ d w _ => reads (def_symbols d) w)
    (fun _ es w _ => reads (concat (map expr_symbols es)) w)
    (fun _ bs w _ =>
       reads (concat (map (fun b => expr_symbols (fst b) ++ [Key (L "->")] ++ expr_symbols (snd b)) bs)) w)
    (fun _ p e w _ => reads (expr_symbols p ++ [Key (L "->")] ++ expr_symbols e) w)); intros;
    repeat match goal with
      | H : _ /\ _ |- _ => destruct H
      | H : GVar _ _ |- _ => apply rd_GVar in H
      | H : GName _ _ |- _ => apply rd_GName in H
      | H : GSig _ _ _ |- _ => apply rd_GSig in H
      | H : GNameRecord _ _ |- _ => apply rd_GNameRecord in H
    end;
    blank_space;
    cbn [expr_symbols entry_symbols func_symbols def_symbols sig_symbols map concat];
    try match goal with fs : list (str * expr) |- _ => fold (fields_e fs); fold (fields_u fs) end;
    try solve [assumption | rd].
  - apply rd_string3. assumption.
  - apply rd_string. assumption.
  - apply rd_chr. assumption.
  - split; [discriminate|assumption].
  - split; [discriminate|]. rewrite sep_by_cons by (apply map_not_nil; assumption). rd.
  - split; [discriminate|]. cbn [sep_by]. rd.
  - split; [discriminate|]. rewrite sep_by_cons by (apply map_not_nil; assumption). rd.
  - split; [discriminate|assumption].
  - split; [discriminate|]. unfold fields_e in *. cbn [map]. rewrite sep_by_cons by (apply map_not_nil; assumption).
    apply reads_app; [jt|assumption|]. rd.
  - split; [discriminate|assumption].
  - split; [discriminate|]. unfold fields_u in *. cbn [map]. rewrite sep_by_cons by (apply map_not_nil; assumption).
    apply reads_app; [jt|assumption|]. rd.
  - apply reads_app; [jt|assumption|]. rd.
  - apply reads_app; [jt|assumption|]. rd.
Qed.
Lemma rd_GE i e w : GE i e w -> reads (expr_symbols e) w.
Proof. apply rd_exprs. Qed.
Lemma rd_GFunc i f w : GFunc i f w -> reads (func_symbols f) w.
Proof. apply rd_exprs. Qed.

(** *** Statements *)
Lemma rd_join q : q <> [] -> Forall upper_name q -> reads (sep_by (L ",") (map export_symbols (map FunctionExport q))) (join (L ", ") q).
Proof.
  intros Hq Hs. induction q as [|x q IH]; [congruence|]. apply Forall_cons_iff in Hs as [Hx Hs].
  destruct q as [|y q]; [apply reads_name, ns_upper, Hx|].
  cbn [map]. rewrite sep_by_cons by discriminate. 
  change (join (L ", ") (x :: y :: q)) with (x ++ L "," ++ [space] ++ join (L ", ") (y :: q)).
  apply reads_app; [jt|apply reads_name, ns_upper, Hx|]. apply reads_app; [jt|apply reads_key; reflexivity|].
  apply reads_gap; [jt|apply reads_filler, fl_blank; reflexivity|]. apply IH; [discriminate|exact Hs].
Qed.
Lemma rd_all : reads [Key (L "..")] (L "(..)").
Proof.
  change (L "(..)") with (L "(" ++ L ".." ++ L ")"). apply reads_gap; [jt|apply rd_open|]. apply reads_snoc; [jt|gap1|apply rd_close].
Qed.
Lemma rd_GExportItem e w : GExportItem e w -> reads (export_symbols e) w.
Proof.
  intros H; destruct H; cbn [export_symbols]; try solve [rd].
  - apply reads_app; [jt|gap1|apply rd_all].
  - apply reads_app; [jt|gap1|]. apply reads_gap; [jt|apply rd_open|]. apply reads_snoc; [jt| |apply rd_close].
    apply rd_join; apply H0.
Qed.
Lemma rd_GExportItems es w : GExportItems es w -> es <> [] /\ reads (sep_by (L ",") (map export_symbols es)) w.
Proof.
  induction 1 as [e w H|e w b1 b2 es w' H H1 H2 H3 [IH0 IH]]; apply rd_GExportItem in H; (split; [discriminate|]); blank_space.
  - exact H.
  - cbn [map]. rewrite sep_by_cons by (apply map_not_nil; assumption). rd.
Qed.
Lemma rd_GExports e w : GExports e w -> reads (export_symbols e) w.
Proof. intros H; destruct H; [|apply rd_GExportItems in H0; destruct H0 as [_ H0]]; blank_space; cbn [export_symbols]; rd. Qed.

Definition fields_x (fs : list (str * str)) : list symbol :=
  sep_by (L ",") (map (fun f => [Name (fst f); Key (L "="); Name (snd f)]) fs).
Lemma rd_GEffectField f w : GEffectField f w -> reads [Name (fst f); Key (L "="); Name (snd f)] w.
Proof. intros H; destruct H. blank_space. cbn [fst snd]. rd. Qed.
Lemma rd_GEffectFields fs w : GEffectFields fs w -> fs <> [] /\ reads (fields_x fs) w.
Proof.
  induction 1 as [f w H|f w fs w' H H1 [IH0 IH]]; apply rd_GEffectField in H; (split; [discriminate|]).
  - exact H.
  - unfold fields_x in *. cbn [map]. rewrite sep_by_cons by (apply map_not_nil; assumption).
    change (L ", " ++ w') with (L "," ++ [space] ++ w'). apply reads_app; [jt|exact H|].
    apply reads_app; [jt|gap1|]. apply reads_gap; [jt|apply reads_filler, fl_blank; reflexivity|exact IH].
Qed.
Lemma rd_GConstructors m cs w : GConstructors m cs w -> cs <> [] /\ reads (sep_by (L "|") (map type_symbols cs)) w.
Proof.
  induction 1 as [m q args w Hq H|m q args w t j b cs w' Hq H Ht Hb H1 [IH0 IH]]; pose proof (start_params _ _ _ H); apply rd_params in H; (split; [discriminate|]); cbn [map].
  - cbn [sep_by type_symbols]. rd.
  - rewrite sep_by_cons by (apply map_not_nil; assumption). cbn [type_symbols]. blank_space. rd.
Qed.
Lemma start_portargs ns w : GPortArgs ns w -> fine_start w.
Proof. intros H; destruct H; [exact I|]. blank_space. fstart. Qed.
Lemma start_alias al w : GAlias al w -> fine_start w.
Proof. intros H; destruct H; [exact I|]. blank_space. fstart. Qed.
Lemma start_exposing ex w : GExposing ex w -> fine_start w.
Proof. intros H; destruct H; [exact I|]. blank_space. fstart. Qed.
#[export] Hint Resolve start_portargs start_alias start_exposing : rd.
Lemma rd_GPortArgs ns w : GPortArgs ns w -> reads (map Name ns) w.
Proof. induction 1; blank_space; cbn [map]; rd. Qed.
Lemma rd_GAlias al w : GAlias al w ->
  reads (match al with None => [] | Some a => [Key (L "as"); Name a] end) w.
Proof. intros H; destruct H; blank_space; rd. Qed.
Lemma rd_GExposing ex w : GExposing ex w ->
  reads (match ex with None => [] | Some e => [Key (L "exposing")] ++ export_symbols e end) w.
Proof. intros H; destruct H; [rd|]. apply rd_GExports in H1. blank_space. rd. Qed.
Lemma rd_prec d : digits1 d -> reads [Prec (dec_value d)] d.
Proof. intros H. apply reads_symbol. constructor. exact H. Qed.
#[export] Hint Resolve rd_prec : rd.

Lemma rd_GStmt st w : GStmt st w -> reads (statement_symbols st) w.
Proof.
  intros H; destruct H;
    repeat match goal with
      | H : GExports _ _ |- _ => apply rd_GExports in H
      | H : GExposing _ _ |- _ => pose proof (start_exposing _ _ H); apply rd_GExposing in H
      | H : GAlias _ _ |- _ => pose proof (start_alias _ _ H); apply rd_GAlias in H
      | H : GTy _ _ _ |- _ => apply rd_ty in H
      | H : GAnn _ _ _ |- _ => apply rd_ann in H
      | H : GE _ _ _ |- _ => apply rd_GE in H
      | H : GFunc _ _ _ |- _ => apply rd_GFunc in H
      | H : GConstructors _ _ _ |- _ => apply rd_GConstructors in H; destruct H as [_ H]
      | H : GPortArgs _ _ |- _ => pose proof (start_portargs _ _ H); apply rd_GPortArgs in H
    end; blank_space; cbn [statement_symbols]; try solve [assumption | rd].
  - assert (K : reads (fields_x fs) wf).
    { destruct H4 as [[-> ->]|H4]; [apply reads_nil|]. apply rd_GEffectFields in H4. apply H4. }
    fold (fields_x fs). rd.
  - destruct a; cbn [assoc_word]; rd.
  - apply reads_symbol. constructor. assumption.
  - apply reads_symbol. constructor. assumption.
Qed.
Lemma rd_GStmts sts w : GStmts sts w -> reads (concat (map statement_symbols sts)) w.
Proof. induction 1 as [st w H|st w b sts w' H Hb _ IH]; apply rd_GStmt in H; blank_space; cbn [map concat]; rd. Qed.
Theorem written_GFile sts w : GFile sts w -> written (concat (map statement_symbols sts)) w.
Proof.
  intros H; destruct H. apply rd_GStmts in H0. blank_space. rewrite <- (app_nil_r (concat _)), <- (app_nil_r (b1 ++ w ++ b2)).
  assert (K : reads (concat (map statement_symbols sts)) (b1 ++ w ++ b2)) by rd. apply K; [exact (fun _ => I)|constructor].
Qed.

(** ** Texts without comments and literals *)
Definition ink (c : char) : bool := negb (is_blank c || mem_char c (L "()")).
Definition simple (x : symbol) : Prop :=
  match x with Key _ | Name _ | Number _ => True | _ => False end.
Definition letters (x : symbol) : str :=
  match x with
  | Key s | Name s | Label s | Number s | Text s | Remark s => s
  | Chr c => [c]
  | Prec _ => []
  end.

Lemma written_ink l s : written l s -> Forall simple l -> ~ (exists a b, s = a ++ L "--" ++ b) ->
  filter ink s = filter ink (concat (map letters l)).
Proof.
  induction 1 as [|x w l s Hx _ _ IH|g l s Hg _ IH|c l s _ _ _ _|n l s _ _ _ IH]; intros Hl Hs.
  - reflexivity.
  - apply Forall_cons_iff in Hl as [H1 H2]. cbn [map concat]. rewrite !filter_app. f_equal.
    + destruct Hx; cbn in H1; try contradiction; reflexivity.
    + apply IH; [exact H2|]. intros (a & b & ->). apply Hs. exists (w ++ a), b. rewrite <- app_assoc. reflexivity.
  - rewrite filter_app. rewrite IH; [|exact Hl|].
    + replace (filter ink g) with (@nil char); [reflexivity|].
      destruct Hg as [c Hc| |]; [|reflexivity|reflexivity].
      cbn. unfold ink. rewrite Hc. reflexivity.
    + intros (a & b & ->). apply Hs. exists (g ++ a), b. rewrite <- app_assoc. reflexivity.
  - exfalso. apply Hs. exists [], (c ++ s). reflexivity.
  - apply Forall_cons_iff in Hl as [[] _].
Qed.

(** ** The words of a text: its longest pieces of letters, digits and underscores

    [words_from u s]: the words of [u ++ s] if [u] is the word read so far. *)
Fixpoint words_from (u s : str) : list str :=
  match s with
  | [] => match u with [] => [] | _ => [u] end
  | c :: s => if is_name_char c then words_from (u ++ [c]) s
              else match u with [] => [] | _ => [u] end ++ words_from [] s
  end.
Definition words (s : str) : list str := words_from [] s.

Lemma words_from_app u v s :
  is_name_char (last (u ++ v) space) = true -> ends is_name_char s -> words_from u (v ++ s) = words_from u v ++ words s.
Proof.
  revert u. induction v as [|c v IH]; intros u H K.
  - rewrite app_nil_r in H. cbn [app words_from]. unfold words. destruct s as [|c s]; [rewrite app_nil_r; reflexivity|].
    cbn in K. cbn [words_from]. rewrite K. reflexivity.
  - cbn [app words_from]. destruct (is_name_char c) eqn:E.
    + apply IH; [|exact K]. rewrite <- app_assoc. exact H.
    + rewrite IH; [rewrite app_assoc; reflexivity| |exact K].
      rewrite last_app in H. destruct v as [|d v]; [cbn in H; congruence|exact H].
Qed.
Lemma words_from_close u v s : v <> [] -> is_name_char (last v space) = false -> words_from u (v ++ s) = words_from u v ++ words s.
Proof.
  revert u. induction v as [|c v IH]; intros u Hv H; [congruence|]. destruct v as [|d v].
  - cbn in H. cbn [app words_from]. rewrite H. rewrite app_nil_r. reflexivity.
  - assert (IH' : forall u, words_from u ((d :: v) ++ s) = words_from u (d :: v) ++ words s) by (intros u'; apply IH; [discriminate|exact H]).
    change ((c :: d :: v) ++ s) with (c :: ((d :: v) ++ s)).
    cbn [words_from] in IH' |- *. destruct (is_name_char c).
    + rewrite <- app_comm_cons. exact (IH' _).
    + rewrite <- app_assoc. f_equal. exact (IH' []).
Qed.
Lemma words_app w s : apart w s -> words (w ++ s) = words w ++ words s.
Proof.
  unfold apart. intros H. destruct (is_name_char (last w space)) eqn:E.
  - apply words_from_app; [exact E|auto].
  - destruct w as [|c w]; [reflexivity|]. apply words_from_close; [discriminate|exact E].
Qed.
Lemma words_close v c s : is_name_char c = false -> words (v ++ c :: s) = words v ++ words s.
Proof.
  intros H. rewrite words_app by (intros _; exact H). f_equal. unfold words. cbn [words_from]. rewrite H. reflexivity.
Qed.
Lemma words_skip c s : is_name_char c = false -> words (c :: s) = words s.
Proof. apply (words_close []). Qed.

(** All symbols but labels, characters and precedences *)
Definition worded (x : symbol) : Prop :=
  match x with Key _ | Name _ | Number _ | Text _ | Remark _ => True | _ => False end.

Lemma words_spelled x w : spelled x w -> worded x -> words w = words (letters x).
Proof.
  intros H; destruct H; cbn [worded letters]; intros K; try contradiction; try reflexivity.
  - cbn [app]. rewrite words_skip, words_close by reflexivity. apply app_nil_r.
  - cbn [app]. rewrite !words_skip, words_close by reflexivity. apply app_nil_r.
  - exact (eq_trans (words_close c 45%N [125%N] eq_refl) (app_nil_r _)).
Qed.
Lemma written_words l s : written l s -> Forall worded l -> ~ (exists a b, s = a ++ L "--" ++ b) ->
  words s = concat (map (fun x => words (letters x)) l).
Proof.
  induction 1 as [|x w l s Hx Ha _ IH|g l s Hg _ IH|c l s _ _ _ _|n l s _ _ _ IH]; intros Hl Hs.
  - reflexivity.
  - apply Forall_cons_iff in Hl as [H1 H2]. cbn [map concat]. rewrite words_app by exact Ha. f_equal.
    + apply words_spelled; assumption.
    + apply IH; [exact H2|]. intros (a & b & ->). apply Hs. exists (w ++ a), b. rewrite <- app_assoc. reflexivity.
  - rewrite <- IH; [|exact Hl|].
    + destruct Hg as [c Hc| |]; [|reflexivity|reflexivity]. cbn [app]. rewrite words_skip by (apply blank_not_name, Hc). reflexivity.
    + intros (a & b & ->). apply Hs. exists (g ++ a), b. rewrite <- app_assoc. reflexivity.
  - exfalso. apply Hs. exists [], (c ++ s). reflexivity.
  - apply Forall_cons_iff in Hl as [[] _].
Qed.
