(** * Characters above 255 are interchangeable

    If every character above 255 of a text is replaced by another one above 255,
    the parser answers the same tree with the same replacement. *)
From Verif Require Import Base Nom Regex Ast Helpers Types Expr Stmt Fail.

(** ** Specification: a replacement of characters, in texts and in trees *)

(** [f] leaves the characters up to 255 and maps the others to others. *)
Definition replaces (f : char -> char) : Prop :=
  (forall c, (c < 256)%N -> f c = c) /\ (forall c, (256 <= c)%N -> (256 <= f c)%N).

Section Replace.
  Variable f : char -> char.
  Definition in_str (s : str) : str := map f s.
  Fixpoint in_type (t : type_ast) : type_ast :=
    match t with
    | TypeConstructor q args => TypeConstructor (map in_str q) (map in_type args)
    | TypeVariable n => TypeVariable (in_str n)
    | TypeRecordConstructor v fields =>
        TypeRecordConstructor (in_type v) (map (fun '(n, t) => (in_str n, in_type t)) fields)
    | TypeRecord fields => TypeRecord (map (fun '(n, t) => (in_str n, in_type t)) fields)
    | TypeTuple ts => TypeTuple (map in_type ts)
    | TypeApplication a b => TypeApplication (in_type a) (in_type b)
    end.
  Definition in_sig (s : function_signature_ast) : function_signature_ast :=
    mkSig (in_str (sig_name s)) (in_type (sig_type s)).
  Fixpoint in_expr (e : expr) : expr :=
    match e with
    | Character c => Character (f c)
    | String_ s => String_ (in_str s)
    | Integer s => Integer (in_str s)
    | Float s => Float (in_str s)
    | Variable_ q => Variable_ (map in_str q)
    | List_ es => List_ (map in_expr es)
    | Tuple es => Tuple (map in_expr es)
    | Access e fields => Access (in_expr e) (map in_str fields)
    | AccessFunction n => AccessFunction (in_str n)
    | Record_ fields => Record_ (map (fun '(n, e) => (in_str n, in_expr e)) fields)
    | RecordUpdate n fields => RecordUpdate (in_str n) (map (fun '(n, e) => (in_str n, in_expr e)) fields)
    | If_ c t e => If_ (in_expr c) (in_expr t) (in_expr e)
    | Let_ entries body => Let_ (map in_entry entries) (in_expr body)
    | Case_ e branches => Case_ (in_expr e) (map (fun '(p, e) => (in_expr p, in_expr e)) branches)
    | Lambda args body => Lambda (map in_expr args) (in_expr body)
    | Application g x => Application (in_expr g) (in_expr x)
    | BinOp op l r => BinOp (in_expr op) (in_expr l) (in_expr r)
    end
  with in_entry (x : let_entry) : let_entry :=
    match x with
    | LetFunction g => LetFunction (in_func g)
    | LetBinding target e => LetBinding (in_expr target) (in_expr e)
    end
  with in_func (x : func) : func :=
    match x with mkFunc sg d => mkFunc (option_map in_sig sg) (in_def d) end
  with in_def (x : func_def) : func_def :=
    match x with mkDef n args body => mkDef (in_str n) (map in_expr args) (in_expr body) end.
  Fixpoint in_export (x : export_set) : export_set :=
    match x with
    | AllExport => AllExport
    | SubsetExport l => SubsetExport (map in_export l)
    | FunctionExport n => FunctionExport (in_str n)
    | TypeExport n c => TypeExport (in_str n) (match c with Some x => Some (in_export x) | None => None end)
    end.
  Definition in_statement (x : statement_ast) : statement_ast :=
    match x with
    | ModuleDeclaration n e => ModuleDeclaration (map in_str n) (in_export e)
    | PortModuleDeclaration n e => PortModuleDeclaration (map in_str n) (in_export e)
    | EffectModuleDeclaration n w e =>
        EffectModuleDeclaration (map in_str n) (map (fun '(a, b) => (in_str a, in_str b)) w) (in_export e)
    | ImportStatement n alias e =>
        ImportStatement (map in_str n) (option_map in_str alias) (option_map in_export e)
    | TypeAliasDeclaration n t => TypeAliasDeclaration (in_type n) (in_type t)
    | TypeDeclaration n cs => TypeDeclaration (in_type n) (map in_type cs)
    | PortTypeDeclaration n t => PortTypeDeclaration (in_str n) (in_type t)
    | PortDeclaration n args e => PortDeclaration (in_str n) (map in_str args) (in_expr e)
    | Function_ g => Function_ (in_func g)
    | InfixDeclaration a prec n => InfixDeclaration a prec (in_str n)
    | Comment s => Comment (in_str s)
    end.
End Replace.

(** ** Proofs *)

Section Proofs.
  Variable f : char -> char.
  Hypothesis Hf : replaces f.
  Notation g := (in_str f).

  Definition rm {A} (h : A -> A) (r : res A) : res A :=
    match r with Ok s a => Ok (g s) (h a) | Err => Err | Abort w => Abort w end.
  (** the parsers correspond *)
  Definition hom {A} (h : A -> A) (p q : parser A) : Prop := forall s, p (g s) = rm h (q s).
  Definition id_ {A} (a : A) : A := a.
  Definition pair_ {A B} (h1 : A -> A) (h2 : B -> B) (x : A * B) : A * B :=
    let '(a, b) := x in (h1 a, h2 b).

  Lemma below c : (c < 256)%N -> f c = c. Proof. apply Hf. Qed.
  Lemma above c : (256 <= c)%N -> (256 <= f c)%N. Proof. apply Hf. Qed.
  Lemma glen s : length (g s) = length s. Proof. apply map_length. Qed.
  Lemma feqb c d : (c < 256)%N -> N.eqb (f d) c = N.eqb d c.
  Proof.
    intros H. destruct (N.ltb_spec d 256) as [Hd|Hd]; [rewrite below by exact Hd; reflexivity|].
    pose proof (above d Hd). destruct (N.eqb_spec (f d) c), (N.eqb_spec d c); try reflexivity; lia.
  Qed.
  Lemma feqb' c d : (c < 256)%N -> N.eqb c (f d) = N.eqb c d.
  Proof. intros H. rewrite !(N.eqb_sym c). apply feqb, H. Qed.
  Lemma fle c d : (c < 256)%N -> N.leb (f d) c = N.leb d c.
  Proof.
    intros H. destruct (N.ltb_spec d 256) as [Hd|Hd]; [rewrite below by exact Hd; reflexivity|].
    pose proof (above d Hd). destruct (N.leb_spec (f d) c), (N.leb_spec d c); try reflexivity; lia.
  Qed.
  Lemma between lo hi d : (hi < 256)%N -> N.leb lo (f d) && N.leb (f d) hi = N.leb lo d && N.leb d hi.
  Proof.
    intros H. rewrite fle by exact H. destruct (N.leb_spec d hi) as [Hd|Hd]; [|rewrite !andb_false_r; reflexivity].
    rewrite below by lia. reflexivity.
  Qed.

  Definition latin (t : str) : bool := forallb (fun c => N.ltb c 256) t.
  Lemma latin_cons c t : latin (c :: t) = true -> (c < 256)%N /\ latin t = true.
  Proof. unfold latin. cbn [forallb]. intros H. apply andb_prop in H as [H1 H2]. apply N.ltb_lt in H1. auto. Qed.
  Lemma latin_fix t : latin t = true -> g t = t.
  Proof.
    induction t as [|c t IH]; intros H; [reflexivity|]. apply latin_cons in H as [H1 H2]. unfold in_str. cbn [map].
    rewrite below by exact H1. f_equal. apply IH, H2.
  Qed.
  Lemma eq_latin w x : latin w = true -> g x = w <-> x = w.
  Proof.
    intros Hw. split; [|intros ->; apply latin_fix, Hw]. revert x. induction w as [|c w IH]; intros [|d x] H; try discriminate H; [reflexivity|].
    apply latin_cons in Hw as [H1 H2]. unfold in_str in H. cbn [map] in H. injection H as Hc H.
    f_equal; [|apply IH; assumption]. apply N.eqb_eq. rewrite <- (feqb c d H1). apply N.eqb_eq, Hc.
  Qed.
  Lemma mem_latin x l : forallb latin l = true -> mem_str (g x) l = mem_str x l.
  Proof.
    unfold mem_str. induction l as [|w l IH]; intros H; [reflexivity|]. cbn [forallb existsb] in *.
    apply andb_prop in H as [H1 H2]. rewrite IH by exact H2. f_equal.
    apply eq_true_iff_eq. rewrite !str_eqb_eq. apply eq_latin, H1.
  Qed.
  Lemma mem_char_latin c l : latin l = true -> mem_char (f c) l = mem_char c l.
  Proof.
    unfold mem_char. induction l as [|d l IH]; intros H; [reflexivity|]. apply latin_cons in H as [H1 H2].
    cbn [existsb]. rewrite feqb by exact H1. f_equal. apply IH, H2.
  Qed.

  (** combinators *)
  Lemma hom_ret {A} (h : A -> A) a' a : a' = h a -> hom h (ret a') (ret a).
  Proof. intros -> s. reflexivity. Qed.
  Lemma hom_bind {A B} (h1 : A -> A) (h2 : B -> B) p q k k' : hom h1 p q -> (forall a, hom h2 (k (h1 a)) (k' a)) ->
    hom h2 (bind p k) (bind q k').
  Proof. intros H1 H2 s. unfold bind. rewrite H1. destruct (q s) as [r a| |w]; [apply H2|reflexivity|reflexivity]. Qed.
  Lemma hom_map {A B} (h1 : A -> A) (h2 : B -> B) u v p q : hom h1 p q -> (forall a, u (h1 a) = h2 (v a)) ->
    hom h2 (map_ u p) (map_ v q).
  Proof. intros H1 H2 s. unfold map_. rewrite H1. destruct (q s) as [r a| |w]; cbn [rm]; [rewrite H2|..]; reflexivity. Qed.
  Lemma hom_map_res {A B} (h1 : A -> A) (h2 : B -> B) u v p q : hom h1 p q ->
    (forall a, u (h1 a) = option_map h2 (v a)) -> hom h2 (map_res u p) (map_res v q).
  Proof.
    intros H1 H2 s. unfold map_res. rewrite H1. destruct (q s) as [r a| |w]; cbn [rm]; [rewrite H2|..]; try reflexivity.
    destruct (v a); reflexivity.
  Qed.
  Lemma hom_index0 {A} (h : A -> A) p q : hom (map h) p q -> hom h (map_index0 p) (map_index0 q).
  Proof.
    intros H s. unfold map_index0. rewrite H. destruct (q s) as [r [|a l]| |w]; reflexivity.
  Qed.
  Lemma hom_value {A B} (h1 : A -> A) (h2 : B -> B) b b' p q : hom h1 p q -> b = h2 b' -> hom h2 (value b p) (value b' q).
  Proof. intros H ->. apply (hom_map h1); auto. Qed.
  Lemma hom_alt {A} (h : A -> A) p q p' q' : hom h p p' -> hom h q q' -> hom h (p <|> q) (p' <|> q').
  Proof. intros H1 H2 s. unfold alt. rewrite H1. destruct (p' s); [reflexivity|apply H2|reflexivity]. Qed.
  Lemma hom_opt {A} (h : A -> A) p q : hom h p q -> hom (option_map h) (opt p) (opt q).
  Proof. intros H s. unfold opt. rewrite H. destruct (q s); reflexivity. Qed.
  Lemma hom_preceded {A B} (h1 : A -> A) (h2 : B -> B) p q p' q' : hom h1 p p' -> hom h2 q q' ->
    hom h2 (preceded p q) (preceded p' q').
  Proof. intros H1 H2. apply (hom_bind h1); auto. Qed.
  Lemma hom_terminated {A B} (h1 : A -> A) (h2 : B -> B) p q p' q' : hom h1 p p' -> hom h2 q q' ->
    hom h1 (terminated p q) (terminated p' q').
  Proof. intros H1 H2. apply (hom_bind h1); auto. intros a. apply (hom_bind h2); auto. intros _. apply hom_ret. reflexivity. Qed.
  Lemma hom_delimited {A B D} (h1 : A -> A) (h2 : B -> B) (h3 : D -> D) p q t p' q' t' : hom h1 p p' -> hom h2 q q' -> hom h3 t t' ->
    hom h2 (delimited p q t) (delimited p' q' t').
  Proof.
    intros H1 H2 H3. apply (hom_bind h1); auto. intros _. apply (hom_bind h2); auto. intros b.
    apply (hom_bind h3); auto. intros _. apply hom_ret. reflexivity.
  Qed.
  Lemma hom_separated_pair {A B D} (h1 : A -> A) (h2 : B -> B) (h3 : D -> D) p q t p' q' t' :
    hom h1 p p' -> hom h2 q q' -> hom h3 t t' -> hom (pair_ h1 h3) (separated_pair p q t) (separated_pair p' q' t').
  Proof.
    intros H1 H2 H3. apply (hom_bind h1); auto. intros a. apply (hom_bind h2); auto. intros _.
    apply (hom_bind h3); auto. intros b. apply hom_ret. reflexivity.
  Qed.
  Lemma strip_g t : latin t = true -> forall s, strip t (g s) = option_map g (strip t s).
  Proof.
    induction t as [|c t IH]; intros H s; [reflexivity|]. apply latin_cons in H as [H1 H2].
    destruct s as [|d s]; [reflexivity|]. unfold in_str. cbn [map strip]. rewrite feqb' by exact H1.
    destruct (N.eqb c d); [apply IH, H2|reflexivity].
  Qed.
  Lemma hom_tag t : latin t = true -> hom g (tag t) (tag t).
  Proof.
    intros H s. unfold tag. rewrite strip_g by exact H. destruct (strip t s); [|reflexivity]. cbn [option_map rm].
    rewrite (latin_fix t H). reflexivity.
  Qed.
  Lemma hom_char c : (c < 256)%N -> hom f (char_ c) (char_ c).
  Proof.
    intros H [|d s]; [reflexivity|]. unfold in_str, char_. cbn [map]. rewrite feqb by exact H. destruct (N.eqb d c); reflexivity.
  Qed.
  Lemma hom_anychar : hom f anychar anychar.
  Proof. intros [|d s]; reflexivity. Qed.
  Lemma span_g u : (forall c, u (f c) = u c) -> forall s, span u (g s) = pair_ g g (span u s).
  Proof.
    intros H s. induction s as [|c s IH]; [reflexivity|]. unfold in_str in *. cbn [map span]. rewrite H, IH.
    destruct (u c); [|reflexivity]. destruct (span u s). reflexivity.
  Qed.
  Lemma hom_while0 u : (forall c, u (f c) = u c) -> hom g (take_while0 u) (take_while0 u).
  Proof. intros H s. unfold take_while0. rewrite span_g by exact H. destruct (span u s). reflexivity. Qed.
  Lemma hom_while1 u : (forall c, u (f c) = u c) -> hom g (take_while1 u) (take_while1 u).
  Proof. intros H s. unfold take_while1. rewrite span_g by exact H. destruct (span u s) as [[|c a] b]; reflexivity. Qed.
  Lemma hom_is_a cs : latin cs = true -> hom g (is_a cs) (is_a cs).
  Proof. intros H. apply hom_while1. intros c. apply mem_char_latin, H. Qed.
  Lemma is_digit_g c : is_digit (f c) = is_digit c.
  Proof. unfold is_digit. apply between. reflexivity. Qed.
  Lemma hom_digit : hom g digit digit.
  Proof. apply hom_while1, is_digit_g. Qed.
  Lemma hom_space1 : hom g space1 space1.
  Proof. apply hom_while1. intros c. apply mem_char_latin. reflexivity. Qed.
  Lemma hom_multispace0 : hom g multispace0 multispace0.
  Proof. apply hom_while0. intros c. apply mem_char_latin. reflexivity. Qed.
  Lemma hom_multispace : hom g multispace multispace.
  Proof. apply hom_while1. intros c. apply mem_char_latin. reflexivity. Qed.
  Lemma hom_take n : hom g (take n) (take n).
  Proof.
    intros s. unfold take. rewrite glen. destruct (length s <? n); [reflexivity|]. cbn [rm]. unfold in_str.
    rewrite skipn_map, firstn_map. reflexivity.
  Qed.
  Lemma find_sub_g t : latin t = true -> forall s, find_sub t (g s) = option_map (pair_ g g) (find_sub t s).
  Proof.
    intros H s. induction s as [|c s IH].
    - pose proof (strip_g t H []) as E. unfold in_str in E. cbn [in_str map find_sub] in *.
      destruct (strip t []); [|reflexivity]. injection E as E. cbn [option_map]. unfold pair_, in_str. cbn [fst snd map].
      rewrite <- E. reflexivity.
    - change (g (c :: s)) with (f c :: g s). cbn [find_sub]. change (f c :: g s) with (g (c :: s)).
      rewrite strip_g by exact H. destruct (strip t (c :: s)); [reflexivity|]. cbn [option_map]. rewrite IH.
      destruct (find_sub t s) as [[a r]|]; reflexivity.
  Qed.
  Lemma hom_until t : latin t = true -> hom g (take_until_and_consume t) (take_until_and_consume t).
  Proof.
    intros H s. unfold take_until_and_consume. rewrite find_sub_g by exact H. destruct (find_sub t s) as [[a r]|]; reflexivity.
  Qed.
  Lemma hom_eof : hom g eof eof.
  Proof. intros [|c s]; reflexivity. Qed.
  Lemma many0_loop_g {A} (h : A -> A) p q : hom h p q -> forall n s, many0_loop n p (g s) = rm (map h) (many0_loop n q s).
  Proof.
    intros H n. induction n as [|n IH]; intros s; [reflexivity|]. cbn [many0_loop]. rewrite H.
    destruct (q s) as [r a| |w]; [|reflexivity|reflexivity]. cbn [rm]. rewrite !glen. destruct (length r =? length s); [reflexivity|].
    rewrite IH. destruct (many0_loop n q r); reflexivity.
  Qed.
  Lemma hom_many0 {A} (h : A -> A) p q : hom h p q -> hom (map h) (many0 p) (many0 q).
  Proof. intros H s. unfold many0. rewrite glen. apply many0_loop_g, H. Qed.
  Lemma many1_loop_g {A} (h : A -> A) p q : hom h p q -> forall n s, many1_loop n p (g s) = rm (map h) (many1_loop n q s).
  Proof.
    intros H n. induction n as [|n IH]; intros s; [reflexivity|]. cbn [many1_loop]. rewrite H.
    destruct (q s) as [r a| |w]; [|reflexivity|reflexivity]. cbn [rm]. rewrite !glen. destruct (length r =? length s); [reflexivity|].
    rewrite IH. destruct (many1_loop n q r); reflexivity.
  Qed.
  Lemma hom_many1 {A} (h : A -> A) p q : hom h p q -> hom (map h) (many1 p) (many1 q).
  Proof.
    intros H s. unfold many1. rewrite H. destruct (q s) as [r a| |w]; [|reflexivity|reflexivity]. cbn [rm]. rewrite glen.
    rewrite (many1_loop_g h p q H). destruct (many1_loop (S (length r)) q r); reflexivity.
  Qed.
  Lemma sep_loop_g {A B} (h : A -> A) (h' : B -> B) sep sep' p q : hom h' sep sep' -> hom h p q ->
    forall n s, sep_loop n sep p (g s) = rm (map h) (sep_loop n sep' q s).
  Proof.
    intros H' H n. induction n as [|n IH]; intros s; [reflexivity|]. cbn [sep_loop]. rewrite H'.
    destruct (sep' s) as [r b| |w]; [|reflexivity|reflexivity]. cbn [rm]. rewrite !glen. destruct (length r =? length s); [reflexivity|].
    rewrite H. destruct (q r) as [r2 a| |w]; [|reflexivity|reflexivity]. cbn [rm]. rewrite !glen.
    destruct (length r2 =? length r); [reflexivity|]. rewrite IH. destruct (sep_loop n sep' q r2); reflexivity.
  Qed.
  Lemma hom_separated_list {A B} (h : A -> A) (h' : B -> B) sep sep' p q : hom h' sep sep' -> hom h p q ->
    hom (map h) (separated_list sep p) (separated_list sep' q).
  Proof.
    intros H' H s. unfold separated_list. rewrite H. destruct (q s) as [r a| |w]; [|reflexivity|reflexivity]. cbn [rm]. rewrite !glen.
    destruct (length r =? length s); [reflexivity|]. rewrite (sep_loop_g h h' _ _ _ _ H' H).
    destruct (sep_loop (S (length r)) sep' q r); reflexivity.
  Qed.
  Lemma hom_separated_nonempty_list {A B} (h : A -> A) (h' : B -> B) sep sep' p q : hom h' sep sep' -> hom h p q ->
    hom (map h) (separated_nonempty_list sep p) (separated_nonempty_list sep' q).
  Proof.
    intros H' H s. unfold separated_nonempty_list. rewrite H. destruct (q s) as [r a| |w]; [|reflexivity|reflexivity]. cbn [rm]. rewrite !glen.
    destruct (length r =? length s); [reflexivity|]. rewrite (sep_loop_g h h' _ _ _ _ H' H).
    destruct (sep_loop (S (length r)) sep' q r); reflexivity.
  Qed.

  (** regular expressions *)
  Fixpoint latin_re (r : re) : bool :=
    match r with
    | RClass _ l => forallb (fun x => N.ltb (snd x) 256) l
    | RDot | RBegin => true
    | RSeq a b | RAlt a b => latin_re a && latin_re b
    | RStar a | RPlus a => latin_re a
    end.
  Lemma in_ranges_g c l : forallb (fun x => N.ltb (snd x) 256) l = true -> in_ranges (f c) l = in_ranges c l.
  Proof.
    unfold in_ranges. induction l as [|[lo hi] l IH]; intros H; [reflexivity|]. cbn [forallb existsb snd] in *.
    apply andb_prop in H as [H1 H2]. apply N.ltb_lt in H1. rewrite between by exact H1. f_equal. apply IH, H2.
  Qed.
  Definition cont (k k' : bool -> str -> option str) : Prop := forall z s, k z (g s) = option_map g (k' z s).
  Definition star_of (a : re) (k : bool -> str -> option str) :=
    fix star (n : nat) (z : bool) (s : str) : option str :=
         match n with
         | O => k z s
         | S n' => match re_match a (fun z' s' => if length s' <? length s
                                               then star n' z' s' else None) z s with
                   | Some x => Some x
                   | None => k z s
                   end
         end.
  Lemma star_g a : (forall k k' z s, cont k k' -> re_match a k z (g s) = option_map g (re_match a k' z s)) ->
    forall k k', cont k k' -> forall n z s, star_of a k n z (g s) = option_map g (star_of a k' n z s).
  Proof.
    intros Ha k k' Hk n. induction n as [|n IH]; intros z s; [apply Hk|]. cbn [star_of].
    rewrite (Ha _ (fun z' s' => if length s' <? length s then star_of a k' n z' s' else None)).
    - destruct (re_match a _ z s); [reflexivity|apply Hk].
    - intros z' s'. rewrite !glen. destruct (length s' <? length s); [apply IH|reflexivity].
  Qed.
  Lemma re_match_g r : latin_re r = true -> forall k k' z s, cont k k' ->
    re_match r k z (g s) = option_map g (re_match r k' z s).
  Proof.
    induction r as [neg l| |a IHa b IHb|a IHa b IHb|a IHa|a IHa|]; intros Hr k k' z s Hk; cbn [latin_re] in Hr.
    - destruct s as [|c s]; [reflexivity|]. change (g (c :: s)) with (f c :: g s). cbn [re_match].
      rewrite in_ranges_g by exact Hr. destruct (xorb neg (in_ranges c l)); [apply Hk|reflexivity].
    - destruct s as [|c s]; [reflexivity|]. change (g (c :: s)) with (f c :: g s). cbn [re_match].
      rewrite feqb by reflexivity. destruct (N.eqb c 10); [reflexivity|apply Hk].
    - apply andb_prop in Hr as [H1 H2]. cbn [re_match]. apply IHa; [exact H1|]. intros z' s'. apply IHb; assumption.
    - apply andb_prop in Hr as [H1 H2]. cbn [re_match]. rewrite (IHa H1 k k' z s Hk).
      destruct (re_match a k' z s); [reflexivity|]. apply IHb; assumption.
    - change (star_of a k (length (g s)) z (g s) = option_map g (star_of a k' (length s) z s)).
      rewrite glen. apply star_g; [|exact Hk]. intros. apply IHa; assumption.
    - cbn [re_match].
      change (re_match a (fun z1 s1 => star_of a k (length s1) z1 s1) z (g s) =
              option_map g (re_match a (fun z1 s1 => star_of a k' (length s1) z1 s1) z s)).
      apply IHa; [exact Hr|]. intros z1 s1. rewrite glen. apply star_g; [|exact Hk]. intros. apply IHa; assumption.
    - cbn [re_match]. destruct z; [apply Hk|reflexivity].
  Qed.
  Lemma re_search_g r : latin_re r = true -> forall s z,
    re_search r z (g s) = option_map (pair_ g g) (re_search r z s).
  Proof.
    intros Hr s. induction s as [|c s IH]; intros z.
    - cbn [in_str map re_search].
      pose proof (re_match_g r Hr (fun _ s' => Some s') (fun _ s' => Some s') z [] (fun _ _ => eq_refl)) as H.
      unfold in_str in H. cbn [map] in H. destruct (re_match r _ z []); [|reflexivity]. injection H as H. cbn [option_map].
      unfold pair_, in_str. cbn [fst snd]. rewrite <- H. destruct (length [] - length l); reflexivity.
    - change (g (c :: s)) with (f c :: g s). cbn [re_search]. change (f c :: g s) with (g (c :: s)).
      rewrite (re_match_g r Hr (fun _ s' => Some s') (fun _ s' => Some s') z (c :: s) (fun _ _ => eq_refl)).
      destruct (re_match r _ z (c :: s)); cbn [option_map].
      + rewrite !glen. unfold pair_, in_str. cbn [fst snd]. rewrite firstn_map. reflexivity.
      + apply IH.
  Qed.
  Lemma find_iter_g r : latin_re r = true -> forall n z a s,
    find_iter n r z a (g s) = map (pair_ g g) (find_iter n r z a s).
  Proof.
    intros Hr n. induction n as [|n IH]; intros z a s; [reflexivity|]. cbn [find_iter]. rewrite re_search_g by exact Hr.
    destruct (re_search r z s) as [[[|c m] rest]|]; [| |reflexivity]; cbn [option_map pair_ fst snd].
    - destruct rest as [|d rest].
      + cbn [in_str map]. unfold in_str. rewrite map_length. destruct (a && (length (@nil char) =? length s)); reflexivity.
      + change (g (d :: rest)) with (f d :: g rest). change (g []) with (@nil char). cbv iota.
        change (f d :: g rest) with (g (d :: rest)). rewrite !glen, IH. destruct (a && (length (d :: rest) =? length s)); reflexivity.
    - change (g (c :: m)) with (f c :: g m). cbv iota. rewrite IH. reflexivity.
  Qed.
  Lemma hom_re r : latin_re r = true -> hom (map g) (re_matches r) (re_matches r).
  Proof.
    intros Hr s. unfold re_matches. rewrite glen, find_iter_g by exact Hr.
    destruct (find_iter (S (length s)) r true false s) as [|x l]; [reflexivity|].
    change (map (pair_ g g) (x :: l)) with (pair_ g g x :: map (pair_ g g) l). cbv iota.
    change (pair_ g g x :: map (pair_ g g) l) with (map (pair_ g g) (x :: l)). cbn [rm]. rewrite !map_map.
    f_equal; [|apply map_ext; intros []; reflexivity]. generalize (@nil char, s) as d. intros d.
    assert (H : forall l0 d' d, l0 <> [] -> snd (last (map (pair_ g g) l0) d') = g (snd (last l0 d))).
    { clear. intros l0 d' d. induction l0 as [|y l0 IH]; [congruence|]. intros _. destruct l0; [destruct y; reflexivity|]. apply IH. discriminate. }
    apply H. discriminate.
  Qed.

  (** ** The parsers *)
  Notation ge := (in_expr f).
  Notation gt := (in_type f).
  Ltac lat := solve [reflexivity].
  Create HintDb homdb discriminated.
  Ltac hom1 :=
    lazymatch goal with
    | |- hom _ (bind _ _) _ => eapply hom_bind; [|intros ?]
    | |- hom _ (ret _) _ => apply hom_ret; try reflexivity
    | |- hom _ (map_ _ _) _ => eapply hom_map; [|try (intros ?; reflexivity)]
    | |- hom _ (map_res _ _) _ => eapply hom_map_res
    | |- hom _ (map_index0 _) _ => eapply hom_index0
    | |- hom _ (value _ _) _ => eapply hom_value; [|try reflexivity]
    | |- hom _ (alt _ _) _ => eapply hom_alt
    | |- hom _ (opt _) _ => eapply hom_opt
    | |- hom _ (preceded _ _) _ => eapply hom_preceded
    | |- hom _ (terminated _ _) _ => eapply hom_terminated
    | |- hom _ (delimited _ _ _) _ => eapply hom_delimited
    | |- hom _ (separated_pair _ _ _) _ => eapply hom_separated_pair
    | |- hom _ (tag _) _ => apply hom_tag; lat
    | |- hom _ (char_ _) _ => apply hom_char; lat
    | |- hom _ anychar _ => apply hom_anychar
    | |- hom _ (is_a _) _ => apply hom_is_a; lat
    | |- hom _ digit _ => apply hom_digit
    | |- hom _ space1 _ => apply hom_space1
    | |- hom _ multispace0 _ => apply hom_multispace0
    | |- hom _ multispace _ => apply hom_multispace
    | |- hom _ (take _) _ => apply hom_take
    | |- hom _ (take_until_and_consume _) _ => apply hom_until; lat
    | |- hom _ eof _ => apply hom_eof
    | |- hom _ (many0 _) _ => eapply hom_many0
    | |- hom _ (many1 _) _ => eapply hom_many1
    | |- hom _ (separated_list _ _) _ => eapply hom_separated_list
    | |- hom _ (separated_nonempty_list _ _) _ => eapply hom_separated_nonempty_list
    | |- hom _ (re_matches _) _ => apply hom_re; lat
    | |- hom _ _ _ => first [eassumption | solve [eauto 2 with homdb]]
    end.
  Ltac homs := repeat hom1.

  Lemma hom_lo_name : hom g lo_name lo_name.
  Proof.
    unfold lo_name. homs. intros a. cbv beta. rewrite mem_latin by reflexivity. destruct (mem_str a RESERVED_WORDS); reflexivity.
  Qed.
  Lemma hom_up_name : hom g up_name up_name.
  Proof. unfold up_name. homs. Qed.
  Lemma hom_operator : hom g operator operator.
  Proof.
    unfold operator. homs. intros a. cbv beta. rewrite mem_latin by reflexivity. destruct (mem_str a RESERVED_OPERATORS); reflexivity.
  Qed.
  Lemma hom_function_name : hom g function_name function_name.
  Proof. unfold function_name. eapply hom_map; [apply hom_lo_name|reflexivity]. Qed.
  Lemma hom_module_name : hom (map g) module_name module_name.
  Proof. unfold module_name. pose proof hom_up_name. homs. Qed.
  Lemma hom_spaces : hom g spaces spaces. Proof. unfold spaces. homs. Qed.
  Lemma hom_spaces0 : hom g spaces0 spaces0. Proof. unfold spaces0. homs. intros [a|]; reflexivity. Qed.
  Lemma hom_spaces_and_newlines : hom g spaces_and_newlines spaces_and_newlines. Proof. unfold spaces_and_newlines. homs. Qed.
  Lemma hom_single_line_comment : hom g single_line_comment single_line_comment.
  Proof. unfold single_line_comment. homs. Qed.
  Lemma hom_spaces_item i : hom id_ (spaces_item i) (spaces_item i).
  Proof.
    unfold spaces_item. pose proof hom_spaces. pose proof hom_spaces0. pose proof hom_single_line_comment.
    apply hom_alt; [eapply hom_value; [eassumption|reflexivity]|]. apply hom_alt.
    - eapply hom_map; [eassumption|reflexivity].
    - intros s.
      assert (Hm : hom (map id_) (many1 (preceded (char_ 10%N)
        (map_ (fun s => (NewLineAndSpaces, len_u32 s)) spaces0
         <|> map_ (fun _ => (CommentC, 0%N)) single_line_comment)))
         (many1 (preceded (char_ 10%N)
        (map_ (fun s => (NewLineAndSpaces, len_u32 s)) spaces0
         <|> map_ (fun _ => (CommentC, 0%N)) single_line_comment)))).
      { apply hom_many1. eapply hom_preceded; [apply hom_char; reflexivity|]. apply hom_alt; eapply hom_map; try eassumption.
        - intros a. unfold len_u32. rewrite glen. reflexivity.
        - reflexivity. }
      rewrite Hm. destruct (many1 _ s) as [r l| |w]; [|reflexivity|reflexivity]. cbn [rm]. unfold id_. rewrite map_id. reflexivity.
  Qed.
  Lemma hom_layout i ir : hom id_ (spaces_or_new_lines_and_indent i ir) (spaces_or_new_lines_and_indent i ir).
  Proof.
    unfold spaces_or_new_lines_and_indent. eapply hom_map_res; [eapply hom_many1, hom_spaces_item|].
    intros a. unfold id_. rewrite map_id. destruct (check_indent i ir a); reflexivity.
  Qed.
  Lemma hom_opt_layout i ir : hom id_ (opt_spaces_or_new_lines_and_indent i ir) (opt_spaces_or_new_lines_and_indent i ir).
  Proof.
    unfold opt_spaces_or_new_lines_and_indent. eapply hom_map; [eapply hom_opt, hom_layout|]. intros [a|]; reflexivity.
  Qed.
  Lemma hom_same i : hom id_ (new_line_and_same_indent i) (new_line_and_same_indent i).
  Proof.
    unfold new_line_and_same_indent. eapply (hom_map_res id_).
    - eapply hom_preceded; [apply hom_char; reflexivity|]. eapply hom_map; [apply hom_spaces0|].
      intros a. unfold len_u32. rewrite glen. reflexivity.
    - intros a. unfold id_. destruct (a =? i)%N; reflexivity.
  Qed.
  Lemma hom_opt_sp i : hom (option_map id_) (opt_sp i) (opt_sp i).
  Proof. apply hom_opt, hom_layout. Qed.
  Lemma hom_comma_sep i : hom f (comma_sep i) (comma_sep i).
  Proof. unfold comma_sep. pose proof (hom_opt_sp i). homs. Qed.
  Hint Resolve hom_lo_name hom_up_name hom_operator hom_function_name hom_module_name hom_spaces hom_spaces0
    hom_spaces_and_newlines hom_single_line_comment hom_layout hom_opt_layout hom_same hom_opt_sp hom_comma_sep : homdb.

  Lemma hom_type_variable : hom gt type_variable type_variable.
  Proof. unfold type_variable. homs. Qed.
  Lemma hom_type_constant : hom gt type_constant type_constant.
  Proof. unfold type_constant. homs. Qed.
  Hint Resolve hom_type_variable hom_type_constant : homdb.
  Lemma arrow_g v : arrow_of_list (map gt v) = option_map gt (arrow_of_list v).
  Proof.
    assert (Hfold : forall l t, fold_left (fun app entry => TypeApplication entry app) (map gt l) (gt t) =
      gt (fold_left (fun app entry => TypeApplication entry app) l t)).
    { intros l. induction l as [|x l IH]; intros t; [reflexivity|]. cbn [map fold_left]. rewrite <- IH. reflexivity. }
    unfold arrow_of_list. destruct v as [|t [|t' v]]; [reflexivity|reflexivity|]. cbn [map].
    change (gt t :: gt t' :: map gt v) with (map gt (t :: t' :: v)). rewrite <- map_rev.
    destruct (rev (t :: t' :: v)) as [|t2 [|t1 rest]]; [reflexivity|reflexivity|]. cbn [map option_map].
    rewrite <- Hfold. reflexivity.
  Qed.
  Section Types.
    Variables T T' : N -> parser type_ast.
    Hypothesis HT : forall i, hom gt (T i) (T' i).
    Hint Resolve HT : homdb.
    Lemma hom_type_annotation_f i : hom gt (type_annotation_f T i) (type_annotation_f T' i).
    Proof. unfold type_annotation_f. eapply hom_map_res; [homs|]. apply arrow_g. Qed.
    Hint Resolve hom_type_annotation_f : homdb.
    Lemma hom_type_tuple_f i : hom gt (type_tuple_f T i) (type_tuple_f T' i).
    Proof. unfold type_tuple_f. homs. Qed.
    Lemma hom_type_record_pair_f i : hom (pair_ g gt) (type_record_pair_f T i) (type_record_pair_f T' i).
    Proof. unfold type_record_pair_f. homs. Qed.
    Hint Resolve hom_type_record_pair_f : homdb.
    Lemma hom_type_record_pairs_f i : hom (map (pair_ g gt)) (type_record_pairs_f T i) (type_record_pairs_f T' i).
    Proof. unfold type_record_pairs_f. homs. Qed.
    Hint Resolve hom_type_record_pairs_f : homdb.
    Lemma hom_type_record_constructor_f i : hom gt (type_record_constructor_f T i) (type_record_constructor_f T' i).
    Proof. unfold type_record_constructor_f. homs. Qed.
    Lemma hom_type_record_f i : hom gt (type_record_f T i) (type_record_f T' i).
    Proof. unfold type_record_f. homs. Qed.
    Lemma hom_type_parens_f i : hom gt (type_parens_f T i) (type_parens_f T' i).
    Proof. unfold type_parens_f. homs. Qed.
    Hint Resolve hom_type_tuple_f hom_type_record_constructor_f hom_type_record_f hom_type_parens_f : homdb.
    Lemma hom_type_parameter_f i : hom gt (type_parameter_f T i) (type_parameter_f T' i).
    Proof. unfold type_parameter_f. homs. Qed.
    Hint Resolve hom_type_parameter_f : homdb.
    Lemma hom_type_constructor_f i : hom gt (type_constructor_f T i) (type_constructor_f T' i).
    Proof. unfold type_constructor_f. homs. Qed.
    Hint Resolve hom_type_constructor_f : homdb.
    Lemma hom_type_f i : hom gt (type_f T i) (type_f T' i).
    Proof. unfold type_f. homs. Qed.
  End Types.
  Lemma hom_type_n n : forall i, hom gt (type_n n i) (type_n n i).
  Proof.
    induction n as [|n IH]; intros i s; [reflexivity|]. cbn [type_n]. apply hom_type_f. exact IH.
  Qed.
  Lemma hom_type i : hom gt (type_ i) (type_ i).
  Proof. intros s. unfold type_. rewrite glen. apply hom_type_n. Qed.
  Lemma hom_type_annotation i : hom gt (type_annotation i) (type_annotation i).
  Proof. apply hom_type_annotation_f, hom_type. Qed.
  Lemma hom_type_constructor i : hom gt (type_constructor i) (type_constructor i).
  Proof. apply hom_type_constructor_f, hom_type. Qed.
  Hint Resolve hom_type hom_type_annotation hom_type_constructor : homdb.

  Lemma hom_lower_case : hom ge lower_case lower_case. Proof. unfold lower_case. homs. Qed.
  Lemma hom_upper_with_dots : hom ge upper_with_dots upper_with_dots. Proof. unfold upper_with_dots. homs. Qed.
  Lemma hom_op : hom ge op op. Proof. unfold op. homs. Qed.
  Hint Resolve hom_lower_case hom_upper_with_dots hom_op : homdb.
  Lemma hom_variable : hom ge variable variable. Proof. unfold variable. homs. Qed.
  Hint Resolve hom_variable : homdb.
  Lemma hom_access : hom ge access access. Proof. unfold access. homs. Qed.
  Lemma hom_access_function : hom ge access_function access_function. Proof. unfold access_function. homs. Qed.
  Lemma hom_single_string : hom g single_string single_string. Proof. unfold single_string. homs. Qed.
  Lemma hom_multi_string : hom g multi_string multi_string. Proof. unfold multi_string. homs. Qed.
  Hint Resolve hom_single_string hom_multi_string : homdb.
  Lemma hom_string : hom ge string_ string_. Proof. unfold string_. homs. Qed.
  Lemma hom_sign : hom g sign sign. Proof. unfold sign. homs. intros [a|]; reflexivity. Qed.
  Hint Resolve hom_sign : homdb.
  Lemma hom_float : hom ge float float.
  Proof.
    unfold float. homs. cbn [in_expr]. f_equal. unfold in_str. rewrite !map_app. cbn [map]. rewrite below by reflexivity. reflexivity.
  Qed.
  Lemma hom_integer : hom ge integer integer.
  Proof. unfold integer. homs. cbn [in_expr]. f_equal. unfold in_str. rewrite map_app. reflexivity. Qed.
  Lemma hex_digit_g c : hex_digit (f c) = hex_digit c.
  Proof.
    destruct (N.ltb_spec c 256) as [Hc|Hc]; [rewrite below by exact Hc; reflexivity|].
    unfold hex_digit. rewrite !between by reflexivity.
    destruct (N.leb_spec c (C "9")), (N.leb_spec c (C "f")), (N.leb_spec c (C "F")); try lia. rewrite !andb_false_r. reflexivity.
  Qed.
  Lemma hex_acc_g s : forall acc, hex_acc acc (g s) = hex_acc acc s.
  Proof.
    induction s as [|c s IH]; intros acc; [reflexivity|]. change (g (c :: s)) with (f c :: g s). cbn [hex_acc].
    rewrite hex_digit_g. destruct (hex_digit c); [|reflexivity]. cbv zeta. destruct (_ <? 256)%N; [apply IH|reflexivity].
  Qed.
  Lemma hex_acc_small s : forall acc v, (acc < 256)%N -> hex_acc acc s = Some v -> (v < 256)%N.
  Proof.
    induction s as [|c s IH]; intros acc v Ha; cbn [hex_acc]; [intros [= <-]; exact Ha|].
    destruct (hex_digit c) as [d|]; [|discriminate]. cbv zeta. destruct (N.ltb_spec (acc * 16 + d) 256); [|discriminate]. apply IH. assumption.
  Qed.
  Lemma hex_g s : u8_from_str_radix_16 (g s) = option_map f (u8_from_str_radix_16 s).
  Proof.
    assert (H : u8_from_str_radix_16 (g s) = u8_from_str_radix_16 s).
    { destruct s as [|c s]; [reflexivity|]. change (g (c :: s)) with (f c :: g s). cbn [u8_from_str_radix_16].
      rewrite feqb by reflexivity. destruct (N.eqb c (C "+")).
      - destruct s as [|d s]; [reflexivity|]. change (g (d :: s)) with (f d :: g s). cbv iota.
        change (f d :: g s) with (g (d :: s)). apply hex_acc_g.
      - change (f c :: g s) with (g (c :: s)). apply hex_acc_g. }
    rewrite H. destruct (u8_from_str_radix_16 s) as [v|] eqn:E; [|reflexivity]. cbn [option_map]. rewrite below; [reflexivity|].
    destruct s as [|c s]; [discriminate E|]. cbn [u8_from_str_radix_16] in E. destruct (N.eqb c (C "+")).
    - destruct s as [|d s]; [discriminate E|]. eapply hex_acc_small; [|exact E]. reflexivity.
    - eapply hex_acc_small; [|exact E]. reflexivity.
  Qed.
  Lemma hom_character : hom ge character character.
  Proof.
    unfold character. eapply hom_map; [|intros a; reflexivity]. eapply hom_delimited; [apply hom_char; reflexivity| |apply hom_char; reflexivity].
    unfold character_content. apply hom_alt; [|apply hom_anychar]. eapply (hom_map_res (option_map f)); [|intros a; reflexivity].
    homs. apply hex_g.
  Qed.
  Hint Resolve hom_access hom_access_function hom_string hom_float hom_integer hom_character : homdb.
  Lemma application_g v : application_of_list (map ge v) = option_map ge (application_of_list v).
  Proof.
    assert (Hfold : forall l t, fold_left Application (map ge l) (ge t) = ge (fold_left Application l t)).
    { intros l. induction l as [|x l IH]; intros t; [reflexivity|]. cbn [map fold_left]. rewrite <- IH. reflexivity. }
    destruct v as [|x [|y v]]; [reflexivity|reflexivity|]. cbn [map application_of_list option_map]. rewrite <- Hfold. reflexivity.
  Qed.
  Lemma hom_operator_or_as : hom ge operator_or_as operator_or_as. Proof. unfold operator_or_as. homs. Qed.
  Lemma hom_binding_name : hom g binding_name binding_name. Proof. unfold binding_name. homs. Qed.
  Hint Resolve hom_operator_or_as hom_binding_name : homdb.
  Lemma hom_function_signature i : hom (in_sig f) (function_signature i) (function_signature i).
  Proof. unfold function_signature. homs. Qed.
  Hint Resolve hom_function_signature : homdb.
  Lemma hom_simplified_field : hom (pair_ g ge) simplified_field simplified_field.
  Proof. unfold simplified_field. homs. Qed.
  Hint Resolve hom_simplified_field : homdb.
  Lemma hom_simplified_record : hom ge simplified_record simplified_record.
  Proof. unfold simplified_record. homs. Qed.
  Hint Resolve hom_simplified_record : homdb.
  Section Exprs.
    Variables E E' : N -> parser expr.
    Hypothesis HE : forall i, hom ge (E i) (E' i).
    Hint Resolve HE : homdb.
    Lemma hom_tuple_f i : hom ge (tuple_f E i) (tuple_f E' i). Proof. unfold tuple_f. homs. Qed.
    Lemma hom_list_f i : hom ge (list_f E i) (list_f E' i). Proof. unfold list_f. homs. intros [l|]; reflexivity. Qed.
    Lemma hom_record_field_f i : hom (pair_ g ge) (record_field_f E i) (record_field_f E' i).
    Proof. unfold record_field_f. homs. Qed.
    Hint Resolve hom_record_field_f : homdb.
    Lemma hom_record_f i : hom ge (record_f E i) (record_f E' i). Proof. unfold record_f. homs. Qed.
    Lemma hom_update_field_f i : hom (pair_ g ge) (update_field_f E i) (update_field_f E' i).
    Proof. unfold update_field_f. homs. Qed.
    Hint Resolve hom_update_field_f : homdb.
    Lemma hom_record_update_f i : hom ge (record_update_f E i) (record_update_f E' i). Proof. unfold record_update_f. homs. Qed.
    Lemma hom_parens_f i : hom ge (parens_f E i) (parens_f E' i). Proof. unfold parens_f. homs. Qed.
    Hint Resolve hom_tuple_f hom_list_f hom_record_f hom_record_update_f hom_parens_f : homdb.
    Lemma hom_term_f i : hom ge (term_f E i) (term_f E' i). Proof. unfold term_f. homs. Qed.
    Hint Resolve hom_term_f : homdb.
    Lemma hom_lambda_f i : hom ge (lambda_f E i) (lambda_f E' i). Proof. unfold lambda_f. homs. Qed.
    Lemma hom_application_or_var_f i : hom ge (application_or_var_f E i) (application_or_var_f E' i).
    Proof. unfold application_or_var_f. eapply hom_map_res; [homs|]. apply application_g. Qed.
    Lemma hom_function_definition_f i : hom (in_def f) (function_definition_f E i) (function_definition_f E' i).
    Proof. unfold function_definition_f. homs. Qed.
    Hint Resolve hom_lambda_f hom_application_or_var_f hom_function_definition_f : homdb.
    Lemma hom_function_f i : hom (in_func f) (function_f E i) (function_f E' i).
    Proof. unfold function_f. homs. Qed.
    Lemma hom_let_binding_target_f i : hom ge (let_binding_target_f E i) (let_binding_target_f E' i).
    Proof. unfold let_binding_target_f. homs. Qed.
    Hint Resolve hom_function_f hom_let_binding_target_f : homdb.
    Lemma hom_let_binding_f i : hom (in_entry f) (let_binding_f E i) (let_binding_f E' i).
    Proof. unfold let_binding_f. homs. Qed.
    Hint Resolve hom_let_binding_f : homdb.
    Lemma hom_let_bindings_f i : hom (map (in_entry f)) (let_bindings_f E i) (let_bindings_f E' i).
    Proof. unfold let_bindings_f. homs. Qed.
    Hint Resolve hom_let_bindings_f : homdb.
    Lemma hom_let_expression_f i : hom ge (let_expression_f E i) (let_expression_f E' i).
    Proof. unfold let_expression_f. homs. Qed.
    Lemma hom_case_f i : hom (pair_ ge ge) (case_f E i) (case_f E' i).
    Proof. unfold case_f. homs. Qed.
    Hint Resolve hom_case_f : homdb.
    Lemma hom_cases_f i : hom (map (pair_ ge ge)) (cases_f E i) (cases_f E' i).
    Proof. unfold cases_f. homs. Qed.
    Hint Resolve hom_cases_f : homdb.
    Lemma hom_case_expression_f i : hom ge (case_expression_f E i) (case_expression_f E' i).
    Proof. unfold case_expression_f. homs. Qed.
    Lemma hom_if_expression_f i : hom ge (if_expression_f E i) (if_expression_f E' i).
    Proof. unfold if_expression_f. homs. Qed.
    Lemma hom_operator_exp_f i : hom (pair_ ge ge) (operator_exp_f E i) (operator_exp_f E' i).
    Proof. unfold operator_exp_f. homs. Qed.
    Hint Resolve hom_let_expression_f hom_case_expression_f hom_if_expression_f hom_operator_exp_f : homdb.
    Lemma hom_binary_f i : hom ge (binary_f E i) (binary_f E' i).
    Proof. unfold binary_f. homs. destruct a0 as [[o e]|]; reflexivity. Qed.
    Hint Resolve hom_binary_f : homdb.
    Lemma hom_expression_f i : hom ge (expression_f E i) (expression_f E' i).
    Proof. unfold expression_f. homs. Qed.
  End Exprs.
  Lemma hom_expression_n n : forall i, hom ge (expression_n n i) (expression_n n i).
  Proof. induction n as [|n IH]; intros i s; [reflexivity|]. cbn [expression_n]. apply hom_expression_f. exact IH. Qed.
  Lemma hom_expression i : hom ge (expression i) (expression i).
  Proof. intros s. unfold expression. rewrite glen. apply hom_expression_n. Qed.
  Lemma hom_function i : hom (in_func f) (function i) (function i).
  Proof. apply hom_function_f, hom_expression. Qed.
  Hint Resolve hom_expression hom_function : homdb.

  Notation gs := (in_statement f).
  Notation gx := (in_export f).
  Lemma hom_all_export : hom gx all_export all_export. Proof. unfold all_export. homs. Qed.
  Lemma hom_function_export : hom gx function_export function_export. Proof. unfold function_export. homs. Qed.
  Lemma hom_constructor_subset_exports : hom gx constructor_subset_exports constructor_subset_exports.
  Proof. unfold constructor_subset_exports. homs. Qed.
  Hint Resolve hom_all_export hom_function_export hom_constructor_subset_exports : homdb.
  Lemma hom_constructor_exports : hom (option_map gx) constructor_exports constructor_exports.
  Proof. unfold constructor_exports. homs. Qed.
  Hint Resolve hom_constructor_exports : homdb.
  Lemma hom_type_export : hom gx type_export type_export. Proof. unfold type_export. homs. Qed.
  Hint Resolve hom_type_export : homdb.
  Lemma hom_subset_export : hom gx subset_export subset_export. Proof. unfold subset_export. homs. Qed.
  Hint Resolve hom_subset_export : homdb.
  Lemma hom_exports : hom gx exports exports. Proof. unfold exports. homs. Qed.
  Lemma hom_sp_gt0 : hom id_ sp_gt0 sp_gt0. Proof. apply hom_layout. Qed.
  Hint Resolve hom_exports hom_sp_gt0 : homdb.
  Lemma hom_effect_field : hom (pair_ g g) effect_field effect_field. Proof. unfold effect_field. homs. Qed.
  Hint Resolve hom_effect_field : homdb.
  Lemma parse_i64_g s : parse_i64 (g s) = option_map id_ (parse_i64 s).
  Proof.
    assert (H : forall s acc, parse_i64_acc acc (g s) = parse_i64_acc acc s).
    { clear s. intros s. induction s as [|c s IH]; intros acc; [reflexivity|]. change (g (c :: s)) with (f c :: g s).
      cbn [parse_i64_acc]. rewrite is_digit_g. destruct (is_digit c) eqn:E; [|reflexivity].
      rewrite below; [|unfold is_digit in E; apply andb_prop in E as [_ E]; apply N.leb_le in E; lia].
      cbv zeta. destruct (_ <=? i64_max)%N; [apply IH|reflexivity]. }
    unfold parse_i64. destruct s as [|c s]; [reflexivity|]. change (g (c :: s)) with (f c :: g s). cbv iota.
    change (f c :: g s) with (g (c :: s)). rewrite H. destruct (parse_i64_acc 0 (c :: s)); reflexivity.
  Qed.
  Lemma hom_infix_declaration : hom gs infix_declaration infix_declaration.
  Proof.
    unfold infix_declaration. eapply (hom_bind id_); [homs|]. intros a. eapply hom_bind; [homs|]. intros _.
    eapply (hom_bind id_); [eapply hom_map_res; [apply hom_digit|apply parse_i64_g]|]. intros v. homs.
  Qed.
  Lemma hom_statement : hom gs statement statement.
  Proof.
    unfold statement, port_module_declaration, effect_module_declaration, module_declaration, import_statement,
      type_alias_declaration, type_declaration, port_type_declaration, port_declaration, comment,
      single_line_comment_stmt, multi_line_comment.
    pose proof hom_infix_declaration. homs.
  Qed.
  Lemma hom_statements : hom (map gs) statements statements.
  Proof. unfold statements. pose proof hom_statement. homs. Qed.
  Lemma hom_file : hom (map gs) file file.
  Proof. unfold file. pose proof hom_statements. homs. Qed.
  Lemma file_e_g s : file_e (g s) =
    match file_e s with
    | EOk r l => EOk (g r) (map gs l)
    | EError r k => EError (g r) k
    | EAbort w => EAbort w
    end.
  Proof.
    assert (Hsp : forall s, span is_multispace (g s) = pair_ g g (span is_multispace s)).
    { apply span_g. intros c. apply mem_char_latin. reflexivity. }
    unfold file_e, statements_e, statement_list_e, statement_e. rewrite Hsp. destruct (span is_multispace s) as [a s1].
    cbn [pair_]. rewrite hom_statement. destruct (statement s1) as [r st| |w]; [|reflexivity|reflexivity]. cbn [rm].
    rewrite !glen. destruct (length r =? length s1); [reflexivity|].
    rewrite (sep_loop_g gs g _ _ _ _ hom_multispace0 hom_statement). destruct (sep_loop _ _ _ r) as [r' l| |w]; cbn [rm]; try reflexivity.
    rewrite Hsp. destruct (span is_multispace r') as [b [|c r2]]; reflexivity.
  Qed.
End Proofs.
