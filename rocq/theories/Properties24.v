(** * C65: literals do not matter *)
From Verif Require Import Base Nom Regex Ast Spec Helpers Types Expr Stmt Good Total TwoRuns Whole CommentSpec LiteralSpec Literals LiteralsAll LiteralCheck.

(** ** C65: a literal is a literal

    [relit K after_other s s'] (LiteralSpec.v): [s'] is [s] with other strings, characters,
    numbers and comments, and with other operators where [K] allows this (C67); [K] is
    any choice of what may stand for what, where no list literal stands for another one
    (this is C70) and no phrase in parentheses (this is C72) or braces (C75).  [same_stmt K]: the same statement with
    literals and comments that [K] allows.
    Then one text is a file if and only if the other one is, and the trees differ in
    the literals only, each of which is one that [K] allows in this place: what a
    literal says never decides how the rest is read.  A string may be replaced by one
    with three quotes, and it may look like code or like a comment. *)
Lemma no_lists K : (forall x y, ~ on_list K x y) -> lists_alone K.
Proof. intros H x y Hx. destruct (H _ _ Hx). Qed.
Lemma no_rounds K : (forall x y, ~ on_round K x y) -> rounds_alone K.
Proof. intros H x y Hx. destruct (H _ _ Hx). Qed.
Lemma no_curlies K : (forall x y, ~ on_curly K x y) -> curlies_alone K.
Proof. intros H x y Hx. destruct (H _ _ Hx). Qed.
Theorem C65_literals : forall K s s' l, (forall d, on_digits K d d) -> (forall x y, ~ on_list K x y) -> (forall x y, ~ on_round K x y) -> (forall x y, ~ on_curly K x y) ->
  relit K after_other s s' -> file s = Ok [] l ->
  exists l', file s' = Ok [] l' /\ Forall2 (same_stmt K) l l'.
Proof.
  intros K s s' l HK HL HR HC Hs H. pose proof (k_file K HK (no_lists K HL) (no_rounds K HR) (no_curlies K HC) s s' (ex_intro _ _ Hs)) as J. unfold rel in J. rewrite H in J.
  destruct (file s') as [r' l'| |w] eqn:E.
  - destruct J as (Hl & Hr & _). apply X_head in Hr. destruct r'; [|destruct Hr]. eauto.
  - destruct J.
  - exfalso. destruct (ok_file (S (length s')) s' (le_n _)) as [_ Ho]. rewrite E in Ho. exact Ho.
Qed.
Print Assumptions C65_literals.
Theorem C65_rejected : forall K s s', (forall d, on_digits K d d) -> (forall x y, ~ on_list K x y) -> (forall x y, ~ on_round K x y) -> (forall x y, ~ on_curly K x y) ->
  relit K after_other s s' -> (file s = Err <-> file s' = Err).
Proof.
  assert (J : forall K s s', (forall d, on_digits K d d) -> (forall x y, ~ on_list K x y) -> (forall x y, ~ on_round K x y) -> (forall x y, ~ on_curly K x y) ->
  relit K after_other s s' -> file s = Err -> file s' = Err).
  { intros K s s' HK HL HR HC Hs H. pose proof (k_file K HK (no_lists K HL) (no_rounds K HR) (no_curlies K HC) s s' (ex_intro _ _ Hs)) as J. unfold rel in J. rewrite H in J.
    destruct (file s') as [r' l'| |w] eqn:E; [destruct J|reflexivity|].
    exfalso. destruct (ok_file (S (length s')) s' (le_n _)) as [_ Ho]. rewrite E in Ho. exact Ho. }
  intros K s s' HK HL HR HC Hs. split; [apply (J K); assumption|]. apply (J (flip K)); [intros d; apply HK|intros x y; apply HL|intros x y; apply HR|intros x y; apply HC|]. apply rl_sym, Hs.
Qed.
Print Assumptions C65_rejected.

(** *** The tree without its literals *)
Fixpoint bare (e : expr) : expr :=
  match e with
  | Character _ => Character 0
  | String_ _ => String_ []
  | Integer _ => Integer []
  | Float _ => Float []
  | Variable_ q => Variable_ q
  | List_ l => List_ (map bare l)
  | Tuple l => Tuple (map bare l)
  | Access e f => Access (bare e) f
  | AccessFunction n => AccessFunction n
  | Record_ l => Record_ (map (fun '(n, e) => (n, bare e)) l)
  | RecordUpdate n l => RecordUpdate n (map (fun '(n, e) => (n, bare e)) l)
  | If_ a b c => If_ (bare a) (bare b) (bare c)
  | Let_ l e => Let_ (map bare_entry l) (bare e)
  | Case_ e l => Case_ (bare e) (map (fun '(p, e) => (bare p, bare e)) l)
  | Lambda l e => Lambda (map bare l) (bare e)
  | Application f x => Application (bare f) (bare x)
  | BinOp o a b => BinOp (bare o) (bare a) (bare b)
  end
with bare_entry (x : let_entry) : let_entry :=
  match x with LetFunction f => LetFunction (bare_func f) | LetBinding t e => LetBinding (bare t) (bare e) end
with bare_func (f : func) : func :=
  match f with mkFunc g (mkDef n l e) => mkFunc g (mkDef n (map bare l) (bare e)) end.
Definition bare_statement (st : statement_ast) : statement_ast :=
  match st with
  | Function_ f => Function_ (bare_func f)
  | PortDeclaration n a e => PortDeclaration n a (bare e)
  | Comment _ => Comment []
  | st => st
  end.
Definition maps {A B} (R : A -> A -> Prop) (f : A -> B) (H : forall a b, R a b -> f a = f b) : forall l l', Forall2 R l l' -> map f l = map f l' :=
  fix go l l' (F : Forall2 R l l') {struct F} : map f l = map f l' :=
    match F with
    | Forall2_nil _ => eq_refl
    | Forall2_cons a b Hab F' => f_equal2 cons (H _ _ Hab) (go _ _ F')
    end.
Section Bare.
Variable K : kinds.
Hypothesis HO : forall o o', on_operator K o o' -> o = o'.
Hypothesis HB : forall x y, ~ on_list K x y.
Hypothesis HC : forall x y, ~ on_round K x y.
Hypothesis HD : forall x y, ~ on_curly K x y.
Lemma name_bare n n' : same_name K n n' -> n = n'.
Proof. intros [H|H]; [exact H|exact (HO _ _ H)]. Qed.
Fixpoint export_bare e e' (H : same_export K e e') {struct H} : e = e'.
Proof.
  destruct H; try reflexivity; f_equal; [|apply name_bare; assumption].
  rewrite <- (map_id l), <- (map_id l'). exact (maps _ (fun x => x) export_bare _ _ H).
Qed.
Fixpoint same_bare e e' (H : same_expr K e e') {struct H} : bare e = bare e'
with entry_bare x x' (H : same_entry K x x') {struct H} : bare_entry x = bare_entry x'
with func_bare f f' (H : same_func K f f') {struct H} : bare_func f = bare_func f'.
Proof.
  - destruct H; try reflexivity; cbn [bare].
    + f_equal. f_equal. exact (HO _ _ H).
    + destruct (HB _ _ H).
    + destruct (HC _ _ H).
    + destruct (HD _ _ H).
    + f_equal. exact (maps _ bare same_bare _ _ H).
    + f_equal. exact (maps _ bare same_bare _ _ H).
    + f_equal. exact (same_bare _ _ H).
    + f_equal. refine (maps _ _ _ _ _ H). intros [n e] [n' e'] [H1 H2]. cbn in *. subst n'. f_equal. exact (same_bare _ _ H2).
    + f_equal. refine (maps _ _ _ _ _ H). intros [m e] [m' e'] [H1 H2]. cbn in *. subst m'. f_equal. exact (same_bare _ _ H2).
    + f_equal; [exact (same_bare _ _ H)|exact (same_bare _ _ H0)|exact (same_bare _ _ H1)].
    + f_equal; [exact (maps _ bare_entry entry_bare _ _ H)|exact (same_bare _ _ H0)].
    + f_equal; [exact (same_bare _ _ H)|]. refine (maps _ _ _ _ _ H0). intros [p x] [p' x'] [H1 H2]. cbn in *. f_equal; [exact (same_bare _ _ H1)|exact (same_bare _ _ H2)].
    + f_equal; [exact (maps _ bare same_bare _ _ H)|exact (same_bare _ _ H0)].
    + f_equal; [exact (same_bare _ _ H)|exact (same_bare _ _ H0)].
    + f_equal; [exact (same_bare _ _ H)|exact (same_bare _ _ H0)|exact (same_bare _ _ H1)].
  - destruct H; cbn [bare_entry]; f_equal; [exact (func_bare _ _ H)|exact (same_bare _ _ H)|exact (same_bare _ _ H0)].
  - destruct H as [g g' n n' l l' e e' Hg Hn Hl He]; cbn [bare_func]. apply name_bare in Hn. subst n'. f_equal.
    + destruct g as [g|], g' as [g'|]; try destruct Hg as []; [|reflexivity]. f_equal. f_equal. apply name_bare. assumption.
    + f_equal; [exact (maps _ bare same_bare _ _ Hl)|exact (same_bare _ _ He)].
Qed.
End Bare.
(** [anything]: every literal may stand for every literal of its kind *)
Definition anything : kinds := mkKinds (fun _ _ => True) (fun _ _ => True) (fun _ _ => True) (fun _ _ => True) eq (fun _ _ => False) (fun _ _ => False) (fun _ _ => False).
Theorem C65_shape : forall s s' l, relit anything after_other s s' -> file s = Ok [] l ->
  exists l', file s' = Ok [] l' /\ map bare_statement l' = map bare_statement l.
Proof.
  intros s s' l Hs H. destruct (C65_literals anything s s' l (fun _ => I) (fun _ _ F => F) (fun _ _ F => F) (fun _ _ F => F) Hs H) as (l' & H' & Hl). exists l'. split; [exact H'|]. clear - Hl.
  symmetry. refine (maps _ _ _ _ _ Hl). intros a b Hab. pose proof (fun o o' (H : on_operator anything o o') => H) as HO.
  pose proof (fun x y (H : on_list anything x y) => H) as HB. pose proof (fun x y (H : on_round anything x y) => H) as HC. pose proof (fun x y (H : on_curly anything x y) => H) as HD.
  destruct Hab as [f f' Hf|n x e e' He|c c' Hc|n e e' He|n e e' He|n w e e' He|n x e e' He|x p n n' Hn|n t|n t|n t]; cbn; try reflexivity; f_equal.
  - eapply func_bare; eassumption.
  - eapply same_bare; eassumption.
  - eapply export_bare; eassumption.
  - eapply export_bare; eassumption.
  - eapply export_bare; eassumption.
  - destruct e as [e|], e' as [e'|]; [|destruct He|destruct He|reflexivity]. f_equal. eapply export_bare; [exact HO|exact He].
  - eapply name_bare; eassumption.
Qed.
Print Assumptions C65_shape.

(** *** Instances *)
Definition nl : str := [newline].
Definition quoted (c : str) : str := [quote] ++ c ++ [quote].
Definition quoted3 (c : str) : str := [quote; quote; quote] ++ c ++ [quote; quote; quote].
Definition greeting (s1 s2 n1 n2 c k : str) : str :=
  L "module Main exposing (..)" ++ nl ++
  L "infixl 5 +++" ++ nl ++
  L "x1 : Int -> List b2" ++ nl ++
  L "x1 n = --" ++ k ++ nl ++
  L "  let" ++ nl ++
  L "    (a, b0) = (" ++ s1 ++ L ", '" ++ c ++ L "')" ++ nl ++
  L "  in" ++ nl ++
  L "    case { m | y = -" ++ n1 ++ L "." ++ n2 ++ L " } of" ++ nl ++
  L "      " ++ n1 ++ L " -> f " ++ s2 ++ L " b0 (a - " ++ n2 ++ L ")" ++ nl ++
  L "      _ -> [" ++ n1 ++ L ", +" ++ n2 ++ L "]" ++ nl ++
  L "port p = " ++ s1.
Definition greeting1 : str := greeting (quoted (L "Hello")) (quoted (L "World")) (L "1") (L "25") (L "a") (L "").
Definition greeting2 : str := greeting (quoted3 (L "in" ++ nl ++ L "y = 5 --")) (quoted []) (L "007") (L "3") [quote] (L " -- x" ++ [quote]).
Definition yes {A B : Type} (_ : A) (_ : B) : bool := true.
Lemma relit_anything T b s s' : (forall o o', t_operator T o o' = true -> o = o') -> t_lists T = [] -> t_rounds T = [] -> t_curlies T = [] -> relit (kinds_of T) b s s' -> relit anything b s s'.
Proof.
  intros HT HT2 HT3 HT4. induction 1 as [b|b c c' s s'|b c c' s s'|b t t' c c' s s'|b t t' c c' s s'|b d d' s s'|b o o' s s'|b t t' e e' s s' Hl|b t t' e e' s s' Hl|b t t' e e' s s' Hl|b c s s'].
  - apply rl_nil.
  - apply rl_line; auto. exact I.
  - apply rl_block; auto. exact I.
  - eapply rl_string; eauto. exact I.
  - eapply rl_literal; eauto. exact I.
  - apply rl_digits; auto. exact I.
  - apply rl_operator; auto. apply HT. assumption.
  - cbn in Hl. rewrite HT2 in Hl. destruct Hl.
  - cbn in Hl. rewrite HT3 in Hl. destruct Hl.
  - cbn in Hl. rewrite HT4 in Hl. destruct Hl.
  - apply rl_other; auto.
Qed.
Example C65_instance : relit anything after_other greeting1 greeting2 /\ greeting1 <> greeting2 /\
  exists l, file greeting1 = Ok [] l /\ length l = 4.
Proof.
  split; [apply (relit_anything (mkTests yes yes yes yes str_eqb [] [] [])); [intros o o' H; apply str_eqb_eq, H|reflexivity|reflexivity|reflexivity|apply (rl_check_relit _ 400); vm_compute; reflexivity]|]. split; [discriminate|].
  eexists. split; [vm_compute; reflexivity|]. reflexivity.
Qed.
(** a translation: each string is replaced by its translation, all else stays *)
Definition german (a : str) : str := if str_eqb a (L "Hello") then L "Hallo" else if str_eqb a (L "World") then L "Welt" else a.
Definition translated : tests := mkTests (fun a b => str_eqb b (german a)) N.eqb str_eqb str_eqb str_eqb [] [] [].
Definition greeting3 : str := greeting (quoted (L "Hallo")) (quoted3 (L "Welt")) (L "1") (L "25") (L "a") (L "").
Example C65_translated :
  relit (kinds_of translated) after_other greeting1 greeting3 /\ (forall d, on_digits (kinds_of translated) d d) /\
  forall l l', file greeting1 = Ok [] l -> file greeting3 = Ok [] l' ->
  exists f f', nth_error l 3 = Some (PortDeclaration (L "p") [] (String_ f)) /\ nth_error l' 3 = Some (PortDeclaration (L "p") [] (String_ f')) /\
  f = L "Hello" /\ f' = german f.
Proof.
  split; [apply (rl_check_relit _ 400); vm_compute; reflexivity|]. split; [intros d; apply str_eqb_eq; reflexivity|].
  intros l l' H H'. assert (E : exists l, file greeting1 = Ok [] l /\ nth_error l 3 = Some (PortDeclaration (L "p") [] (String_ (L "Hello")))) by (eexists; split; vm_compute; reflexivity).
  assert (E' : exists l, file greeting3 = Ok [] l /\ nth_error l 3 = Some (PortDeclaration (L "p") [] (String_ (L "Hallo")))) by (eexists; split; vm_compute; reflexivity).
  destruct E as (x & E & G). destruct E' as (x' & E' & G'). rewrite E in H. rewrite E' in H'. injection H as <-. injection H' as <-. exists (L "Hello"), (L "Hallo"). auto.
Qed.
(** a text that is rejected stays so *)
Example C65_rejected_instance :
  let f c := L "x = [ " ++ c ++ L " " ++ nl in relit anything after_other (f (L "1")) (f (L "23")) /\ file (f (L "1")) = Err.
Proof.
  split; [apply (relit_anything (mkTests yes yes yes yes str_eqb [] [] [])); [intros o o' H; apply str_eqb_eq, H|reflexivity|reflexivity|reflexivity|apply (rl_check_relit _ 400); vm_compute; reflexivity]|vm_compute; reflexivity].
Qed.

(** The conditions are needed.  The number of an [infix] declaration is read as a
    number: it is part of the tree, and it must fit in 64 bits. *)
Example C65_infix_needed :
  file (L "infixl 5 +") = Ok [] [InfixDeclaration AssocL 5 (L "+")] /\ file (L "infixl 99999999999999999999 +") = Err.
Proof. split; vm_compute; reflexivity. Qed.
(** digits in a name are no number *)
Example C65_name_needed : file (L "x1 = y") <> file (L "x2 = y").
Proof. vm_compute. discriminate. Qed.
(** digits and characters may be others, but not none *)
Example C65_none_needed :
  file (L "x = 1.") = Err /\ file (L "x = 1.5") <> Err /\ file (L "x = ''") = Err /\ file (L "x = 'a'") <> Err.
Proof. repeat split; vm_compute; first [reflexivity|discriminate]. Qed.
