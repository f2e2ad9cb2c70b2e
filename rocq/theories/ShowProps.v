(** * The printed text determines what was printed *)
From Verif Require Import Base Nom Ast Fail Cli Trace Output Show.

(** ** Induction on trees *)

Definition Forall_all {A} {P : A -> Prop} (f : forall a, P a) : forall l, Forall P l :=
  fix g l := match l with [] => Forall_nil _ | a :: l' => Forall_cons a (f a) (g l') end.

Section DbgInd.
  Variable P : dbg -> Prop.
  Hypothesis unit_ : forall n, P (DUnit n).
  Hypothesis int_ : forall n, P (DInt n).
  Hypothesis str_ : forall s, P (DStr s).
  Hypothesis char_ : forall c, P (DChar c).
  Hypothesis tuple_ : forall n l, Forall P l -> P (DTuple n l).
  Hypothesis struct_ : forall n l, Forall (fun f => P (snd f)) l -> P (DStruct n l).
  Hypothesis list_ : forall l, Forall P l -> P (DList l).
  Fixpoint dbg_ind' (x : dbg) : P x :=
    match x with
    | DUnit n => unit_ n
    | DInt n => int_ n
    | DStr s => str_ s
    | DChar c => char_ c
    | DTuple n l => tuple_ n l (Forall_all dbg_ind' l)
    | DStruct n l => struct_ n l (Forall_all (fun f => dbg_ind' (snd f)) l)
    | DList l => list_ l (Forall_all dbg_ind' l)
    end.
End DbgInd.

Section TypeInd.
  Variable P : type_ast -> Prop.
  Hypothesis constructor_ : forall q l, Forall P l -> P (TypeConstructor q l).
  Hypothesis variable_ : forall n, P (TypeVariable n).
  Hypothesis extension_ : forall v fs, P v -> Forall (fun f => P (snd f)) fs -> P (TypeRecordConstructor v fs).
  Hypothesis record_ : forall fs, Forall (fun f => P (snd f)) fs -> P (TypeRecord fs).
  Hypothesis tuple_ : forall l, Forall P l -> P (TypeTuple l).
  Hypothesis arrow_ : forall a b, P a -> P b -> P (TypeApplication a b).
  Fixpoint type_ind' (t : type_ast) : P t :=
    match t with
    | TypeConstructor q l => constructor_ q l (Forall_all type_ind' l)
    | TypeVariable n => variable_ n
    | TypeRecordConstructor v fs =>
        extension_ v fs (type_ind' v) (Forall_all (fun f => type_ind' (snd f)) fs)
    | TypeRecord fs => record_ fs (Forall_all (fun f => type_ind' (snd f)) fs)
    | TypeTuple l => tuple_ l (Forall_all type_ind' l)
    | TypeApplication a b => arrow_ a b (type_ind' a) (type_ind' b)
    end.
End TypeInd.

Section ExprInd.
  Variable P : expr -> Prop.
  Variable Q : let_entry -> Prop.
  Variable R : func -> Prop.
  Variable D : func_def -> Prop.
  Hypothesis character_ : forall c, P (Character c).
  Hypothesis string_ : forall s, P (String_ s).
  Hypothesis integer_ : forall s, P (Integer s).
  Hypothesis float_ : forall s, P (Float s).
  Hypothesis variable_ : forall q, P (Variable_ q).
  Hypothesis list_ : forall l, Forall P l -> P (List_ l).
  Hypothesis tuple_ : forall l, Forall P l -> P (Tuple l).
  Hypothesis access_ : forall e fs, P e -> P (Access e fs).
  Hypothesis access_function_ : forall n, P (AccessFunction n).
  Hypothesis record_ : forall fs, Forall (fun f => P (snd f)) fs -> P (Record_ fs).
  Hypothesis update_ : forall n fs, Forall (fun f => P (snd f)) fs -> P (RecordUpdate n fs).
  Hypothesis if_ : forall c t e, P c -> P t -> P e -> P (If_ c t e).
  Hypothesis let_ : forall l e, Forall Q l -> P e -> P (Let_ l e).
  Hypothesis case_ : forall e l, P e -> Forall (fun b => P (fst b) /\ P (snd b)) l -> P (Case_ e l).
  Hypothesis lambda_ : forall l e, Forall P l -> P e -> P (Lambda l e).
  Hypothesis application_ : forall f x, P f -> P x -> P (Application f x).
  Hypothesis binop_ : forall o a b, P o -> P a -> P b -> P (BinOp o a b).
  Hypothesis function_ : forall f, R f -> Q (LetFunction f).
  Hypothesis binding_ : forall t e, P t -> P e -> Q (LetBinding t e).
  Hypothesis func_ : forall sg d, D d -> R (mkFunc sg d).
  Hypothesis def_ : forall n l e, Forall P l -> P e -> D (mkDef n l e).
  Fixpoint expr_ind' (e : expr) : P e :=
    match e with
    | Character c => character_ c
    | String_ s => string_ s
    | Integer s => integer_ s
    | Float s => float_ s
    | Variable_ q => variable_ q
    | List_ l => list_ l (Forall_all expr_ind' l)
    | Tuple l => tuple_ l (Forall_all expr_ind' l)
    | Access e fs => access_ e fs (expr_ind' e)
    | AccessFunction n => access_function_ n
    | Record_ fs => record_ fs (Forall_all (fun f => expr_ind' (snd f)) fs)
    | RecordUpdate n fs => update_ n fs (Forall_all (fun f => expr_ind' (snd f)) fs)
    | If_ c t e => if_ c t e (expr_ind' c) (expr_ind' t) (expr_ind' e)
    | Let_ l e => let_ l e (Forall_all entry_ind' l) (expr_ind' e)
    | Case_ e l =>
        case_ e l (expr_ind' e) (Forall_all (fun b => conj (expr_ind' (fst b)) (expr_ind' (snd b))) l)
    | Lambda l e => lambda_ l e (Forall_all expr_ind' l) (expr_ind' e)
    | Application f x => application_ f x (expr_ind' f) (expr_ind' x)
    | BinOp o a b => binop_ o a b (expr_ind' o) (expr_ind' a) (expr_ind' b)
    end
  with entry_ind' (x : let_entry) : Q x :=
    match x with
    | LetFunction f => function_ f (func_ind' f)
    | LetBinding t e => binding_ t e (expr_ind' t) (expr_ind' e)
    end
  with func_ind' (f : func) : R f := match f with mkFunc sg d => func_ sg d (def_ind' d) end
  with def_ind' (d : func_def) : D d :=
    match d with mkDef n l e => def_ n l e (Forall_all expr_ind' l) (expr_ind' e) end.
  Lemma expr_all : (forall e, P e) /\ (forall x, Q x) /\ (forall f, R f) /\ (forall d, D d).
  Proof. exact (conj expr_ind' (conj entry_ind' (conj func_ind' def_ind'))). Qed.
End ExprInd.

Section ExportInd.
  Variable P : export_set -> Prop.
  Hypothesis all_ : P AllExport.
  Hypothesis subset_ : forall l, Forall P l -> P (SubsetExport l).
  Hypothesis function_ : forall n, P (FunctionExport n).
  Hypothesis type0_ : forall n, P (TypeExport n None).
  Hypothesis type1_ : forall n c, P c -> P (TypeExport n (Some c)).
  Fixpoint export_ind' (e : export_set) : P e :=
    match e with
    | AllExport => all_
    | SubsetExport l => subset_ l (Forall_all export_ind' l)
    | FunctionExport n => function_ n
    | TypeExport n None => type0_ n
    | TypeExport n (Some c) => type1_ n c (export_ind' c)
    end.
End ExportInd.

(** ** Runs of characters *)

Definition stops (p : char -> bool) (r : str) : Prop := match r with [] => True | c :: _ => p c = false end.
Lemma run_eq p a b r r' : forallb p a = true -> forallb p b = true -> stops p r -> stops p r' ->
  a ++ r = b ++ r' -> a = b /\ r = r'.
Proof.
  revert b. induction a as [|c a IH]; intros [|d b] Ha Hb Hr Hr' H; cbn in *.
  - auto.
  - subst r. cbn in Hr. apply andb_true_iff in Hb as [Hb _]. congruence.
  - subst r'. cbn in Hr'. apply andb_true_iff in Ha as [Ha _]. congruence.
  - injection H as <- H. apply andb_true_iff in Ha as [Hc Ha], Hb as [_ Hb].
    destruct (IH b Ha Hb Hr Hr' H) as [-> ->]. auto.
Qed.

(** ** Numerals *)

Definition digit_value (c : char) : N := if (c <? 58)%N then (c - 48)%N else (c - 87)%N.
Definition value (b : N) (s : str) : N := fold_left (fun v c => (v * b + digit_value c)%N) s 0%N.
Definition is_numeral_char (c : char) : bool := ((48 <=? c) && (c <=? 57) || (97 <=? c) && (c <=? 102))%N.

Lemma digit_value_digit d : (d < 16)%N -> digit_value (numeral_digit d) = d.
Proof.
  intros H. unfold digit_value, numeral_digit. destruct (N.ltb_spec d 10).
  - replace (48 + d <? 58)%N with true by (symmetry; apply N.ltb_lt; lia). lia.
  - replace (97 + (d - 10) <? 58)%N with false by (symmetry; apply N.ltb_ge; lia). lia.
Qed.
Lemma numeral_char_digit d : (d < 16)%N -> is_numeral_char (numeral_digit d) = true.
Proof.
  intros H. unfold is_numeral_char, numeral_digit. destruct (N.ltb_spec d 10).
  - apply orb_true_iff. left. apply andb_true_iff. split; apply N.leb_le; lia.
  - apply orb_true_iff. right. apply andb_true_iff. split; apply N.leb_le; lia.
Qed.
Lemma numeral_from_app b k n acc : numeral_from b k n acc = numeral_from b k n [] ++ acc.
Proof.
  revert n acc. induction k as [|k IH]; intros n acc; [reflexivity|]. cbn [numeral_from].
  destruct (n / b =? 0)%N; [reflexivity|]. rewrite IH, (IH _ [_]), <- app_assoc. reflexivity.
Qed.
Lemma value_from b k n : (2 <= b <= 16)%N -> (n < 2 ^ N.of_nat (S k))%N ->
  value b (numeral_from b (S k) n []) = n.
Proof.
  intros Hb. revert n. induction k as [|k IH]; intros n Hn.
  - cbn [numeral_from]. change (2 ^ N.of_nat 1)%N with 2%N in Hn.
    rewrite (N.div_small n b) by lia. rewrite (N.mod_small n b) by lia. cbn [N.eqb].
    unfold value. cbn [fold_left]. rewrite digit_value_digit by lia. lia.
  - cbn [numeral_from]. destruct (N.eqb_spec (n / b) 0) as [H|H].
    + unfold value. cbn [fold_left]. rewrite digit_value_digit by (pose proof (N.mod_lt n b); lia).
      pose proof (N.div_mod n b). lia.
    + change (value b (numeral_from b (S k) (n / b) [numeral_digit (n mod b)]) = n).
      rewrite numeral_from_app. unfold value. rewrite fold_left_app. cbn [fold_left].
      fold (value b (numeral_from b (S k) (n / b) [])). rewrite IH.
      * rewrite digit_value_digit by (pose proof (N.mod_lt n b); lia). pose proof (N.div_mod n b). lia.
      * apply N.div_lt_upper_bound; [lia|].
        replace (N.of_nat (S (S k))) with (N.succ (N.of_nat (S k))) in Hn by lia.
        rewrite N.pow_succ_r' in Hn. pose proof (N.pow_nonzero 2 (N.of_nat (S k))). nia.
Qed.
Lemma size_bound n : (n < 2 ^ N.of_nat (S (N.size_nat n)))%N.
Proof.
  replace (N.of_nat (S (N.size_nat n))) with (N.succ (N.size n)).
  - pose proof (N.size_gt n). rewrite N.pow_succ_r'. lia.
  - destruct n as [|p]; [reflexivity|]. cbn [N.size N.size_nat].
    enough (Npos (Pos.size p) = N.of_nat (Pos.size_nat p)) as -> by lia.
    induction p as [p IH|p IH|]; cbn [Pos.size Pos.size_nat]; lia.
Qed.
Lemma value_numeral b n : (2 <= b <= 16)%N -> value b (numeral b n) = n.
Proof. intros Hb. apply value_from; [exact Hb|apply size_bound]. Qed.
Lemma numeral_all p b n : b <> 0%N -> (forall d, (d < b)%N -> p (numeral_digit d) = true) ->
  forallb p (numeral b n) = true.
Proof.
  intros Hb Hp. unfold numeral. generalize (S (N.size_nat n)) as k. intros k.
  assert (H : forall acc n, forallb p acc = true ->
            forallb p (numeral_from b k n acc) = true); [|apply H; reflexivity].
  induction k as [|k IH]; intros acc m H; [exact H|]. cbn [numeral_from].
  assert (H' : forallb p (numeral_digit (m mod b) :: acc) = true).
  { cbn [forallb]. rewrite H, Hp by (pose proof (N.mod_lt m b); lia). reflexivity. }
  destruct (m / b =? 0)%N; [exact H'|]. apply IH, H'.
Qed.
Lemma numeral_chars b n : (2 <= b <= 16)%N -> forallb is_numeral_char (numeral b n) = true.
Proof. intros Hb. apply numeral_all; [lia|]. intros d Hd. apply numeral_char_digit. lia. Qed.
Definition is_decimal (c : char) : bool := ((48 <=? c) && (c <=? 57))%N.
Lemma decimal_chars n : forallb is_decimal (numeral 10 n) = true.
Proof.
  apply numeral_all; [lia|]. intros d Hd. unfold is_decimal, numeral_digit. destruct (N.ltb_spec d 10); [|lia].
  apply andb_true_iff. split; apply N.leb_le; lia.
Qed.
Lemma numeral_nonempty b n : numeral b n <> [].
Proof.
  unfold numeral. cbn [numeral_from]. destruct (n / b =? 0)%N; [discriminate|].
  rewrite numeral_from_app. destruct (numeral_from _ _ _ _); discriminate.
Qed.
Lemma numeral_run b n n' r r' : (2 <= b <= 16)%N -> stops is_numeral_char r -> stops is_numeral_char r' ->
  numeral b n ++ r = numeral b n' ++ r' -> n = n' /\ r = r'.
Proof.
  intros Hb Hr Hr' H. apply run_eq with (p := is_numeral_char) in H as [H ->]; auto using numeral_chars.
  split; [|reflexivity]. rewrite <- (value_numeral b n Hb), H. apply value_numeral, Hb.
Qed.

(** ** Strings *)

(** the character after the backslash of a short escape *)
Definition short (k : char) : option char :=
  if (k =? C "t")%N then Some 9%N
  else if (k =? C "r")%N then Some 13%N
  else if (k =? C "n")%N then Some 10%N
  else if (k =? C "0")%N then Some 0%N
  else if ((k =? C "\") || (k =? C "'") || (k =? 34))%N then Some k
  else None.

Inductive escaped (q c : char) : str -> Prop :=
| escaped_raw : c <> C "\" -> c <> q -> c <> 10%N -> escaped q c [c]
| escaped_short k : short k = Some c -> escaped q c [C "\"; k]
| escaped_code : escaped q c (L "\u{" ++ numeral 16 c ++ L "}").

Lemma escape_escaped st q c : (q = 34 \/ q = 39)%N -> escaped q c (escape st q c).
Proof.
  intros Hq. unfold escape.
  destruct (N.eqb_spec c 9) as [->|]; [apply escaped_short; reflexivity|].
  destruct (N.eqb_spec c 13) as [->|]; [apply escaped_short; reflexivity|].
  destruct (N.eqb_spec c 10) as [->|]; [apply escaped_short; reflexivity|].
  destruct (N.eqb_spec c (C "\")) as [->|]; [apply escaped_short; reflexivity|].
  destruct (N.eqb_spec c q) as [->|]; [apply escaped_short; destruct Hq as [-> | ->]; reflexivity|].
  destruct (other_quote st && _)%bool eqn:E.
  { apply andb_true_iff in E as [_ E]. apply escaped_short.
    apply orb_true_iff in E as [E|E]; apply N.eqb_eq in E; subst c; reflexivity. }
  destruct (short_nul st && _)%bool eqn:E'.
  { apply andb_true_iff in E' as [_ E']. apply N.eqb_eq in E'. subst c. apply escaped_short. reflexivity. }
  destruct (printable st c); [apply escaped_raw; assumption|apply escaped_code].
Qed.

Lemma short_u : short (C "u") = None.
Proof. reflexivity. Qed.
Lemma escaped_inj q c d a b r r' : escaped q c a -> escaped q d b -> a ++ r = b ++ r' -> c = d /\ r = r'.
Proof.
  intros [H1 H2 _|k H|] [H3 H4 _|k' H'|] E; cbn [app] in E.
  - injection E as -> ->. auto.
  - injection E as -> _. congruence.
  - injection E as -> _. congruence.
  - injection E as <- _. congruence.
  - injection E as <- <-. split; congruence.
  - injection E as -> _. rewrite short_u in H. discriminate.
  - injection E as <- _. congruence.
  - injection E as <- _. rewrite short_u in H'. discriminate.
  - injection E as E. rewrite <- !app_assoc in E.
    apply numeral_run in E as [-> E]; [|lia|reflexivity..]. injection E as ->. auto.
Qed.
Lemma escaped_head q c a : (q = 34 \/ q = 39)%N -> escaped q c a -> exists x y, a = x :: y /\ x <> q.
Proof.
  intros Hq [H1 H2 _|k H|]; cbn [app]; do 2 eexists; (split; [reflexivity|]);
    [assumption|destruct Hq as [-> | ->]; discriminate..].
Qed.
Lemma quoted_inj st q s t r r' : (q = 34 \/ q = 39)%N -> quoted st q s ++ r = quoted st q t ++ r' -> s = t /\ r = r'.
Proof.
  intros Hq. unfold quoted. cbn [app]. intros H. injection H as H. rewrite <- !app_assoc in H. cbn [app] in H.
  revert t H. induction s as [|c s IH]; intros [|d t] H; cbn [flat_map app] in H.
  - injection H as ->. auto.
  - rewrite <- app_assoc in H. destruct (escaped_head q d _ Hq (escape_escaped st q d Hq)) as (x & y & E & Hx).
    rewrite E in H. injection H as H _. congruence.
  - rewrite <- app_assoc in H. destruct (escaped_head q c _ Hq (escape_escaped st q c Hq)) as (x & y & E & Hx).
    rewrite E in H. injection H as H _. congruence.
  - rewrite <- !app_assoc in H.
    destruct (escaped_inj q c d _ _ _ _ (escape_escaped st q c Hq) (escape_escaped st q d Hq) H) as [-> H'].
    destruct (IH t H') as [-> ->]. auto.
Qed.

(** ** Lines *)

Definition one_line (s : str) : Prop := ~ In 10%N s.
Lemma one_line_mem s : mem_char 10 s = false -> one_line s.
Proof. intros H Hi. apply mem_char_In in Hi. congruence. Qed.
Lemma one_line_app a b : one_line a -> one_line b -> one_line (a ++ b).
Proof. unfold one_line. rewrite in_app_iff. tauto. Qed.
Lemma one_line_forallb p s : p 10%N = false -> forallb p s = true -> one_line s.
Proof. intros Hp H Hi. rewrite forallb_forall in H. specialize (H _ Hi). congruence. Qed.
Lemma one_line_numeral b n : (2 <= b <= 16)%N -> one_line (numeral b n).
Proof. intros Hb. eapply one_line_forallb; [|apply numeral_chars, Hb]. reflexivity. Qed.
Lemma one_line_quoted st q s : (q = 34 \/ q = 39)%N -> one_line (quoted st q s).
Proof.
  intros Hq. unfold quoted. repeat apply one_line_app; try (intros [H|[]]; destruct Hq; subst; discriminate).
  intros H. apply in_flat_map in H as (c & _ & H). revert H.
  destruct (escape_escaped st q c Hq) as [H1 H2 H3|k Hk|]; [intros [H|[]]; congruence| |].
  - intros [H|[H|[]]]; [discriminate|]. subst k. discriminate Hk.
  - repeat apply one_line_app; try (apply one_line_mem; reflexivity).
    apply one_line_numeral. lia.
Qed.

(** four spaces for each of [d] blocks, at the beginning of every line but the first *)
Definition pad (d : nat) : str := repeat 32%N (4 * d).
Definition deep (d : nat) (s : str) : str := flat_map (fun c => if (c =? 10)%N then 10%N :: pad d else [c]) s.

Lemma deep_app d a b : deep d (a ++ b) = deep d a ++ deep d b.
Proof. apply flat_map_app. Qed.
Lemma deep_cons d c s : deep d (c :: s) = (if (c =? 10)%N then 10%N :: pad d else [c]) ++ deep d s.
Proof. reflexivity. Qed.
Lemma deep_lf d : deep d [10%N] = [10%N] ++ pad d.
Proof. apply app_nil_r. Qed.
Lemma deep_one_line d s : one_line s -> deep d s = s.
Proof.
  induction s as [|c s IH]; intros H; [reflexivity|]. cbn [deep flat_map]. destruct (N.eqb_spec c 10) as [->|].
  - destruct H. left. reflexivity.
  - cbn [app]. f_equal. apply IH. intros Hi. apply H. right. exact Hi.
Qed.
Lemma pad_one_line d : one_line (pad d).
Proof. intros H. apply repeat_spec in H. discriminate. Qed.
Lemma pad_add a b : pad a ++ pad b = pad (a + b).
Proof. unfold pad. rewrite <- repeat_app. f_equal. lia. Qed.
Lemma deep_deep d s : deep d (deep 1 s) = deep (S d) s.
Proof.
  induction s as [|c s IH]; [reflexivity|]. rewrite !deep_cons, deep_app, IH. f_equal. destruct (N.eqb_spec c 10) as [->|].
  - change (10%N :: pad 1) with ([10%N] ++ pad 1). rewrite deep_app, (deep_one_line d (pad 1)) by apply pad_one_line.
    rewrite deep_cons. cbn [N.eqb Pos.eqb app deep flat_map]. rewrite app_nil_r, pad_add, Nat.add_1_r. reflexivity.
  - apply deep_one_line. intros [H|[]]. congruence.
Qed.
Lemma deep_zero s : deep 0 s = s.
Proof.
  induction s as [|c s IH]; [reflexivity|]. rewrite deep_cons, IH.
  destruct (N.eqb_spec c 10) as [->|]; reflexivity.
Qed.
Lemma padded_end b s : padded b (s ++ [10%N]) = (if b then pad 1 else []) ++ deep 1 s ++ [10%N].
Proof.
  revert b. induction s as [|c s IH]; intros b; [destruct b; reflexivity|].
  cbn [app padded]. rewrite IH. change (L "    ") with (pad 1). rewrite deep_cons.
  f_equal. destruct (N.eqb_spec c 10) as [->|]; cbn [app]; [rewrite <- app_assoc|]; reflexivity.
Qed.

(** ** Blocks *)

(** what may follow a value *)
Definition ends (r : str) : Prop := match r with [] => True | c :: _ => c = C "," \/ c = 10%N end.

Section Blocks.
  Variable st : style.
  Context {A : Type} (text : A -> str) (ok : A -> Prop).
  Definition decodes (x : A) : Prop := forall d y r r', ok y -> ends r -> ends r' ->
    deep d (text x) ++ r = deep d (text y) ++ r' -> x = y /\ r = r'.

  Lemma items_cons d x xs : deep d (block_items st (text x :: map text xs)) =
    pad 1 ++ deep (S d) (text x) ++
      (match xs with [] => if trailing st then L "," else [] | _ => L "," end) ++ [10%N] ++ pad d ++
      deep d (block_items st (map text xs)).
  Proof.
    assert (H : forall sep, one_line sep -> deep d (padded true (text x ++ sep ++ [10%N])) =
              pad 1 ++ deep (S d) (text x) ++ sep ++ [10%N] ++ pad d).
    { intros sep Hs. rewrite app_assoc, padded_end, !deep_app, !deep_deep.
      rewrite (deep_one_line d (pad 1)) by apply pad_one_line.
      rewrite (deep_one_line (S d) sep) by exact Hs. cbn [deep flat_map N.eqb Pos.eqb].
      rewrite app_nil_r, <- !app_assoc. reflexivity. }
    destruct xs as [|y xs]; cbn [map block_items].
    - rewrite H; [|apply one_line_mem; destruct (trailing st); reflexivity].
      cbn [deep flat_map]. rewrite app_nil_r. reflexivity.
    - rewrite deep_app, H; [|apply one_line_mem; reflexivity].
      rewrite <- !app_assoc. reflexivity.
  Qed.

  Lemma items_inj d close xs : close <> 32%N -> Forall decodes xs -> forall ys r r', Forall ok ys ->
    deep d (block_items st (map text xs)) ++ close :: r = deep d (block_items st (map text ys)) ++ close :: r' ->
    xs = ys /\ r = r'.
  Proof.
    intros Hc. induction 1 as [|x xs Hx _ IH]; intros [|y ys] r r' Hok H.
    - injection H as ->. auto.
    - cbn [map] in H. rewrite items_cons in H. injection H as H _. congruence.
    - cbn [map] in H. rewrite items_cons in H. injection H as H _. congruence.
    - cbn [map] in H. rewrite !items_cons, <- !app_assoc in H. apply app_inv_head in H.
      apply Forall_cons_iff in Hok as [Hy Hys]. apply Hx in H as [-> H]; [|exact Hy|..].
      + assert (H' : deep d (block_items st (map text xs)) ++ close :: r =
                     deep d (block_items st (map text ys)) ++ close :: r').
        { destruct xs, ys, (trailing st); cbn [app] in H; try discriminate H;
            injection H as H; apply app_inv_head in H; exact H. }
        apply IH in H' as [-> ->]; auto.
      + destruct xs, (trailing st); cbn; auto.
      + destruct ys, (trailing st); cbn; auto.
  Qed.

  Lemma block_inj d o close xs ys r r' : close <> 32%N -> close <> 10%N -> Forall decodes xs -> Forall ok ys ->
    deep d (block st o (map text xs) [close]) ++ r = deep d (block st o (map text ys) [close]) ++ r' ->
    xs = ys /\ r = r'.
  Proof.
    intros H1 H2 Hxs Hys H.
    assert (E : forall zs r, deep d (block st o (map text zs) [close]) ++ r =
              deep d o ++ (match zs with [] => [] | _ => [10%N] ++ pad d end) ++
              deep d (block_items st (map text zs)) ++ close :: r).
    { intros zs q. assert (Hd : deep d [close] = [close]).
      { apply deep_one_line. intros [Hi|[]]. congruence. }
      destruct zs as [|z zs]; unfold block; cbn [map]; rewrite !deep_app, Hd, ?deep_lf, <- !app_assoc; reflexivity. }
    rewrite !E in H. apply app_inv_head in H. destruct xs as [|x xs], ys as [|y ys].
    - injection H as ->. auto.
    - injection H as H _. congruence.
    - injection H as H _. congruence.
    - rewrite <- !app_assoc in H. apply app_inv_head in H. apply app_inv_head in H.
      apply items_inj in H; auto.
  Qed.
End Blocks.

(** ** Values *)

Definition ident (c : char) : bool :=
  ((65 <=? c) && (c <=? 90) || (97 <=? c) && (c <=? 122) || (c =? 95))%N.

(** the names are identifiers *)
Fixpoint named (x : dbg) : bool :=
  match x with
  | DUnit n => forallb ident n
  | DTuple n l => forallb ident n && forallb named l
  | DStruct n l => forallb ident n && forallb (fun f => forallb ident (fst f) && named (snd f)) l
  | DList l => forallb named l
  | DInt _ | DStr _ | DChar _ => true
  end.
Definition field_text (st : style) (f : str * dbg) : str := fst f ++ L ": " ++ pretty st (snd f).

Definition head_of (x : dbg) : str := match x with DUnit n | DTuple n _ | DStruct n _ => n | _ => [] end.
Definition tail_of (st : style) (x : dbg) : str :=
  match x with
  | DUnit n => []
  | DTuple _ l => block st (L "(") (map (pretty st) l) (L ")")
  | DStruct _ l => block st (L " {") (map (field_text st) l) (L "}")
  | _ => pretty st x
  end.
Lemma pretty_split st x : pretty st x = head_of x ++ tail_of st x.
Proof. destruct x; cbn [head_of tail_of pretty app]; rewrite ?app_nil_r; reflexivity. Qed.
Lemma head_named x : named x = true -> forallb ident (head_of x) = true.
Proof. destruct x; cbn [named head_of]; intros H; try reflexivity; try exact H; apply andb_true_iff in H as [H _]; exact H. Qed.

(** the first character of the second part tells the constructor *)
Definition mark (x : dbg) (c : char) : Prop :=
  match x with
  | DUnit _ => False
  | DInt _ => is_decimal c = true
  | DStr _ => c = 34%N
  | DChar _ => c = 39%N
  | DTuple _ _ => c = C "("
  | DStruct _ _ => c = 32%N
  | DList _ => c = C "["
  end.
Lemma tail_mark st d x : (exists n, x = DUnit n) \/ exists c t, deep d (tail_of st x) = c :: t /\ mark x c.
Proof.
  assert (B : forall o items close, (o =? 10)%N = false -> exists t, deep d (block st (o :: L "") items close) = o :: t).
  { intros o items close Ho. unfold block. destruct items; cbn [app]; rewrite deep_cons, Ho; eexists; reflexivity. }
  destruct x as [n|n|s|c|n l|n l|l]; [left; eauto|right..]; cbn [tail_of pretty].
  - rewrite deep_one_line by (apply one_line_numeral; lia).
    pose proof (decimal_chars n) as H. pose proof (numeral_nonempty 10 n) as H0.
    destruct (numeral 10 n) as [|c t]; [congruence|]. apply andb_true_iff in H as [H _]. exists c, t. auto.
  - rewrite deep_one_line by (apply one_line_quoted; auto). eexists _, _. split; [reflexivity|]. reflexivity.
  - rewrite deep_one_line by (apply one_line_quoted; auto). eexists _, _. split; [reflexivity|]. reflexivity.
  - destruct (B (C "(") (map (pretty st) l) (L ")") eq_refl) as (t & ->). eexists _, t. split; reflexivity.
  - unfold block. destruct (map _ l); cbn [app]; rewrite deep_cons; eexists _, _; (split; [reflexivity|reflexivity]).
  - destruct (B (C "[") (map (pretty st) l) (L "]") eq_refl) as (t & ->). eexists _, t. split; reflexivity.
Qed.
Lemma mark_ident x c : mark x c -> ident c = false.
Proof.
  destruct x; cbn [mark]; intros H; try (subst c; reflexivity); [contradiction|].
  unfold is_decimal in H. unfold ident. apply andb_true_iff in H as [H1 H2]. apply N.leb_le in H1, H2.
  replace (65 <=? c)%N with false by (symmetry; apply N.leb_gt; lia).
  replace (97 <=? c)%N with false by (symmetry; apply N.leb_gt; lia).
  replace (c =? 95)%N with false by (symmetry; apply N.eqb_neq; lia). reflexivity.
Qed.
Lemma mark_ends x c : mark x c -> c <> C "," /\ c <> 10%N.
Proof.
  destruct x; cbn [mark]; intros H; try (subst c; split; discriminate); [contradiction|].
  unfold is_decimal in H. apply andb_true_iff in H as [H1 H2]. apply N.leb_le in H1, H2. lia.
Qed.

(** which constructor *)
Definition rank (x : dbg) : nat :=
  match x with
  | DUnit _ => 0 | DInt _ => 1 | DStr _ => 2 | DChar _ => 3 | DTuple _ _ => 4 | DStruct _ _ => 5 | DList _ => 6
  end.
Lemma mark_rank x y c : mark x c -> mark y c -> rank x = rank y.
Proof.
  destruct x, y; cbn [mark rank]; intros H H'; try reflexivity; try contradiction; subst; discriminate.
Qed.
Lemma tail_rank st d x y r r' : ends r -> ends r' ->
  deep d (tail_of st x) ++ r = deep d (tail_of st y) ++ r' -> rank x = rank y.
Proof.
  intros Hr Hr' H.
  assert (U : forall y r r', ends r -> r = deep d (tail_of st y) ++ r' -> exists n, y = DUnit n).
  { clear. intros y r r' Hr H. destruct (tail_mark st d y) as [E|(c & t & E & Hm)]; [exact E|].
    rewrite E in H. subst r. apply mark_ends in Hm. cbn in Hr. tauto. }
  destruct (tail_mark st d x) as [(n & ->)|(c & t & E & Hm)].
  - destruct (U y r r' Hr H) as (n' & ->). reflexivity.
  - destruct (tail_mark st d y) as [(n & ->)|(c' & t' & E' & Hm')].
    + symmetry in H. destruct (U x r' r Hr' H) as (n' & ->). reflexivity.
    + rewrite E, E' in H. injection H as <- _. eapply mark_rank; eassumption.
Qed.
Lemma tail_stops st d x r : ends r -> stops ident (deep d (tail_of st x) ++ r).
Proof.
  intros Hr. destruct (tail_mark st d x) as [(n & ->)|(c & t & -> & Hm)].
  - destruct r as [|c r]; [exact I|]. destruct Hr as [-> | ->]; reflexivity.
  - exact (mark_ident x c Hm).
Qed.
Lemma ident_one_line n : forallb ident n = true -> one_line n.
Proof. apply one_line_forallb. reflexivity. Qed.

Lemma decodes_pretty st x : named x = true -> decodes (pretty st) (fun y => named y = true) x.
Proof.
  induction x as [n|n|s|c|n l IH|n l IH|l IH] using dbg_ind'; intros Hx d y r r' Hy Hr Hr' H;
    rewrite !pretty_split, !deep_app, <- !app_assoc, (deep_one_line d (head_of _)), (deep_one_line d (head_of y)) in H
      by (apply ident_one_line, head_named; assumption);
    apply run_eq with (p := ident) in H as [Hh Ht];
      try (apply head_named; assumption); try (apply tail_stops; assumption);
    pose proof (tail_rank _ _ _ _ _ _ Hr Hr' Ht) as Hrank; destruct y as [n'|n'|s'|c'|n' l'|n' l'|l'];
    try discriminate Hrank; cbn [head_of tail_of pretty] in Hh, Ht; clear Hrank.
  - subst. auto.
  - rewrite !deep_one_line in Ht by (apply one_line_numeral; lia).
    apply numeral_run in Ht as [-> ->]; [auto|lia|..].
    + destruct r as [|c r]; [exact I|]. destruct Hr as [-> | ->]; reflexivity.
    + destruct r' as [|c r']; [exact I|]. destruct Hr' as [-> | ->]; reflexivity.
  - rewrite !deep_one_line in Ht by (apply one_line_quoted; auto).
    apply quoted_inj in Ht as [-> ->]; auto.
  - rewrite !deep_one_line in Ht by (apply one_line_quoted; auto).
    apply quoted_inj in Ht as [[= ->] ->]; auto.
  - cbn [named] in Hx, Hy. apply andb_true_iff in Hx as [_ Hx], Hy as [_ Hy].
    rewrite forallb_forall in Hx, Hy.
    apply block_inj with (ok := fun y => named y = true) in Ht as [-> ->]; subst; auto; try discriminate.
    + rewrite Forall_forall in *. intros x Hi. apply IH; auto.
    + apply Forall_forall. auto.
  - cbn [named] in Hx, Hy. apply andb_true_iff in Hx as [_ Hx], Hy as [_ Hy].
    rewrite forallb_forall in Hx, Hy.
    apply block_inj with (ok := fun f => forallb ident (fst f) && named (snd f) = true) in Ht as [-> ->];
      subst; auto; try discriminate.
    + rewrite Forall_forall in *. intros [m x] Hi e [m' x'] q q' Hy' Hq Hq' E. cbn [fst snd] in *.
      specialize (Hx _ Hi). apply andb_true_iff in Hx as [Hm Hx], Hy' as [Hm' Hx']. cbn [fst snd] in *.
      unfold field_text in E. cbn [fst snd] in E.
      rewrite !deep_app, <- !app_assoc, (deep_one_line e m), (deep_one_line e m') in E by (apply ident_one_line; assumption).
      apply run_eq with (p := ident) in E as [-> E]; [|assumption|assumption|reflexivity..].
      apply app_inv_head in E. destruct (IH (m', x) Hi Hx e x' q q' Hx' Hq Hq' E) as [E1 E2].
      cbn [snd] in E1. subst. auto.
    + apply Forall_forall. auto.
  - cbn [named] in Hx, Hy. rewrite forallb_forall in Hx, Hy.
    apply block_inj with (ok := fun y => named y = true) in Ht as [-> ->]; subst; auto; try discriminate.
    + rewrite Forall_forall in *. intros x Hi. apply IH; auto.
    + apply Forall_forall. auto.
Qed.

(** Two values with the same text are equal, also when other text follows. *)
Lemma pretty_inj st x y r r' : named x = true -> named y = true -> ends r -> ends r' ->
  pretty st x ++ r = pretty st y ++ r' -> x = y /\ r = r'.
Proof.
  intros Hx Hy Hr Hr' H. apply (decodes_pretty st x Hx 0 y r r' Hy Hr Hr'). rewrite !deep_zero. exact H.
Qed.

(** ** Syntax trees: the names are identifiers *)

Lemma named_map {A} (f : A -> dbg) l : Forall (fun a => named (f a) = true) l -> forallb named (map f l) = true.
Proof. induction 1 as [|a l Ha _ IH]; [reflexivity|]. cbn [map forallb]. rewrite Ha, IH. reflexivity. Qed.
Lemma named_strs q : forallb named (map DStr q) = true.
Proof. apply named_map, Forall_forall. reflexivity. Qed.
Lemma named_pairs {A} (f : A -> dbg) (l : list (str * A)) : Forall (fun a => named (f (snd a)) = true) l ->
  forallb named (map (dbg_pair DStr f) l) = true.
Proof. intros H. apply named_map. eapply Forall_impl; [|exact H]. intros [n a] Ha. cbn in *. rewrite Ha. reflexivity. Qed.
Lemma named_branches {A} (f : A -> dbg) (l : list (A * A)) :
  Forall (fun b => named (f (fst b)) = true /\ named (f (snd b)) = true) l ->
  forallb named (map (dbg_pair f f) l) = true.
Proof.
  intros H. apply named_map. eapply Forall_impl; [|exact H]. intros [n a] [H1 H2]. cbn in *. rewrite H1, H2. reflexivity.
Qed.
Ltac named_step :=
  cbn; repeat match goal with
  | H : ?a = true |- context [?a] => rewrite H
  | |- context [forallb named (map DStr ?q)] => rewrite (named_strs q)
  | H : Forall _ ?l |- context [forallb named (map ?f ?l)] =>
      first [rewrite (named_map f l H) | rewrite (named_pairs _ l H) | rewrite (named_branches _ l H)]
  end; try reflexivity.
Lemma named_type t : named (dbg_type t) = true.
Proof. induction t using type_ind'; named_step. Qed.
Lemma named_signature sg : named (dbg_option dbg_signature sg) = true.
Proof. destruct sg as [[n t]|]; cbn; rewrite ?named_type; reflexivity. Qed.
Lemma named_all : (forall e, named (dbg_expr e) = true) /\ (forall x, named (dbg_entry x) = true) /\
  (forall f, named (dbg_func f) = true) /\ (forall d, named (dbg_def d) = true).
Proof.
  apply expr_all; intros; named_step.
  destruct sg as [[n t]|]; cbn; rewrite ?named_type; reflexivity.
Qed.
Lemma named_exports e : named (dbg_exports e) = true.
Proof. induction e using export_ind'; named_step. Qed.
Lemma named_statement s : named (dbg_statement s) = true.
Proof.
  pose proof (proj1 named_all). pose proof (proj1 (proj2 (proj2 named_all))).
  destruct s; cbn [dbg_statement named forallb dbg_names]; rewrite ?named_strs, ?named_exports, ?named_type;
    try reflexivity.
  - rewrite (named_pairs DStr) by (apply Forall_forall; reflexivity). reflexivity.
  - destruct alias, e; cbn; rewrite ?named_exports; reflexivity.
  - rewrite named_map by (apply Forall_forall; intros; apply named_type). reflexivity.
  - rewrite H. reflexivity.
  - rewrite H0. reflexivity.
  - destruct a; reflexivity.
Qed.
Lemma named_file sts : named (DList (map dbg_statement sts)) = true.
Proof. apply named_map, Forall_forall. intros s _. apply named_statement. Qed.
Lemma named_error r k : named (dbg_error r k) = true.
Proof. destruct k; reflexivity. Qed.
Lemma named_names q : named (dbg_names q) = true.
Proof. apply named_strs. Qed.

(** ** Syntax trees: different trees are shown as different values *)

Definition inj_at {A} (f : A -> dbg) (a : A) : Prop := forall b, f a = f b -> a = b.
Lemma map_inj {A} (f : A -> dbg) l : Forall (inj_at f) l -> forall l', map f l = map f l' -> l = l'.
Proof.
  induction 1 as [|a l Ha _ IH]; intros [|b l'] H; try discriminate; [reflexivity|].
  injection H as H1 H2. f_equal; [apply Ha, H1|apply IH, H2].
Qed.
Lemma str_inj s : inj_at DStr s.
Proof. intros t [= ->]. reflexivity. Qed.
Lemma strs_inj q q' : map DStr q = map DStr q' -> q = q'.
Proof. apply map_inj, Forall_forall. intros s _. apply str_inj. Qed.
Lemma pairs_inj {A} (f : A -> dbg) (l : list (str * A)) : Forall (fun a => inj_at f (snd a)) l ->
  forall l', map (dbg_pair DStr f) l = map (dbg_pair DStr f) l' -> l = l'.
Proof.
  intros H. apply map_inj. eapply Forall_impl; [|exact H]. intros [n a] Ha [n' a'] E.
  injection E as E1 E2. cbn in *. f_equal; [exact E1|apply Ha, E2].
Qed.
Lemma branches_inj {A} (f : A -> dbg) (l : list (A * A)) :
  Forall (fun b => inj_at f (fst b) /\ inj_at f (snd b)) l ->
  forall l', map (dbg_pair f f) l = map (dbg_pair f f) l' -> l = l'.
Proof.
  intros H. apply map_inj. eapply Forall_impl; [|exact H]. intros [n a] [H1 H2] [n' a'] E.
  injection E as E1 E2. cbn in *. f_equal; [apply H1, E1|apply H2, E2].
Qed.
Lemma option_inj {A} (f : A -> dbg) o : (forall a, inj_at f a) -> inj_at (dbg_option f) o.
Proof. intros H [b|] E; destruct o as [a|]; try discriminate E; [|reflexivity]. injection E as E. f_equal. apply H, E. Qed.

Ltac inj_step :=
  repeat match goal with
  | E : map DStr _ = map DStr _ |- _ => apply strs_inj in E
  | H : inj_at ?f ?a, E : ?f ?a = ?f _ |- _ => apply H in E
  | H : Forall _ ?l, E : map _ ?l = map _ _ |- _ =>
      first [apply (map_inj _ l H) in E | apply (pairs_inj _ l H) in E | apply (branches_inj _ l H) in E]
  end; subst; try reflexivity.
Ltac inj_case :=
  match goal with
  | |- inj_at _ _ => let y := fresh "y" in let E := fresh "E" in
      intros y E; destruct y; try discriminate E; injection E; clear E; intros
  end; inj_step.
Lemma type_inj t : inj_at dbg_type t.
Proof. induction t using type_ind'; inj_case. Qed.
Lemma signature_inj sg : inj_at dbg_signature sg.
Proof. destruct sg as [n t]. intros [n' t'] E. injection E as -> E. apply type_inj in E. congruence. Qed.
Lemma expr_inj_all : (forall e, inj_at dbg_expr e) /\ (forall x, inj_at dbg_entry x) /\
  (forall f, inj_at dbg_func f) /\ (forall d, inj_at dbg_def d).
Proof.
  apply expr_all; intros; try solve [inj_case].
  intros [sg' d'] E. assert (E1 : dbg_option dbg_signature sg = dbg_option dbg_signature sg' /\ dbg_def d = dbg_def d').
  { cbn [dbg_func] in E. split; congruence. }
  destruct E1 as [E1 E2]. apply (option_inj dbg_signature sg signature_inj) in E1. apply H in E2. congruence.
Qed.
Lemma exports_inj e : inj_at dbg_exports e.
Proof.
  induction e using export_ind'; try solve [inj_case].
  - intros y E. destruct y; try discriminate E. reflexivity.
  - intros y E. destruct y as [| | |n' [c'|]]; try discriminate E. injection E as ->. reflexivity.
  - intros y E. destruct y as [| | |n' [c'|]]; try discriminate E. injection E as -> E. apply IHe in E. congruence.
Qed.
Lemma statement_inj s : inj_at dbg_statement s.
Proof.
  destruct s; intros y E; destruct y; try discriminate E; cbn [dbg_statement] in E.
  - injection E as E1 E2. apply strs_inj in E1. apply exports_inj in E2. congruence.
  - injection E as E1 E2. apply strs_inj in E1. apply exports_inj in E2. congruence.
  - injection E as E1 E2 E3. apply strs_inj in E1. apply exports_inj in E3.
    apply (pairs_inj DStr) in E2; [congruence|]. apply Forall_forall. intros a _. apply str_inj.
  - assert (H : dbg_names n = dbg_names n0 /\ dbg_option DStr alias = dbg_option DStr alias0 /\
                dbg_option dbg_exports e = dbg_option dbg_exports e0) by (repeat split; congruence).
    destruct H as (E1 & E2 & E3). injection E1 as E1. apply strs_inj in E1.
    apply (option_inj DStr _ str_inj) in E2. apply (option_inj _ _ exports_inj) in E3. congruence.
  - injection E as E1 E2. apply type_inj in E1, E2. congruence.
  - injection E as E1 E2. apply type_inj in E1. apply map_inj in E2; [congruence|].
    apply Forall_forall. intros t _. apply type_inj.
  - injection E as -> E2. apply type_inj in E2. congruence.
  - injection E as -> E2 E3. apply strs_inj in E2. apply (proj1 expr_inj_all) in E3. congruence.
  - assert (H : dbg_func f = dbg_func f0) by congruence. apply expr_inj_all in H. congruence.
  - injection E as E1 -> ->. destruct a, a0; try discriminate E1; reflexivity.
  - injection E as ->. reflexivity.
Qed.
Lemma file_inj sts sts' : map dbg_statement sts = map dbg_statement sts' -> sts = sts'.
Proof. apply map_inj, Forall_forall. intros s _. apply statement_inj. Qed.
Lemma error_inj r k r' k' : dbg_error r k = dbg_error r' k' -> r = r' /\ k = k'.
Proof. intros E. injection E as -> E. split; [reflexivity|]. destruct k, k'; try discriminate E; reflexivity. Qed.

(** ** The whole output *)

(** A message of one of the tools run on a file: [ShowUsage] copies the name of the
    program without quotes, and an empty tree is never shown (C02). *)
Definition readable (names : bool) (l : line) : Prop :=
  match l with
  | Message (ShowUsage _) => False
  | Message (ShowAst sts) => names = false
  | Message (ShowNames _) => names = true
  | _ => True
  end.

Lemma text_inj st names l l' r r' : readable names l -> readable names l' ->
  line_text st l ++ 10%N :: r = line_text st l' ++ 10%N :: r' -> l = l' /\ r = r'.
Proof.
  intros Hl Hl' H.
  assert (Hp : forall x y, named x = true -> named y = true ->
            pretty st x ++ 10%N :: r = pretty st y ++ 10%N :: r' -> x = y /\ r = r').
  { intros x y Hx Hy E. apply pretty_inj in E as [E1 E2]; [|assumption|assumption|right; reflexivity..].
    injection E2 as ->. auto. }
  assert (Hb : forall l, exists t, pretty st (DList l) = C "[" :: t).
  { intros items. cbn [pretty block]. destruct (map _ items); eexists; reflexivity. }
  destruct l as [[n|]|[p|p|sts|e k|q|p]], l' as [[n'|]|[p'|p'|sts'|e' k'|q'|p']];
    cbn [readable] in Hl, Hl'; try contradiction; try congruence; cbn [line_text message_text] in H; try discriminate H;
    try solve [unfold dbg_names in H;
               match type of H with context [pretty st (DList ?l)] => destruct (Hb l) as [t Hl0]; rewrite Hl0 in H; discriminate H end].
  - injection H as H. rewrite <- !app_assoc in H. apply numeral_run in H as [-> H]; [|lia|reflexivity..].
    injection H as ->. auto.
  - apply app_inv_head in H. injection H as ->. auto.
  - rewrite <- !app_assoc in H. apply quoted_inj in H as [-> H]; [|auto]. apply app_inv_head in H.
    injection H as ->. auto.
  - rewrite <- !app_assoc in H. apply quoted_inj in H as [_ H]; [|auto]. discriminate H.
  - rewrite <- !app_assoc in H. apply quoted_inj in H as [_ H]; [|auto]. discriminate H.
  - rewrite <- !app_assoc in H. apply quoted_inj in H as [-> H]; [|auto]. apply app_inv_head in H.
    injection H as ->. auto.
  - apply Hp in H as [E ->]; [|apply named_file..]. injection E as E. apply file_inj in E as ->. auto.
  - apply Hp in H as [E ->]; [|apply named_error..]. apply error_inj in E as [-> ->]. auto.
  - apply Hp in H as [E ->]; [|apply named_names..]. injection E as E. apply strs_inj in E as ->. auto.
Qed.

Lemma screen_inj st names ls ls' : Forall (readable names) ls -> Forall (readable names) ls' ->
  screen st ls = screen st ls' -> ls = ls'.
Proof.
  intros H. revert ls'. induction H as [|l ls Hl _ IH]; intros [|l' ls'] H' E; try reflexivity.
  - cbn [screen flat_map] in E. destruct (line_text st l'); discriminate E.
  - cbn [screen flat_map] in E. destruct (line_text st l); discriminate E.
  - cbn [screen flat_map] in E. fold (screen st ls) (screen st ls') in E. rewrite <- !app_assoc in E. cbn [app] in E.
    apply Forall_cons_iff in H' as [Hl' H']. apply text_inj with (names := names) in E as [-> E]; auto.
    f_equal. apply IH; assumption.
Qed.

(** ** The lines of the tools *)

Definition quiet_line (l : line) : Prop :=
  match l with Debug _ | Message (ParsedSuccessfully _) | Message (FailedToParse _) => True | _ => False end.
Definition dump_line (quiet : bool) (l : line) : Prop := readable false l /\ (quiet = true -> quiet_line l).

Lemma debug_lines_all (P : line -> Prop) t : (forall v, P (Debug v)) -> Forall P (debug_lines t).
Proof. intros H. induction t as [|[] t IH]; [constructor| |exact IH..]. cbn. constructor; auto. Qed.
Lemma show_all_lines (P : line -> Prop) s f error : (forall v, P (Debug v)) -> (forall sts, P (Message (f sts))) ->
  (forall r k, P (Message (error r k))) -> Forall P (fst (show_all s f error)).
Proof.
  intros H1 H2 H3. unfold show_all. destruct (file_e s) as [r sts|r k|[]]; cbn [show_result fst map];
    apply Forall_app; split; auto using debug_lines_all.
Qed.
Lemma dump_file_lines w path quiet : Forall (dump_line quiet) (fst (dump_file_all w path quiet)).
Proof.
  unfold dump_file_all. destruct (contents w path); [|constructor].
  apply show_all_lines; intros; destruct quiet; split; cbn; auto; discriminate.
Qed.
Lemma dump_directory_lines w es quiet : Forall (dump_line quiet) (fst (dump_directory_all w es quiet)).
Proof.
  induction es as [|[ent|] es IH]; [constructor| |constructor]. cbn [dump_directory_all].
  assert (H : Forall (dump_line quiet) (fst (dump_entry_all w ent quiet))).
  { unfold dump_entry_all. destruct (e_dir ent); [constructor|]. destruct (extension _) as [x|]; [|constructor].
    destruct (str_eqb x _); [|constructor]. destruct (Utf8.decode _); [apply dump_file_lines|constructor]. }
  destruct (dump_entry_all w ent quiet) as [ls e]. destruct e; try exact H.
  destruct (dump_directory_all w es quiet) as [ls' e]. apply Forall_app. split; assumption.
Qed.
Lemma dump_lines w path quiet : Forall (dump_line quiet) (fst (dump_all w path quiet)).
Proof.
  destruct path as [path|]; [|constructor]. cbn [dump_all].
  destruct (is_directory w path) as [[]|]; [apply dump_directory_lines|apply dump_file_lines|constructor].
Qed.
Lemma dump_readable w path quiet : Forall (readable false) (fst (dump_all w path quiet)).
Proof. eapply Forall_impl; [|apply dump_lines]. intros l [H _]. exact H. Qed.
Lemma check_readable w program filename args : Forall (readable true) (fst (check_all w (program :: filename :: args))).
Proof.
  cbn [check_all]. destruct (contents w filename); [|constructor]. apply show_all_lines; intros; cbn; auto.
Qed.

(** ** Characters *)

Section Visible.
  Variable st : style.
  Hypothesis ascii : forall c, (32 <= c <= 126)%N -> printable st c = true.
  Definition visible (s : str) : Prop := Forall (fun c => c = 10%N \/ printable st c = true) s.

  Definition plain_char (c : char) : bool := ((32 <=? c) && (c <=? 126) || (c =? 10))%N.
  Lemma visible_plain s : forallb plain_char s = true -> visible s.
  Proof.
    intros H. apply Forall_forall. intros c Hi. rewrite forallb_forall in H. specialize (H c Hi). unfold plain_char in H.
    apply orb_true_iff in H as [H|H]; [right|left; apply N.eqb_eq, H].
    apply andb_true_iff in H as [H1 H2]. apply ascii. split; apply N.leb_le; assumption.
  Qed.
  Lemma visible_app a b : visible a -> visible b -> visible (a ++ b).
  Proof. intros Ha Hb. apply Forall_app. auto. Qed.
  Lemma plain_impl p s : (forall c, p c = true -> plain_char c = true) -> forallb p s = true -> visible s.
  Proof. intros Hp H. apply visible_plain. rewrite forallb_forall in *. auto. Qed.
  Lemma visible_ident s : forallb ident s = true -> visible s.
  Proof.
    apply plain_impl. intros c H. unfold ident in H. unfold plain_char. apply orb_true_iff. left.
    rewrite !orb_true_iff, !andb_true_iff, N.eqb_eq, !N.leb_le in H. rewrite andb_true_iff, !N.leb_le. lia.
  Qed.
  Lemma visible_numeral b n : (2 <= b <= 16)%N -> visible (numeral b n).
  Proof.
    intros Hb. eapply plain_impl; [|apply numeral_chars, Hb]. intros c H. unfold is_numeral_char in H.
    unfold plain_char. apply orb_true_iff. left.
    rewrite !orb_true_iff, !andb_true_iff, !N.leb_le in H. rewrite andb_true_iff, !N.leb_le. lia.
  Qed.
  Lemma visible_quoted q s : (q = 34 \/ q = 39)%N -> visible (quoted st q s).
  Proof.
    intros Hq. assert (H1 : forall c, (32 <= c <= 126)%N -> visible [c]).
    { intros c Hc. constructor; [right; apply ascii, Hc|constructor]. }
    unfold quoted. repeat apply visible_app; [apply H1; lia| |apply H1; lia].
    induction s as [|c s IH]; [constructor|]. cbn [flat_map]. apply visible_app; [|exact IH].
    unfold escape. repeat match goal with |- visible (if ?b then _ else _) => destruct b eqn:? end;
      try (apply visible_plain; reflexivity).
    - match goal with H : (c =? q)%N = true |- _ => apply N.eqb_eq in H; subst c end.
      change [C "\"; q] with ([C "\"] ++ [q]). apply visible_app; apply H1; lia.
    - match goal with H : (other_quote st && _)%bool = true |- _ =>
        apply andb_true_iff in H as [_ H]; apply orb_true_iff in H; rewrite !N.eqb_eq in H end.
      change [C "\"; c] with ([C "\"] ++ [c]). apply visible_app; apply H1; lia.
    - constructor; [right; assumption|constructor].
    - repeat apply visible_app; try (apply visible_plain; reflexivity). apply visible_numeral. lia.
  Qed.
  Lemma visible_padded b s : visible s -> visible (padded b s).
  Proof.
    intros H. revert b. induction H as [|c s Hc _ IH]; intros b; [constructor|]. cbn [padded].
    apply visible_app; [destruct b; [apply visible_plain; reflexivity|constructor]|].
    constructor; [exact Hc|apply IH].
  Qed.
  Lemma visible_block o items close : visible o -> visible close -> Forall visible items ->
    visible (block st o items close).
  Proof.
    intros Ho Hc H. unfold block. destruct items as [|x items]; [apply visible_app; assumption|].
    repeat apply visible_app; try assumption; [apply visible_plain; reflexivity|].
    generalize dependent (x :: items). clear x items. induction 1 as [|x l Hx Hl IH]; [constructor|].
    cbn [block_items]. destruct l as [|y l].
    - apply visible_padded. repeat apply visible_app; [exact Hx| |apply visible_plain; reflexivity].
      destruct (trailing st); apply visible_plain; reflexivity.
    - apply visible_app; [|exact IH]. apply visible_padded. repeat apply visible_app; [exact Hx|..];
        apply visible_plain; reflexivity.
  Qed.
  Lemma visible_pretty x : named x = true -> visible (pretty st x).
  Proof.
    induction x as [n|n|s|c|n l IH|n l IH|l IH] using dbg_ind'; cbn [named pretty]; intros H.
    - apply visible_ident, H.
    - apply visible_numeral. lia.
    - apply visible_quoted. auto.
    - apply visible_quoted. auto.
    - apply andb_true_iff in H as [Hn H]. apply visible_app; [apply visible_ident, Hn|].
      apply visible_block; [apply visible_plain; reflexivity..|]. apply Forall_map.
      rewrite forallb_forall in H. rewrite Forall_forall in *. auto.
    - apply andb_true_iff in H as [Hn H]. apply visible_app; [apply visible_ident, Hn|].
      apply visible_block; [apply visible_plain; reflexivity..|]. apply Forall_map.
      rewrite forallb_forall in H. rewrite Forall_forall in *. intros f Hi. specialize (H f Hi).
      apply andb_true_iff in H as [H1 H2].
      repeat apply visible_app; [apply visible_ident, H1|apply visible_plain; reflexivity|apply IH; assumption].
    - apply visible_block; [apply visible_plain; reflexivity..|]. apply Forall_map.
      rewrite forallb_forall in H. rewrite Forall_forall in *. auto.
  Qed.
  Lemma visible_line names l : readable names l -> visible (line_text st l).
  Proof.
    destruct l as [[n|]|[p|p|sts|e k|q|p]]; cbn [readable line_text message_text]; intros H; try contradiction.
    - repeat apply visible_app; try (apply visible_plain; reflexivity). apply visible_numeral. lia.
    - apply visible_plain. reflexivity.
    - apply visible_app; [apply visible_quoted; auto|apply visible_plain; reflexivity].
    - apply visible_app; [apply visible_quoted; auto|apply visible_plain; reflexivity].
    - apply visible_pretty, named_file.
    - apply visible_pretty, named_error.
    - apply visible_pretty, named_names.
  Qed.
  Lemma visible_screen names ls : Forall (readable names) ls -> visible (screen st ls).
  Proof.
    induction 1 as [|l ls Hl _ IH]; [constructor|]. cbn [screen flat_map]. apply visible_app; [|exact IH].
    apply visible_app; [eapply visible_line, Hl|apply visible_plain; reflexivity].
  Qed.
End Visible.
Lemma quiet_one_line st l : quiet_line l -> one_line (line_text st l).
Proof.
  destruct l as [[n|]|[p|p|sts|e k|q|p]]; cbn [quiet_line line_text message_text]; intros H; try contradiction.
  - repeat apply one_line_app; try (apply one_line_mem; reflexivity). apply one_line_numeral. lia.
  - apply one_line_mem. reflexivity.
  - apply one_line_app; [apply one_line_quoted; auto|apply one_line_mem; reflexivity].
  - apply one_line_app; [apply one_line_quoted; auto|apply one_line_mem; reflexivity].
Qed.
