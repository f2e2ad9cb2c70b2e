(** * C56 *)
From Verif Require Import Base Nom Ast Good Spec Helpers Types Expr Stmt Total Front Indent Reindent.

(** ** C56: of the indentations only their order matters

    [reindented gaps P s s']: [s'] is [s] with other indentations, related to the
    old ones by [P]; if [gaps] is set, also with other gaps within lines (not after
    a comma or a single quote).  The indentations of blank lines and of lines
    that begin with a comment are arbitrary.  [columns P]: [P] preserves order,
    relates 0 to 0, and its columns fit in 32 bits.  [like]: equal but for spaces
    within string literals and comments, which move with their lines (Indent.v). *)

Lemma rel_total {A B} gaps P (R : A -> B -> Prop) s s' x y :
  rel gaps P R s s' x y -> (forall w, x <> Abort w) -> (forall w, y <> Abort w) ->
  (forall r a, x = Ok r a -> exists r' b, y = Ok r' b /\ R a b /\ reindented gaps P r r') /\ (x = Err <-> y = Err).
Proof.
  unfold rel. intros H Hx Hy. destruct x as [r a| |w]; destruct y as [r' b| |w']; try (destruct H; fail);
    try (exfalso; eapply Hx; reflexivity); try (exfalso; eapply Hy; reflexivity).
  - destruct H as (H & H' & _). split; [|split; discriminate]. intros ? ? [= <- <-]. eauto.
  - split; [discriminate|tauto].
Qed.
Lemma file_abort s w : file s <> Abort w.
Proof. destruct (file_total s) as [[l H]|H]; rewrite H; discriminate. Qed.

Theorem C56_files : forall gaps P s s', columns P -> P 1%N 1%N -> reindented gaps P s s' ->
  (forall l, file s = Ok [] l -> exists l', file s' = Ok [] l' /\ Forall2 (like_statement gaps) l l') /\
  (file s = Err <-> file s' = Err).
Proof.
  intros gaps P s s' HP H1 H. destruct (rel_total _ _ _ _ _ _ _ (sim_file gaps P HP H1 s s' H) (file_abort s) (file_abort s')) as [Ha Hb].
  split; [|exact Hb]. intros l Hl. destruct (Ha _ _ Hl) as (r' & l' & E & Hll & Hr). apply rs_nil_l in Hr. subst r'. eauto.
Qed.
Print Assumptions C56_files.

(** expressions and types at related columns, with what they leave over *)
Theorem C56_expressions : forall gaps P i i' s s', columns P -> P i i' -> reindented gaps P s s' ->
  (forall r e, expression i s = Ok r e ->
     exists r' e', expression i' s' = Ok r' e' /\ like gaps e e' /\ reindented gaps P r r') /\
  (expression i s = Err <-> expression i' s' = Err).
Proof.
  intros gaps P i i' s s' HP Hi H.
  apply (rel_total _ _ _ _ _ _ _ (sim_expression gaps P i i' HP Hi s s' H)); intros w.
  - apply (expression_depth (S (length s))); lia.
  - apply (expression_depth (S (length s'))); lia.
Qed.
Print Assumptions C56_expressions.
Theorem C56_types : forall gaps P i i' s s', columns P -> P i i' -> reindented gaps P s s' ->
  (forall r t, type_ i s = Ok r t -> exists r', type_ i' s' = Ok r' t /\ reindented gaps P r r') /\
  (type_ i s = Err <-> type_ i' s' = Err).
Proof.
  intros gaps P i i' s s' HP Hi H.
  destruct (rel_total _ _ _ _ _ _ _ (sim_type gaps P i i' HP Hi s s' H)) as [Ha Hb];
    [intros w; apply (type_depth (S (length s))); lia|intros w; apply (type_depth (S (length s'))); lia|].
  split; [|exact Hb]. intros r t Ht. destruct (Ha _ _ Ht) as (r' & t' & E & <- & Hr). eauto.
Qed.
Print Assumptions C56_types.

(** *** A file as a list of lines *)

Theorem C56_every_text_has_lines : forall s, exists ls, Forall (fun l => line_rest (snd l)) ls /\ s = lines_text ls.
Proof.
  assert (G : forall s, exists n b ls, Forall (fun l => line_rest (snd l)) ((n, b) :: ls) /\ s = lines_text ((n, b) :: ls)).
  2: { intros s. destruct (G s) as (n & b & ls & H & ->). eauto. }
  induction s as [|c s (n & b & ls & H & ->)].
  - exists 0%N, [], []. split; [|reflexivity]. constructor; [|constructor]. split; [intros []|exact I].
  - inversion H as [|x y [Hb He] Hls]; subst. cbn [snd] in *.
    assert (Ej : forall n' b' tl, lines_text ((n', b') :: tl) = (spaces_of n' ++ b') ++ match tl with [] => [] | _ => newline :: lines_text tl end).
    { intros n' b' tl. unfold lines_text. cbn. unfold line_text at 1. cbn. destruct tl; cbn; [rewrite app_nil_r; reflexivity|]. reflexivity. }
    destruct (N.eqb_spec c newline) as [->|Hn].
    { exists 0%N, [], ((n, b) :: ls). split; [|reflexivity]. constructor; [split; [intros []|exact I]|exact H]. }
    destruct (N.eqb_spec c space) as [->|Hs].
    { exists (N.succ n), b, ls. split; [constructor; [split|]; assumption|]. rewrite !Ej, spaces_of_S. reflexivity. }
    exists 0%N, (c :: spaces_of n ++ b), ls. split; [|rewrite !Ej; reflexivity].
    constructor; [|exact Hls]. cbn. split; [|unfold is_gap; cbn; apply N.eqb_neq, Hs].
    intros [E|E]; [congruence|]. apply in_app_or in E as [E|E]; [|exact (Hb E)].
    unfold spaces_of in E. apply repeat_spec in E. discriminate E.
Qed.
Print Assumptions C56_every_text_has_lines.

Lemma rs_prefix gaps P b s s' : ~ In newline b -> reindented gaps P s s' -> ends is_gap s ->
  forall g, respaced gaps P g (b ++ s) (b ++ s').
Proof.
  intros Hb H Hs. assert (F : respaced gaps P false (b ++ s) (b ++ s')).
  { induction b as [|c b IH]; [eapply rs_flag; [exact H|exact Hs]|]. cbn [app].
    assert (F : respaced gaps P false (b ++ s) (b ++ s')) by (apply IH; intros Hn; apply Hb; right; exact Hn).
    apply rs_char; auto. { intros ->. apply Hb. left. reflexivity. }
    destruct (free c); [|exact F]. eapply rs_weaken, F. }
  intros []; [eapply rs_weaken, F|exact F].
Qed.

Section Lines.
  Variable f : N -> N.
  Definition moved (ls : list (N * str)) := map (fun l => (f (fst l), snd l)) ls.
  Variable P : N -> N -> Prop.
  Lemma reindented_lines ls : Forall (fun l => line_rest (snd l)) ls -> (forall l, In l ls -> P (fst l) (f (fst l))) ->
    match ls with [] => True | (n, b) :: _ => exists x x', lines_text ls = spaces_of n ++ x /\ lines_text (moved ls) = spaces_of (f n) ++ x' /\
      ends is_gap x /\ ends is_gap x' /\ reindented false P x x' end.
  Proof.
    induction ls as [|[n b] ls IH]; intros Hl HP; [exact I|].
    inversion Hl as [|x y [Hb He] Hls]; subst. cbn [snd] in *. specialize (IH Hls).
    destruct ls as [|[m d] ls].
    - exists b, b. cbn. split; [reflexivity|]. split; [reflexivity|]. split; [exact He|]. split; [exact He|]. apply rs_refl_line, Hb.
    - destruct IH as (x & x' & E & E' & Hx & Hx' & H); [intros l Hin; apply HP; right; exact Hin|].
      exists (b ++ newline :: lines_text ((m, d) :: ls)), (b ++ newline :: lines_text (moved ((m, d) :: ls))).
      split; [unfold lines_text, line_text; cbn; rewrite <- app_assoc; reflexivity|].
      split; [unfold lines_text, line_text; cbn; rewrite <- app_assoc; reflexivity|].
      split; [destruct b; [reflexivity|exact He]|]. split; [destruct b; [reflexivity|exact He]|].
      apply rs_prefix; [exact Hb| |reflexivity]. rewrite E, E'. apply rs_line; auto.
      intros _. apply (HP (m, d)). right. left. reflexivity.
  Qed.
End Lines.

(** Moving the lines of a file to other columns, in an order-preserving way
    that keeps columns 0 and 1, changes neither whether it is accepted nor the
    result, apart from the lines within strings and comments. *)
Theorem C56_lines : forall (f : N -> N) ls,
  let cs := 0%N :: 1%N :: map fst ls in
  Forall (fun l => line_rest (snd l)) ls ->
  (forall a b, In a cs -> In b cs -> (a < b)%N -> (f a < f b)%N) ->
  f 0%N = 0%N -> f 1%N = 1%N ->
  (forall a, In a cs -> (a < 2 ^ 32 /\ f a < 2 ^ 32)%N) ->
  let s := lines_text ls in
  let s' := lines_text (map (fun l => (f (fst l), snd l)) ls) in
  (forall l, file s = Ok [] l -> exists l', file s' = Ok [] l' /\ Forall2 (like_statement false) l l') /\
  (file s = Err <-> file s' = Err).
Proof.
  intros f ls cs Hl Hf F0 F1 Hs s s'.
  set (P := fun a b => In a cs /\ b = f a).
  assert (HP : columns P).
  { constructor; unfold P.
    - intros a a' b b' [Ha ->] [Hb ->]. pose proof (Hf a b Ha Hb). pose proof (Hf b a Hb Ha).
      destruct (N.lt_trichotomy a b) as [H1|[H1|H1]]; [|subst b|]; lia.
    - intros a a' [Ha ->]. apply Hs, Ha.
    - split; [left; reflexivity|]. symmetry. exact F0. }
  assert (Hin : forall l, In l ls -> In (fst l) cs) by (intros l H; right; right; apply in_map, H).
  pose proof (reindented_lines f P ls Hl) as G. unfold s, s'. destruct ls as [|[n b] ls]; [cbn; split; [discriminate|tauto]|].
  destruct G as (x & x' & E & E' & Hx & Hx' & H).
  { intros l H. split; [apply Hin, H|reflexivity]. }
  unfold moved in E'. rewrite E, E', !file_blanks by (apply forallb_spaces_of; reflexivity).
  apply (C56_files false P); [exact HP|split; [right; left; reflexivity|symmetry; exact F1]|exact H].
Qed.
Print Assumptions C56_lines.

(** A string literal or a comment on one line is left as it was. *)
Theorem C56_one_line : forall s s', same_text false s s' -> ~ In newline s -> s' = s.
Proof.
  intros s s' H. unfold same_text, reindented in H.
  induction H as [g|g c s s' Hc Hg H IH|n n' s s' Hq Hn Hn' He He' H IH|g n n' s s' Hm He He' H IH]; intros Hs.
  - reflexivity.
  - rewrite IH; [reflexivity|]. intros Hin. apply Hs. right. exact Hin.
  - destruct Hq as [Hq|<-]; [discriminate Hq|]. rewrite IH; [reflexivity|]. intros Hin. apply Hs. apply in_or_app. right. exact Hin.
  - exfalso. apply Hs. left. reflexivity.
Qed.
Print Assumptions C56_one_line.

(** *** Instances *)

Definition widen (n : N) : N := if (n <=? 1)%N then n else (2 * n)%N.
Definition laid_out : list (N * str) :=
  [(0, L "module M exposing (..)"); (0, L ""); (0, L "f x ="); (2, L "let"); (3, L "y ="); (4, L "case x of");
   (6, L "A -> 1"); (1, L "-- a remark"); (6, L "B -> ""two  words"""); (2, L "in"); (2, L "y")]%N.
Lemma laid_out_lines : Forall (fun l => line_rest (snd l)) laid_out.
Proof.
  unfold laid_out. repeat constructor; try reflexivity; cbn; intros H;
    repeat (destruct H as [H|H]; [discriminate H|]); destruct H.
Qed.
Example C56_lines_instance :
  Forall (fun l => line_rest (snd l)) laid_out /\
  (forall a b, (a < b)%N -> (widen a < widen b)%N) /\ widen 0 = 0%N /\ widen 1 = 1%N /\
  (forall a, In a (0 :: 1 :: map fst laid_out)%N -> (a < 2 ^ 32 /\ widen a < 2 ^ 32)%N) /\
  (exists l, file (lines_text laid_out) = Ok [] l /\ length l = 2) /\
  lines_text (map (fun l => (widen (fst l), snd l)) laid_out) <> lines_text laid_out.
Proof.
  split; [exact laid_out_lines|].
  split. { intros a b H. unfold widen. destruct (N.leb_spec a 1), (N.leb_spec b 1); lia. }
  split; [reflexivity|]. split; [reflexivity|].
  split. { cbn. intros a Ha. repeat (destruct Ha as [<-|Ha]; [split; reflexivity|]). destruct Ha. }
  split; [eexists; split; [vm_compute; reflexivity|reflexivity]|]. vm_compute. discriminate.
Qed.

(** gaps within lines, a blank line and a comment line *)
Definition halves (a b : N) : Prop := (a = 0 /\ b = 0)%N \/ (a = 1 /\ b = 1)%N \/ (a = 8 /\ b = 2)%N.
Lemma halves_columns : columns halves.
Proof. constructor; unfold halves; intros; try lia. Qed.
Definition loose_text : str := lines_text [(0, L "f =   g  x"); (3, L ""); (5, L "-- remark"); (8, L "y +  1")]%N.
Definition tight_text : str := lines_text [(0, L "f = g x"); (0, L ""); (0, L "-- remark"); (2, L "y + 1")]%N.
Example C56_files_instance :
  columns halves /\ halves 1%N 1%N /\ reindented true halves loose_text tight_text /\
  (exists l, file loose_text = Ok [] l).
Proof.
  split; [exact halves_columns|]. split; [right; left; auto|]. split; [|eexists; vm_compute; reflexivity].
  unfold loose_text, tight_text, reindented. cbn.
  Ltac ch := apply rs_char; [discriminate|intros E; try discriminate E; reflexivity|].
  Ltac gp n m := apply (rs_gap true halves n m); [left; reflexivity|reflexivity|reflexivity|reflexivity|reflexivity|].
  Ltac ln n m := apply (rs_line true halves _ n m); [|reflexivity|reflexivity|].
  ch. gp 1%N 1%N. ch. gp 3%N 1%N. ch. gp 2%N 1%N. ch.
  ln 3%N 0%N. { intros (_ & H & _). congruence. }
  ln 5%N 0%N. { intros (_ & _ & H). exfalso. apply H. split; [reflexivity|]. eexists. reflexivity. }
  ch. ch. gp 1%N 1%N. ch. ch. ch. ch. ch. ch.
  ln 8%N 2%N. { intros _. right. right. auto. }
  ch. gp 1%N 1%N. ch. gp 2%N 1%N. ch. apply rs_nil.
Qed.

(** *** The conditions are needed

    Column 1: the definition of an alias may stand at column 1, and what
    follows must stand beyond it. *)
Example C56_column_one :
  file (L "type alias X =" ++ newline :: spaces_of 1 ++ L "List" ++ newline :: spaces_of 1 ++ L "Int") = Err /\
  exists l, file (L "type alias X =" ++ newline :: spaces_of 2 ++ L "List" ++ newline :: spaces_of 2 ++ L "Int") = Ok [] l.
Proof. split; [vm_compute; reflexivity|]. eexists. vm_compute. reflexivity. Qed.
(** the gap after a comma: constructors are separated by a comma and exactly one space *)
Example C56_comma : (exists l, file (L "import M exposing (T(A, B))") = Ok [] l) /\ file (L "import M exposing (T(A,  B))") = Err.
Proof. split; [eexists|]; vm_compute; reflexivity. Qed.
(** the gap after a single quote: the character literal of a space *)
Example C56_quote : (exists l, file (L "c = ' '") = Ok [] l) /\ file (L "c = '  '") = Err.
Proof. split; [eexists|]; vm_compute; reflexivity. Qed.
(** the order: a branch moved to the right of the others becomes part of the one before *)
Example C56_order :
  exists l l', file (lines_text [(0, L "f = case x of"); (2, L "A -> 1"); (2, L "B -> 2")]%N) = Ok [] l /\
  file (lines_text [(0, L "f = case x of"); (2, L "A -> 1"); (3, L "B -> 2")]%N) = l' /\ l' <> Ok [] l.
Proof. do 2 eexists. split; [vm_compute; reflexivity|]. split; [vm_compute; reflexivity|]. discriminate. Qed.
(** 32 bits: a column of 2^32 counts as column 0, so a definition there continues a signature at column 0 *)
Example C56_wrap_around : forall r, ends is_gap r ->
  new_line_and_same_indent 0 (newline :: spaces_of (2 ^ 32) ++ r) = Ok r 0%N /\
  new_line_and_same_indent 0 (newline :: spaces_of (2 ^ 32 - 1) ++ r) = Err.
Proof. intros r Hr. rewrite !nl_eq by exact Hr. split; reflexivity. Qed.
