(** * Which characters may stand next to each other *)
From Verif Require Import Base Ast Spec Grammar Wf Leaves Words.

(** ** Classes of characters *)
Inductive cls := Wd | Dg | Bk | Op | Pm | Dt | Eqs | Cln | Br | Lm | Cm | OP | OB | OC | CP | CB | CC | Ot.
Definition cls_of (c : char) : cls :=
  if is_dec c then Dg else if is_name_char c then Wd else if is_blank c then Bk
  else if (c =? C "+")%N || (c =? C "-")%N then Pm else if (c =? C ".")%N then Dt else if (c =? C "=")%N then Eqs
  else if (c =? C ":")%N then Cln else if (c =? C "|")%N then Br else if (c =? C "\")%N then Lm
  else if is_op_char c then Op else if (c =? C ",")%N then Cm
  else if (c =? C "(")%N then OP else if (c =? C "[")%N then OB else if (c =? C "{")%N then OC
  else if (c =? C ")")%N then CP else if (c =? C "]")%N then CB else if (c =? C "}")%N then CC else Ot.

Definition set := cls -> bool.
Definition wd : set := fun k => match k with Wd => true | _ => false end.
Definition wds : set := fun k => match k with Wd | Dg => true | _ => false end.
Definition dgs : set := fun k => match k with Dg => true | _ => false end.
Definition bks : set := fun k => match k with Bk => true | _ => false end.
Definition cms : set := fun k => match k with Cm => true | _ => false end.
Definition ops : set := fun k => match k with Op | Pm | Dt | Eqs | Cln | Br | Lm => true | _ => false end.
Definition closers : set := fun k => match k with CP | CB | CC => true | _ => false end.
(** how an expression, a type, a number begins; how a phrase ends *)
Definition es : set := fun k => match k with Wd | Dg | Pm | Dt | Lm | OP | OB | OC => true | _ => false end.
Definition tys : set := fun k => match k with Wd | OP | OC => true | _ => false end.
Definition nums : set := fun k => match k with Dg | Pm => true | _ => false end.
Definition te : set := fun k => match k with Wd | Dg | CP | CB | CC => true | _ => false end.
Definition union (A B : set) : set := fun k => A k || B k.

(** ** The pairs that may stand next to each other *)
Definition touch (a b : cls) : bool :=
  match a with
  | Bk => match b with Ot => false | _ => true end
  | Wd | Dg => match b with Wd | Dg | Bk | CP | CB | CC | Cm | Dt | Eqs | Cln | Br | OP => true | _ => false end
  | CP => match b with Bk | CP | CB | CC | Cm | Dt => true | _ => false end
  | CB | CC => match b with Bk | CP | CB | CC | Cm => true | _ => false end
  | Op => match b with Bk | CP => true | _ => ops b end
  | Pm => match b with Bk | CP | Dg => true | _ => ops b end
  | Dt => match b with Bk | CP | Wd | Dg => true | _ => ops b end
  | Eqs => match b with Bk | CP => true | _ => ops b || es b end
  | Cln => match b with Bk | CP => true | _ => ops b || tys b end
  | Br => match b with Bk | CP | Wd => true | _ => ops b end
  | Lm => match b with Bk | CP => true | _ => ops b || es b end
  | Cm => match b with Bk | CP | Cm => true | _ => es b end
  | OP => match b with Bk | CP | Cm => true | _ => ops b || es b end
  | OB => match b with Bk | CB => true | _ => es b end
  | OC => match b with Bk | CC | Wd => true | _ => false end
  | Ot => false
  end.

Fixpoint chain (w : str) : Prop :=
  match w with
  | c :: (d :: _) as t => touch (cls_of c) (cls_of d) = true /\ chain t
  | _ => True
  end.
Definition starts (S : set) (w : str) : Prop := match w with [] => True | c :: _ => S (cls_of c) = true end.
Definition ends_in (S : set) (w : str) : Prop := match w with [] => True | _ => S (cls_of (last w space)) = true end.
Definition seam (v w : str) : Prop :=
  match v, w with [], _ | _, [] => True | _, c :: _ => touch (cls_of (last v space)) (cls_of c) = true end.

Definition all_cls : list cls := [Wd; Dg; Bk; Op; Pm; Dt; Eqs; Cln; Br; Lm; Cm; OP; OB; OC; CP; CB; CC; Ot].
Lemma all_cls_in k : In k all_cls.
Proof. destruct k; vm_compute; tauto. Qed.
Definition sub (A B : set) : bool := forallb (fun k => negb (A k) || B k) all_cls.
Definition compat (A B : set) : bool := forallb (fun a => forallb (fun b => negb (A a && B b) || touch a b) all_cls) all_cls.
Lemma sub_spec A B k : sub A B = true -> A k = true -> B k = true.
Proof.
  unfold sub. rewrite forallb_forall. intros H K. specialize (H k (all_cls_in k)). rewrite K in H. exact H.
Qed.
Lemma compat_spec A B a b : compat A B = true -> A a = true -> B b = true -> touch a b = true.
Proof.
  unfold compat. rewrite forallb_forall. intros H Ka Kb. specialize (H a (all_cls_in a)). rewrite forallb_forall in H.
  specialize (H b (all_cls_in b)). rewrite Ka, Kb in H. exact H.
Qed.

Lemma chain_app v w : chain v -> chain w -> seam v w -> chain (v ++ w).
Proof.
  induction v as [|c v IH]; intros Hv Hw Hs; [exact Hw|]. destruct v as [|d v].
  - cbn [app]. destruct w as [|x w]; [exact I|]. split; [exact Hs|exact Hw].
  - destruct Hv as [H1 H2]. split; [exact H1|]. apply IH; [exact H2|exact Hw|]. destruct w; [exact I|exact Hs].
Qed.
Lemma chain_split a c d b : chain (a ++ c :: d :: b) -> touch (cls_of c) (cls_of d) = true.
Proof.
  induction a as [|x a IH]; [intros [H _]; exact H|]. intros H. apply IH. cbn [app] in H. destruct (a ++ c :: d :: b) eqn:E; [exact I|apply H].
Qed.
Lemma starts_sub A B w : starts A w -> sub A B = true -> starts B w.
Proof. destruct w as [|c w]; [auto|]. intros H K. exact (sub_spec A B _ K H). Qed.
Lemma ends_sub A B w : ends_in A w -> sub A B = true -> ends_in B w.
Proof. destruct w as [|c w]; [auto|]. intros H K. exact (sub_spec A B _ K H). Qed.
Lemma seam_sets A B v w : ends_in A v -> starts B w -> compat A B = true -> seam v w.
Proof. destruct v as [|c v], w as [|d w]; try exact (fun _ _ _ => I). intros H1 H2 H3. exact (compat_spec A B _ _ H3 H1 H2). Qed.
Lemma seam_ne v w x : w <> [] -> seam v w -> seam v (w ++ x).
Proof. destruct w; [congruence|]. destruct v; auto. Qed.
Lemma seam_both v w x : seam v w -> seam v x -> seam v (w ++ x).
Proof. destruct w; [auto|]. destruct v; auto. Qed.
Lemma starts_ne S w x : w <> [] -> starts S w -> starts S (w ++ x).
Proof. destruct w; [congruence|]. auto. Qed.
Lemma starts_both S w x : starts S w -> starts S x -> starts S (w ++ x).
Proof. destruct w; auto. Qed.
Lemma ends_ne S w x : x <> [] -> ends_in S x -> ends_in S (w ++ x).
Proof.
  intros Hx H. destruct x as [|c x]; [congruence|]. unfold ends_in in *. destruct (w ++ c :: x) eqn:E; [exact I|]. rewrite <- E, last_app. exact H.
Qed.
Lemma ends_both S w x : ends_in S w -> ends_in S x -> ends_in S (w ++ x).
Proof. intros H K. destruct x as [|c x]; [rewrite app_nil_r; exact H|]. apply ends_ne; [discriminate|exact K]. Qed.
Lemma ne_l (v w : str) : v <> [] -> v ++ w <> [].
Proof. destruct v; [congruence|discriminate]. Qed.
Lemma ne_r (v w : str) : w <> [] -> v ++ w <> [].
Proof. destruct v; [auto|discriminate]. Qed.

(** A piece of text, and one that is not empty *)
Definition piece (A B : set) (w : str) : Prop := chain w /\ starts A w /\ ends_in B w.
Definition tok (A B : set) (w : str) : Prop := w <> [] /\ piece A B w.
(** no literals and no comments to the end of the line *)
Definition plain (w : str) : Prop := ~ In quote w /\ ~ In squote w /\ ~ contains (L "--") w.
Lemma plain_app v w : plain (v ++ w) -> plain v /\ plain w.
Proof.
  intros (H1 & H2 & H3). rewrite in_app_iff in H1, H2. split; (split; [|split]); try tauto; eauto using contains_l, contains_r.
Qed.

(** ** Words, signs, blank space *)
Lemma class_piece (P : char -> bool) (S : set) w : (forall c, P c = true -> S (cls_of c) = true) -> compat S S = true ->
  forallb P w = true -> piece S S w.
Proof.
  intros HP HS. induction w as [|c w IH]; intros H; [split; [|split]; exact I|]. cbn in H. apply andb_true_iff in H as [H1 H2].
  destruct (IH H2) as (I1 & I2 & I3). apply HP in H1. destruct w as [|d w]; [repeat split; [exact H1|exact H1]|].
  split; [|split].
  - split; [exact (compat_spec _ _ _ _ HS H1 I2)|exact I1].
  - exact H1.
  - exact I3.
Qed.
Lemma cls_name c : is_name_char c = true -> wds (cls_of c) = true.
Proof. intros H. unfold cls_of. rewrite H. destruct (is_dec c); reflexivity. Qed.
Lemma cls_dec c : is_dec c = true -> dgs (cls_of c) = true.
Proof. intros H. unfold cls_of. rewrite H. reflexivity. Qed.
Lemma cls_letter c : is_lower c || is_upper c || (c =? C "_")%N = true -> wd (cls_of c) = true.
Proof.
  intros H. unfold cls_of. destruct (is_dec c) eqn:E; [apply dec_not_letter in E; congruence|].
  assert (K : is_name_char c = true). { unfold is_name_char. rewrite E, orb_false_r. exact H. }
  rewrite K. reflexivity.
Qed.
Lemma cls_blank c : is_blank c = true -> bks (cls_of c) = true.
Proof.
  intros H. unfold is_blank, mem_char in H. apply existsb_exists in H as (x & Hx & E). apply N.eqb_eq in E. subst x.
  repeat (destruct Hx as [<-|Hx]; [reflexivity|]). destruct Hx.
Qed.
Lemma cls_op c : is_op_char c = true -> ops (cls_of c) = true.
Proof.
  intros H. unfold is_op_char, mem_char in H. apply existsb_exists in H as (x & Hx & E). apply N.eqb_eq in E. subst x.
  repeat (destruct Hx as [<-|Hx]; [reflexivity|]). destruct Hx.
Qed.

Lemma pc_blanks b : blanks b -> piece bks bks b.
Proof. apply class_piece; [exact cls_blank|reflexivity]. Qed.
Lemma tk_word c t : is_lower c || is_upper c || (c =? C "_")%N = true -> forallb is_name_char t = true -> tok wd wds (c :: t).
Proof.
  intros Hc Ht. assert (K : piece wds wds (c :: t)).
  { apply (class_piece is_name_char); [exact cls_name|reflexivity|]. cbn. rewrite Ht, andb_true_r. unfold is_name_char.
    apply orb_true_iff in Hc as [Hc|Hc]; rewrite Hc; [reflexivity|apply orb_true_r]. }
  destruct K as (K1 & _ & K3). split; [discriminate|]. split; [exact K1|]. split; [exact (cls_letter c Hc)|exact K3].
Qed.
Lemma tk_lower n : lower_name n -> tok wd wds n.
Proof.
  intros [->|[(c & t & -> & H1 & H2) _]]; [apply tk_word; reflexivity|]. apply tk_word; [rewrite H1; reflexivity|exact H2].
Qed.
Lemma tk_upper n : upper_name n -> tok wd wds n.
Proof. intros (c & t & -> & H1 & H2). apply tk_word; [rewrite H1, orb_true_r; reflexivity|exact H2]. Qed.
Lemma tk_var n : type_var_name n -> tok wd wds n.
Proof. intros (c & t & -> & H1 & H2). apply tk_word; [rewrite H1; reflexivity|]. revert H2. apply forallb_impl, tyvar_name_char. Qed.
Lemma tk_operator n : operator_name n -> tok ops ops n.
Proof. intros (H0 & H & _). split; [exact H0|]. revert H. apply class_piece; [exact cls_op|reflexivity]. Qed.
Lemma tk_commas n : n <> [] -> forallb (fun c => (c =? C ",")%N) n = true -> tok cms cms n.
Proof. intros H0 H. split; [exact H0|]. revert H. apply class_piece; [|reflexivity]. intros c E%N.eqb_eq. subst. reflexivity. Qed.
Lemma tk_digits n : digits1 n -> tok dgs dgs n.
Proof. intros (H0 & H). split; [exact H0|]. revert H. apply class_piece; [exact cls_dec|reflexivity]. Qed.

Ltac facts :=
  repeat match goal with
  | H : _ /\ _ |- _ => destruct H
  | H : tok _ _ _ |- _ => destruct H
  | H : piece _ _ _ |- _ => destruct H as (? & ? & ?)
  end.
Ltac nonempty := first [assumption | discriminate | apply ne_l; nonempty | apply ne_r; nonempty].
(** the class of a literal *)
Definition only (k : cls) : set := fun k' => match k, k' with
  | Wd, Wd | Dg, Dg | Bk, Bk | Op, Op | Pm, Pm | Dt, Dt | Eqs, Eqs | Cln, Cln | Br, Br | Lm, Lm | Cm, Cm
  | OP, OP | OB, OB | OC, OC | CP, CP | CB, CB | CC, CC | Ot, Ot => true | _, _ => false end.
Lemma only_refl k : only k k = true.
Proof. destruct k; reflexivity. Qed.
Lemma ends_lit w : ends_in (only (cls_of (last w space))) w.
Proof. destruct w; [exact I|apply only_refl]. Qed.
Lemma starts_lit c w : starts (only (cls_of c)) (c :: w).
Proof. apply only_refl. Qed.
Ltac seams :=
  first [ apply seam_ne; [solve [nonempty]|seams]
        | apply seam_both; [seams|seams]
        | solve [eapply seam_sets; [(eassumption + apply ends_lit)|(eassumption + apply starts_lit)|vm_compute; reflexivity]] ].
Ltac chains := first [assumption | exact I | solve [repeat split; reflexivity] | apply chain_app; [chains|chains|seams]].
Ltac startss :=
  first [ apply starts_ne; [solve [nonempty]|startss] | apply starts_both; [startss|startss]
        | solve [eapply starts_sub; [(eassumption + apply starts_lit)|vm_compute; reflexivity]] | exact I ].
Ltac endss :=
  first [ apply ends_ne; [solve [nonempty]|endss] | apply ends_both; [endss|endss]
        | solve [eapply ends_sub; [(eassumption + apply ends_lit)|vm_compute; reflexivity]] | exact I ].
Ltac tk := repeat rewrite <- app_assoc; lazymatch goal with
  | |- tok _ _ _ => split; [nonempty|split; [chains|split; [startss|endss]]]
  | |- piece _ _ _ => split; [chains|split; [startss|endss]] end.

Lemma tk_infix n : infix_operator n -> tok (union wd ops) (union wds ops) n.
Proof. intros [->|[H _]]; [|apply tk_operator in H; facts]; tk. Qed.
Lemma tk_dotted q : qualified q -> tok wd wds (dotted q).
Proof.
  intros [Hq H]. induction q as [|x q IH]; [congruence|]. apply Forall_cons_iff in H as [Hx H]. apply tk_upper in Hx.
  destruct q as [|y q]; [exact Hx|]. change (dotted (x :: y :: q)) with (x ++ L "." ++ dotted (y :: q)).
  specialize (IH ltac:(discriminate) H). facts. tk.
Qed.
Lemma sign_piece s : sign_text s -> piece nums nums s /\ (s = [] \/ starts (only Pm) s /\ ends_in (only Pm) s).
Proof. intros [->|[->| ->]]; (split; [repeat split; reflexivity|]); [left; reflexivity|right; split; reflexivity|right; split; reflexivity]. Qed.
Lemma tk_number s : integer_text s \/ float_text s -> tok nums dgs s.
Proof.
  intros [(sg & d & -> & [->|[->| ->]] & H2%tk_digits)|(sg & d & e & -> & [->|[->| ->]] & H2%tk_digits & H3%tk_digits)]; facts; tk.
Qed.
Lemma pc_fields fs : Forall lower_name fs -> piece (only Dt) wds (flat_map (fun f => L "." ++ f) fs).
Proof.
  induction 1 as [|f fs H _ IH]; [repeat split|]. apply tk_lower in H. cbn [flat_map]. facts. tk.
Qed.

(** ** Blank space without comments *)
Lemma plain_trivia t : trivia t -> plain t -> blanks t.
Proof.
  induction 1 as [|t _ IH|t _ IH|c t _ _ _ _]; intros P; [reflexivity| | |].
  - apply (plain_app [space]) in P as [_ P]. exact (IH P).
  - apply (plain_app [newline]) in P as [_ P]. exact (IH P).
  - exfalso. destruct P as (_ & _ & P). apply P. exists [], (c ++ t). reflexivity.
Qed.
Lemma pb_lay R i t j : lay R i t j -> plain t -> tok bks bks t.
Proof. intros (H & _ & H0 & _) P. split; [exact H0|]. apply pc_blanks, plain_trivia; assumption. Qed.
Lemma pb_olay i t : olay i t -> plain t -> piece bks bks t.
Proof. intros [->|[j H]] P; [apply pc_blanks; reflexivity|]. eapply pb_lay in H; [exact (proj2 H)|exact P]. Qed.
Lemma pb_lay0 t : lay0 t -> plain t -> tok bks bks t.
Proof. intros [j H]. eapply pb_lay, H. Qed.
Lemma pb_blanks1 b : blanks1 b -> tok bks bks b.
Proof. intros [H0 H]. split; [exact H0|apply pc_blanks, H]. Qed.
Lemma pb_spaces1 b : spaces1 b -> tok bks bks b.
Proof. intros H. apply pb_blanks1, bl_spaces1, H. Qed.
Lemma pb_ospaces b : all_spaces b = true -> piece bks bks b.
Proof. intros H. apply pc_blanks, bl_all_spaces, H. Qed.
Lemma pb_spnl1 b : spnl1 b -> tok bks bks b.
Proof.
  intros [H0 H]. split; [exact H0|]. apply pc_blanks. revert H. apply forallb_impl. intros c E.
  apply orb_true_iff in E as [E|E]; apply N.eqb_eq in E; subst; reflexivity.
Qed.
Lemma pb_ospnl b : ospnl b -> piece bks bks b.
Proof.
  intros H. apply pc_blanks. revert H. apply forallb_impl. intros c E.
  apply orb_true_iff in E as [E|E]; apply N.eqb_eq in E; subst; reflexivity.
Qed.
Lemma pb_tabs1 b : tabs1 b -> tok bks bks b.
Proof.
  intros [H0 H]. split; [exact H0|]. apply pc_blanks. revert H. apply forallb_impl. intros c E.
  apply orb_true_iff in E as [E|E]; apply N.eqb_eq in E; subst; reflexivity.
Qed.

Ltac split_plain := repeat match goal with H : plain (?a ++ ?b) |- _ => apply (plain_app a b) in H as [? H] end.
Ltac convert :=
  repeat match goal with
  | H : lay_ge ?i ?t ?j, P : plain ?t |- _ => apply (fun H => pb_lay N.ge i t j H P) in H
  | H : lay_gt ?i ?t ?j, P : plain ?t |- _ => apply (fun H => pb_lay N.gt i t j H P) in H
  | H : lay_eq ?i ?t ?j, P : plain ?t |- _ => apply (fun H => pb_lay eq i t j H P) in H
  | H : olay ?i ?t, P : plain ?t |- _ => apply (fun H => pb_olay i t H P) in H
  | H : lay0 ?t, P : plain ?t |- _ => apply (fun H => pb_lay0 t H P) in H
  | H : blanks1 _ |- _ => apply pb_blanks1 in H
  | H : blanks _ |- _ => apply pc_blanks in H
  | H : spaces1 _ |- _ => apply pb_spaces1 in H
  | H : ospaces _ |- _ => apply pb_ospaces in H
  | H : all_spaces _ = true |- _ => apply pb_ospaces in H
  | H : spnl1 _ |- _ => apply pb_spnl1 in H
  | H : ospnl _ |- _ => apply pb_ospnl in H
  | H : tabs1 _ |- _ => apply pb_tabs1 in H
  | H : lower_name _ |- _ => apply tk_lower in H
  | H : upper_name _ |- _ => apply tk_upper in H
  | H : type_var_name _ |- _ => apply tk_var in H
  | H : qualified _ |- _ => apply tk_dotted in H
  | H : operator_name _ |- _ => apply tk_operator in H
  | H : infix_operator _ |- _ => apply tk_infix in H
  | H : digits1 _ |- _ => apply tk_digits in H
  | H : plain ?w -> tok _ _ ?w, P : plain ?w |- _ => specialize (H P)
  | H : plain ?w -> piece _ _ ?w, P : plain ?w |- _ => specialize (H P)
  end.
Ltac go := split_plain; convert; facts; tk.

Lemma tk_types :
  (forall i t w, GTy i t w -> plain w -> tok tys te w) /\
  (forall i t w, GTySimple i t w -> plain w -> tok tys te w) /\
  (forall i t w, GParam i t w -> plain w -> tok tys te w) /\
  (forall i ts w, GParams i ts w -> plain w -> piece bks te w) /\
  (forall i ts w, GTyElems i ts w -> plain w -> tok tys te w) /\
  (forall i fs w, GTyFields i fs w -> plain w -> tok wd te w) /\
  (forall i n t w, GTyField i n t w -> plain w -> tok wd te w) /\
  (forall i t w, GAnn i t w -> plain w -> tok tys te w).
Proof. apply GType_ind; intros; go. Qed.
Lemma tk_ann i t w : GAnn i t w -> plain w -> tok tys te w.
Proof. apply tk_types. Qed.
Lemma tk_params i ts w : GParams i ts w -> plain w -> piece bks te w.
Proof. apply tk_types. Qed.

Definition ve : set := fun k => match k with Wd | Dg | CP => true | _ => false end.
Definition vs : set := fun k => match k with Wd | OP => true | _ => false end.
Lemma tk_GVar e w : GVar e w -> tok vs ve w.
Proof. intros H; destruct H; [| | |apply tk_commas in H0; [|exact H]; clear H]; convert; facts; tk. Qed.
Lemma tk_GName n w : GName n w -> tok vs te w.
Proof. intros H; destruct H; convert; facts; tk. Qed.
Lemma tk_GNames fs w : GNames fs w -> tok (union bks wd) (union bks te) w.
Proof. intros H; induction H; convert; facts; tk. Qed.
Lemma tk_GNameRecord e w : GNameRecord e w -> tok es te w.
Proof. intros H; destruct H; [split; [discriminate|repeat split; reflexivity]|]. apply tk_GNames in H. facts; tk. Qed.
Lemma tk_GSig i sg w : GSig i sg w -> plain w -> tok vs te w.
Proof. intros H P; destruct H. apply tk_GName in H. pose proof (tk_ann _ _ _ H2). go. Qed.
Lemma not_plain_q s : plain ([quote] ++ s) -> False.
Proof. intros (H & _). apply H. left. reflexivity. Qed.
Lemma not_plain_s s : plain ([squote] ++ s) -> False.
Proof. intros (_ & H & _). apply H. left. reflexivity. Qed.
Lemma tk_integer s : integer_text s -> tok nums dgs s.
Proof. intros H. apply tk_number. left. exact H. Qed.
Lemma tk_float s : float_text s -> tok nums dgs s.
Proof. intros H. apply tk_number. right. exact H. Qed.

Ltac convert_e :=
  repeat match goal with
  | H : GVar _ _ |- _ => apply tk_GVar in H
  | H : GName _ _ |- _ => apply tk_GName in H
  | H : GNameRecord _ _ |- _ => apply tk_GNameRecord in H
  | H : GSig _ _ ?w, P : plain ?w |- _ => apply (fun H => tk_GSig _ _ w H P) in H
  | H : integer_text _ |- _ => apply tk_integer in H
  | H : float_text _ |- _ => apply tk_float in H
  | H : Forall lower_name _ |- _ => apply pc_fields in H
  end.
Lemma tk_exprs :
  (forall i e w, GE i e w -> plain w -> tok es te w) /\
  (forall i e w, GApp i e w -> plain w -> tok es te w) /\
  (forall i e w, GTerm i e w -> plain w -> tok es te w) /\
  (forall i e w, GList i e w -> plain w -> tok es te w) /\
  (forall i l w, GElems i l w -> plain w -> tok es te w) /\
  (forall i e w, GTuple i e w -> plain w -> tok es te w) /\
  (forall i l w, GTupleElems i l w -> plain w -> tok (union bks es) (union bks te) w) /\
  (forall i l w, GFields i l w -> plain w -> tok wd te w) /\
  (forall i n e w, GField i n e w -> plain w -> tok wd te w) /\
  (forall i l w, GUpdates i l w -> plain w -> tok wd te w) /\
  (forall i n e w, GUpdate i n e w -> plain w -> tok wd te w) /\
  (forall i l w, GLamArgs i l w -> plain w -> tok es te w) /\
  (forall m l w, GEntries m l w -> plain w -> tok es te w) /\
  (forall m x w, GEntry m x w -> plain w -> tok es te w) /\
  (forall i e w, GTarget i e w -> plain w -> tok es te w) /\
  (forall i f w, GFunc i f w -> plain w -> tok vs te w) /\
  (forall i d w, GDef i d w -> plain w -> tok vs te w) /\
  (forall i l w, GDefArgs i l w -> plain w -> piece bks te w) /\
  (forall m l w, GBranches m l w -> plain w -> tok es te w) /\
  (forall m p e w, GBranch m p e w -> plain w -> tok es te w).
Proof.
  apply GExpr_ind; intros; try solve [split_plain; convert_e; go]; exfalso.
  - exact (not_plain_q _ H).
  - exact (not_plain_q _ H).
  - exact (not_plain_s _ H).
Qed.
Lemma tk_func i f w : GFunc i f w -> plain w -> tok vs te w.
Proof. apply tk_exprs. Qed.

(** ** Statements *)
Lemma tk_cs cs : qualified cs -> tok wd wds (join (L ", ") cs).
Proof.
  intros [H0 H]. induction cs as [|x q IH]; [congruence|]. apply Forall_cons_iff in H as [Hx H]. apply tk_upper in Hx.
  destruct q as [|y q]; [exact Hx|]. change (join (L ", ") (x :: y :: q)) with (x ++ L ", " ++ join (L ", ") (y :: q)).
  specialize (IH ltac:(discriminate) H). facts. tk.
Qed.
Lemma tk_GExportItem e w : GExportItem e w -> tok vs te w.
Proof. intros H; destruct H; [| | | |apply tk_cs in H0]; convert; facts; tk. Qed.
Lemma tk_GExportItems e w : GExportItems e w -> tok vs te w.
Proof. induction 1; apply tk_GExportItem in H; convert; facts; tk. Qed.
Lemma tk_GExports e w : GExports e w -> plain w -> tok vs te w.
Proof. intros H P; destruct H; [|apply tk_GExportItems in H0]; go. Qed.
Lemma tk_GEffectField f w : GEffectField f w -> tok wd te w.
Proof. intros H; destruct H; convert; facts; tk. Qed.
Lemma tk_GEffectFields f w : GEffectFields f w -> tok wd te w.
Proof. induction 1; apply tk_GEffectField in H; convert; facts; tk. Qed.
Lemma tk_GAlias a w : GAlias a w -> piece bks te w.
Proof. intros H; destruct H; convert; facts; tk. Qed.
Lemma tk_GExposing e w : GExposing e w -> plain w -> piece bks te w.
Proof.
  intros H P; destruct H; [tk|]. split_plain. apply tk_GExports in H1; [|assumption]. go.
Qed.
Lemma tk_GConstructors m cs w : GConstructors m cs w -> plain w -> tok tys te w.
Proof.
  induction 1; intros P; split_plain; match goal with H : GParams _ _ _ |- _ => apply tk_params in H; [|assumption] end; go.
Qed.
Lemma tk_GPortArgs ns w : GPortArgs ns w -> piece bks te w.
Proof. induction 1; convert; facts; tk. Qed.

Definition is_comment (st : statement_ast) : bool := match st with Comment _ => true | _ => false end.
Ltac convert_s :=
  repeat match goal with
  | H : GTy _ _ ?w, P : plain ?w |- _ => apply (fun H => proj1 tk_types _ _ w H P) in H
  | H : GAnn _ _ ?w, P : plain ?w |- _ => apply (fun H => tk_ann _ _ w H P) in H
  | H : GE _ _ ?w, P : plain ?w |- _ => apply (fun H => proj1 tk_exprs _ _ w H P) in H
  | H : GFunc _ _ ?w, P : plain ?w |- _ => apply (fun H => tk_func _ _ w H P) in H
  | H : GExports _ ?w, P : plain ?w |- _ => apply (fun H => tk_GExports _ w H P) in H
  | H : GExposing _ ?w, P : plain ?w |- _ => apply (fun H => tk_GExposing _ w H P) in H
  | H : GConstructors _ _ ?w, P : plain ?w |- _ => apply (fun H => tk_GConstructors _ _ w H P) in H
  | H : GAlias _ _ |- _ => apply tk_GAlias in H
  | H : GPortArgs _ _ |- _ => apply tk_GPortArgs in H
  | H : GEffectFields _ _ |- _ => apply tk_GEffectFields in H
  end.
Lemma tk_GStmt st w : GStmt st w -> is_comment st = false -> plain w -> tok vs (union te ops) w.
Proof.
  intros H N P; destruct H; try discriminate; split_plain; convert_s; try solve [go].
  - match goal with H : _ \/ _ |- _ => destruct H as [[-> ->]|H] end; convert_s; go.
  - destruct a; match goal with H : _ \/ _ |- _ => destruct H end; convert_s; go.
Qed.
Lemma tk_GStmts sts w : GStmts sts w -> forallb (fun st => negb (is_comment st)) sts = true -> plain w -> tok vs (union te ops) w.
Proof.
  induction 1 as [st w H|st w b sts w' H Hb _ IH]; intros N P; cbn in N; apply andb_true_iff in N as [N1 N2]; apply negb_true_iff in N1; split_plain;
    apply tk_GStmt in H; try assumption.
  specialize (IH N2). go.
Qed.
Theorem chain_file sts s : GFile sts s -> forallb (fun st => negb (is_comment st)) sts = true -> plain s -> chain s.
Proof.
  intros H N P. destruct H. split_plain. apply tk_GStmts in H0; [|assumption|assumption]. convert. facts.
  repeat rewrite <- app_assoc. chains.
Qed.

(** ** What the classes are *)
Definition members (k : cls) : str := match k with
  | Op => L "/*$<>&^?%#@~!" | Pm => L "+-" | Dt => L "." | Eqs => L "=" | Cln => L ":" | Br => L "|" | Lm => L "\" | Cm => L ","
  | OP => L "(" | OB => L "[" | OC => L "{" | CP => L ")" | CB => L "]" | CC => L "}" | Bk => [32; 9; 13; 10]%N | _ => [] end.
Lemma cls_spec c : match cls_of c with
  | Dg => is_dec c = true | Wd => is_name_char c = true /\ is_dec c = false | Ot => True | k => In c (members k) end.
Proof.
  unfold cls_of. destruct (is_dec c); [reflexivity|]. destruct (is_name_char c); [split; reflexivity|].
  destruct (is_blank c) eqn:Hb.
  { unfold is_blank, mem_char in Hb. apply existsb_exists in Hb as (x & Hx & E). apply N.eqb_eq in E. subst x. exact Hx. }
  destruct ((c =? C "+")%N || (c =? C "-")%N) eqn:H1.
  { apply orb_true_iff in H1 as [E|E]; apply N.eqb_eq in E; subst; vm_compute; tauto. }
  destruct (c =? C ".")%N eqn:H2; [apply N.eqb_eq in H2; left; auto|]. destruct (c =? C "=")%N eqn:H3; [apply N.eqb_eq in H3; left; auto|].
  destruct (c =? C ":")%N eqn:H4; [apply N.eqb_eq in H4; left; auto|]. destruct (c =? C "|")%N eqn:H5; [apply N.eqb_eq in H5; left; auto|].
  destruct (c =? C "\")%N eqn:H6; [apply N.eqb_eq in H6; left; auto|].
  destruct (is_op_char c) eqn:Ho.
  { unfold is_op_char, mem_char in Ho. apply existsb_exists in Ho as (x & Hx & E). apply N.eqb_eq in E. subst x. clear - Hx H1 H2 H3 H4 H5 H6.
    repeat (destruct Hx as [<-|Hx]; [first [discriminate | vm_compute; tauto]|]). destruct Hx. }
  repeat match goal with |- context [if ?b then _ else _] => let E := fresh in destruct b eqn:E; [apply N.eqb_eq in E; left; auto|] end.
  exact I.
Qed.
