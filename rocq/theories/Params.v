(** * The brackets and arrows of a parameter *)
From Verif Require Import Base Nom Ast Spec Layout Grammar Wf Nest.

(** how many opening and closing brackets of any kind *)
Definition ups (s : str) : nat := length (filter (fun c => mem_char c (L "([{")) s).
Definition downs (s : str) : nat := length (filter (fun c => mem_char c (L ")]}")) s).
(** every arrow in [w] is inside brackets of [w] *)
Definition arrows_inside (w : str) : Prop := forall u v, w = u ++ L "->" ++ v -> downs u < ups u.

Lemma ups_app a b : ups (a ++ b) = ups a + ups b.
Proof. unfold ups. rewrite filter_app, app_length. reflexivity. Qed.
Lemma downs_app a b : downs (a ++ b) = downs a + downs b.
Proof. unfold downs. rewrite filter_app, app_length. reflexivity. Qed.
Lemma count_cons (a : char) u : ups (a :: u) = ups [a] + ups u /\ downs (a :: u) = downs [a] + downs u.
Proof. split; [apply (ups_app [a])|apply (downs_app [a])]. Qed.
Lemma plain_counts c : plain c = true -> ups [c] = 0 /\ downs [c] = 0.
Proof.
  intros H. split; [unfold ups|unfold downs]; cbn [filter]; (match goal with |- context [mem_char c ?l] => destruct (mem_char c l) eqn:E end; [|reflexivity]);
    apply mem_char_In in E; exfalso; destruct E as [<-|[<-|[<-|[]]]]; discriminate H.
Qed.
Lemma opener_counts o c : In (o, c) brackets -> ups [o] = 1 /\ downs [o] = 0 /\ is_close c = true.
Proof. intros [E|[E|[E|[]]]]; injection E as <- <-; repeat split; reflexivity. Qed.
Lemma close_counts c : is_close c = true -> ups [c] = 0 /\ downs [c] = 1.
Proof.
  intros H. unfold is_close in H. apply mem_char_In in H. destruct H as [<-|[<-|[<-|[]]]]; split; reflexivity.
Qed.

Lemma nest_counts st s st' : nest st s st' -> no_comment_or_quote s -> Forall (fun c => is_close c = true) st ->
  length st + ups s = length st' + downs s /\ forall u v, s = u ++ v -> downs u <= length st + ups u.
Proof.
  intros H. induction H as [st|c st s st' Hc H IH|o c st s st' Ho H IH|c st s st' H IH|c st s st' Hc H IH
    |c st s st' Hc H IH|c st s st' Hc H IH|c st s st' Hc H IH|w c st s st' Hc H IH]; intros Hno Hst.
  - split; [reflexivity|]. intros u v E. destruct u; [cbn; lia|discriminate E].
  - destruct (IH (no_cq_tail _ _ Hno) Hst) as [K1 K2]. destruct (plain_counts c Hc) as [E1 E2]. destruct (count_cons c s) as [E3 E4].
    split; [rewrite E3, E4; lia|]. intros [|y u] v E; [cbn; lia|]. injection E as <- E. specialize (K2 u v E).
    destruct (count_cons c u) as [E5 E6]. rewrite E5, E6. lia.
  - destruct (opener_counts o c Ho) as (E1 & E2 & Hcl). destruct (IH (no_cq_tail _ _ Hno) (Forall_cons _ Hcl Hst)) as [K1 K2]. cbn [length] in *. destruct (count_cons o s) as [E3 E4].
    split; [rewrite E3, E4; lia|]. intros [|y u] v E; [cbn; lia|]. injection E as <- E. specialize (K2 u v E).
    destruct (count_cons o u) as [E5 E6]. rewrite E5, E6. lia.
  - apply Forall_cons_iff in Hst as [Hcl Hst]. destruct (close_counts c Hcl) as [E1 E2]. destruct (IH (no_cq_tail _ _ Hno) Hst) as [K1 K2]. cbn [length] in *. destruct (count_cons c s) as [E3 E4].
    split; [rewrite E3, E4; lia|]. intros [|y u] v E; [cbn; lia|]. injection E as <- E. specialize (K2 u v E).
    destruct (count_cons c u) as [E5 E6]. rewrite E5, E6. lia.
  - exfalso. destruct Hno as (_ & _ & Hno & _). apply Hno. exists [], (c ++ s). reflexivity.
  - exfalso. destruct Hno as (_ & _ & _ & Hno). apply Hno. exists [], (c ++ L "-}" ++ s). reflexivity.
  - exfalso. destruct Hno as (Hno & _). apply Hno. left. reflexivity.
  - exfalso. destruct Hno as (Hno & _). apply Hno. left. reflexivity.
  - exfalso. destruct Hno as (_ & Hno & _). apply Hno. left. reflexivity.
Qed.
Lemma nests_level w : nests w -> no_comment_or_quote w -> ups w = downs w.
Proof. intros H Hno. destruct (nest_counts [] w [] (H []) Hno (Forall_nil _)) as [K _]. exact K. Qed.

Lemma no_cq_pre s t : no_comment_or_quote (s ++ t) -> no_comment_or_quote s.
Proof.
  intros (H1 & H2 & H3 & H4). repeat split.
  - intros H. apply H1, in_or_app. auto.
  - intros H. apply H2, in_or_app. auto.
  - intros (a & b & ->). apply H3. exists a, (b ++ t). rewrite <- !app_assoc. reflexivity.
  - intros (a & b & ->). apply H4. exists a, (b ++ t). rewrite <- !app_assoc. reflexivity.
Qed.
Lemma no_cq_suf a s : no_comment_or_quote (a ++ s) -> no_comment_or_quote s.
Proof. induction a as [|c a IH]; [auto|]. intros H. apply IH. eapply no_cq_tail, H. Qed.

(** splitting at an arrow *)
Lemma arrow_split (x y u v : str) : x ++ y = u ++ L "->" ++ v -> (exists v', x = u ++ L "->" ++ v') \/
  (exists u', u = x ++ u' /\ y = u' ++ L "->" ++ v) \/ (x = u ++ L "-" /\ y = L ">" ++ v).
Proof.
  revert u. induction x as [|c x IH]; intros u E; [right; left; exists u; auto|]. destruct u as [|d u].
  - cbn [app] in E. injection E as -> E. destruct x as [|e x]; [right; right; auto|]. injection E as -> E. left. exists x. reflexivity.
  - injection E as -> E. destruct (IH u E) as [(v' & ->)|[(u' & -> & ->)|[-> ->]]]; [left; exists v'; reflexivity|right; left; exists u'; auto|right; right; auto].
Qed.
Lemma arrows_none w : ~ In (C ">") w -> arrows_inside w.
Proof. intros H u v ->. exfalso. apply H. apply in_or_app. right. right. left. reflexivity. Qed.
Lemma arrows_after x y : arrows_inside x -> ~ In (C ">") y -> arrows_inside (x ++ y).
Proof.
  intros Hx Hy u v E. apply arrow_split in E as [(v' & E)|[(u' & _ & ->)|[_ ->]]]; [eapply Hx, E|exfalso; apply Hy..].
  - apply in_or_app. right. right. left. reflexivity.
  - left. reflexivity.
Qed.
Lemma arrows_bracket o c m : In (o, c) brackets -> nests m -> no_comment_or_quote m -> arrows_inside ([o] ++ m ++ [c]).
Proof.
  intros Ho Hm Hno u v E. assert (Hoc : o <> C "-" /\ c <> C ">") by (destruct Ho as [Q|[Q|[Q|[]]]]; injection Q as <- <-; split; discriminate).
  destruct Hoc as [Ho1 Hc1]. destruct u as [|y u]; [injection E as E _; congruence|]. injection E as <- E. destruct (count_cons o u) as [-> ->].
  destruct (opener_counts o c Ho) as (-> & -> & _).
  destruct (nest_counts [] m [] (Hm []) Hno (Forall_nil _)) as [_ K].
  assert (P : exists v', m = u ++ v').
  { apply arrow_split in E as [(v' & ->)|[(u' & _ & E)|[_ E]]]; [eexists; reflexivity| |].
    - destruct u' as [|z u']; [discriminate E|]. destruct u'; discriminate E.
    - injection E as E _. congruence. }
  destruct P as (v' & ->). specialize (K u v' eq_refl). cbn in K. lia.
Qed.

(** ** Terms *)
Lemma no_gt (P : char -> bool) w : P (C ">") = false -> forallb P w = true -> ~ In (C ">") w.
Proof. intros HP H K. rewrite forallb_forall in H. apply H in K. congruence. Qed.
Lemma no_gt_cons (P Q : char -> bool) c w : P (C ">") = false -> P c = true -> Q (C ">") = false -> forallb Q w = true -> ~ In (C ">") (c :: w).
Proof. intros HP Hc HQ H [K|K]; [congruence|]. eapply no_gt; eassumption. Qed.
Lemma no_gt_lower n : lower_name n -> ~ In (C ">") n.
Proof. intros [->|[(c & t & -> & H1 & H2) _]]; [intros [K|[]]; discriminate K|]. apply (no_gt_cons is_lower is_name_char); auto. Qed.
Lemma no_gt_dotted q : qualified q -> ~ In (C ">") (dotted q).
Proof.
  intros [_ H]. unfold dotted. induction H as [|x q (c & t & -> & H1 & H2) H IH]; [intros []|].
  assert (Hx : ~ In (C ">") (c :: t)) by (apply (no_gt_cons is_upper is_name_char); auto).
  destruct q as [|y q]; [exact Hx|]. change (join (L ".") ((c :: t) :: y :: q)) with ((c :: t) ++ L "." ++ join (L ".") (y :: q)).
  intros K. apply in_app_or in K as [K|[K|K]]; [auto|discriminate K|auto].
Qed.
Lemma no_gt_digits d : digits1 d -> ~ In (C ">") d.
Proof. intros [_ H]. eapply no_gt; [|exact H]. reflexivity. Qed.
Lemma no_gt_sign d : sign_text d -> ~ In (C ">") d.
Proof. intros [->|[->| ->]]; cbn; intuition discriminate. Qed.
Lemma no_gt_fields fs : Forall lower_name fs -> ~ In (C ">") (flat_map (fun f => L "." ++ f) fs).
Proof.
  induction 1 as [|f fs Hf H IH]; [intros []|]. cbn [flat_map]. intros K. apply in_app_or in K as [[K|K]|K]; [discriminate K|exact (no_gt_lower f Hf K)|auto].
Qed.
Lemma arrows_var e w : GVar e w -> no_comment_or_quote w -> arrows_inside w.
Proof.
  intros H Hno. destruct H as [n H|q H|o H|o _ H].
  - apply arrows_none, no_gt_lower, H.
  - apply arrows_none, no_gt_dotted, H.
  - apply arrows_bracket; [left; reflexivity|apply nests_operator, H|]. apply no_cq_suf, no_cq_pre in Hno. exact Hno.
  - apply arrows_bracket; [left; reflexivity|apply nests_commas, H|]. apply no_cq_suf, no_cq_pre in Hno. exact Hno.
Qed.
Lemma arrows_term i e w : GTerm i e w -> no_comment_or_quote w -> arrows_inside w.
Proof.
  pose proof nests_exprs as (NE & _ & _ & _ & NEl & _ & NT & NF & _ & NU & _).
  intros H Hno.
  assert (B : forall o c m, In (o, c) brackets -> nests m -> w = [o] ++ m ++ [c] -> arrows_inside w).
  { intros o c m Ho Hm ->. apply arrows_bracket; auto. apply no_cq_suf, no_cq_pre in Hno. exact Hno. }
  assert (B1 : In (C "(", C ")") brackets) by (left; reflexivity). assert (B2 : In (C "[", C "]") brackets) by (right; left; reflexivity).
  assert (B3 : In (C "{", C "}") brackets) by (right; right; left; reflexivity).
  destruct H.
  - eapply arrows_var; eassumption.
  - apply arrows_after; [|apply no_gt_fields; assumption]. eapply arrows_var; [eassumption|]. eapply no_cq_pre, Hno.
  - apply arrows_none. intros [K|K]; [discriminate K|exact (no_gt_lower _ H K)].
  - exfalso. destruct Hno as (K & _). apply K. left. reflexivity.
  - exfalso. destruct Hno as (K & _). apply K. left. reflexivity.
  - destruct H as (sg & e & f & -> & H1 & H2 & H3). apply arrows_none. intros K. apply in_app_or in K as [K|K]; [exact (no_gt_sign _ H1 K)|].
    apply in_app_or in K as [K|[K|K]]; [exact (no_gt_digits _ H2 K)|discriminate K|exact (no_gt_digits _ H3 K)].
  - destruct H as (sg & e & -> & H1 & H2). apply arrows_none. intros K. apply in_app_or in K as [K|K]; [exact (no_gt_sign _ H1 K)|exact (no_gt_digits _ H2 K)].
  - exfalso. destruct Hno as (_ & K & _). apply K. left. reflexivity.
  - apply (B _ _ w B1); [eapply NE, H|reflexivity].
  - destruct H as [i t1 es w t2 H1 H2 H3|i t1 t2 H1 H2].
    + apply (B _ _ (t1 ++ w ++ t2) B2); [repeat apply nests_app; eauto using nests_olay|rewrite <- !app_assoc; reflexivity].
    + apply (B _ _ (t1 ++ t2) B2); [repeat apply nests_app; eauto using nests_olay|rewrite <- !app_assoc; reflexivity].
  - destruct H as [i es w H|i]; [apply (B _ _ w B1); [eapply NT, H|reflexivity]|apply arrows_none; cbn; intuition discriminate].
  - apply (B _ _ (t1 ++ n ++ t2 ++ L "|" ++ b ++ w ++ t3) B3); [|rewrite <- !app_assoc; reflexivity].
    repeat apply nests_app; eauto using nests_olay, nests_lower, nests_blanks, nests_lay. apply nests_lit; reflexivity.
  - apply (B _ _ (t1 ++ n ++ t2 ++ L "|" ++ b ++ t3) B3); [|rewrite <- !app_assoc; reflexivity].
    repeat apply nests_app; eauto using nests_olay, nests_lower, nests_blanks, nests_lay. apply nests_lit; reflexivity.
  - apply (B _ _ (t1 ++ w ++ t2) B3); [repeat apply nests_app; eauto using nests_olay|rewrite <- !app_assoc; reflexivity].
  - apply (B _ _ (t1 ++ t2) B3); [repeat apply nests_app; eauto using nests_olay|rewrite <- !app_assoc; reflexivity].
  - destruct H as [|fs w H]; [apply arrows_none; cbn; intuition discriminate|]. apply (B _ _ w B3); [eapply nests_GNames, H|reflexivity].
Qed.
Lemma level_term i e w : GTerm i e w -> no_comment_or_quote w -> ups w = downs w.
Proof. intros H. apply nests_level. pose proof nests_exprs as (_ & _ & N & _). eapply N, H. Qed.
