(** * How a declaration ends *)
From Verif Require Import Base Nom Ast Spec Layout Grammar Wf.

(** [w] ends in a bracket or a quote, or in a whole word that is a name or a number *)
Definition finished (w : str) : Prop := exists u t, w = u ++ t /\
  (In t [L ")"; L "]"; L "}"; [quote]; [squote]] \/
   is_name_char (last u space) = false /\ (lower_name t \/ upper_name t \/ digits1 t)).
(** [a] is empty or does not end in a character of a name *)
Definition before_word (a : str) : Prop := is_name_char (last a space) = false.

Lemma last_snoc (a : str) x : last (a ++ [x]) space = x.
Proof. apply last_last. Qed.
Lemma last_two (a b : str) : b <> [] -> last (a ++ b) space = last b space.
Proof. intros H. destruct (exists_last H) as (b' & x & ->). rewrite app_assoc, !last_snoc. reflexivity. Qed.
Lemma finished_app a w : finished w -> before_word a -> finished (a ++ w).
Proof.
  intros (u & t & -> & H) Ha. exists (a ++ u), t. split; [apply app_assoc|]. destruct H as [H|[H1 H2]]; [left; exact H|right]. split; [|exact H2].
  destruct u as [|c u]; [rewrite app_nil_r; exact Ha|]. rewrite last_two by discriminate. exact H1.
Qed.
Lemma finished_close a t : In t [L ")"; L "]"; L "}"; [quote]; [squote]] -> finished (a ++ t).
Proof. intros H. exists a, t. auto. Qed.
Lemma before_app a b : b <> [] -> before_word b -> before_word (a ++ b).
Proof. intros Hb H. unfold before_word. rewrite last_two by exact Hb. exact H. Qed.
Lemma closed_end a t : closed (a ++ t) -> closed t.
Proof.
  unfold closed. destruct (has_newline t) eqn:E; [rewrite last_line_app_newline by exact E; auto|].
  rewrite last_line_app_plain, (last_line_no_newline t) by exact E. unfold all_spaces. rewrite forallb_app. intros H. apply andb_true_iff in H. apply H.
Qed.
Lemma before_lay R i t j : lay R i t j -> t <> [] /\ before_word t.
Proof.
  intros (_ & Hc & Hne & _). split; [exact Hne|]. destruct (exists_last Hne) as (u & x & ->). unfold before_word. rewrite last_snoc.
  apply closed_end in Hc. unfold closed in Hc. destruct (N.eqb_spec x newline) as [->|Hx]; [reflexivity|].
  rewrite last_line_no_newline in Hc by (cbn [has_newline existsb]; apply orb_false_iff; split; [apply N.eqb_neq, Hx|reflexivity]).
  cbn [all_spaces forallb] in Hc. apply andb_true_iff in Hc as [Hc _]. apply N.eqb_eq in Hc. subst x. reflexivity.
Qed.
Lemma before_blanks1 b : blanks1 b -> b <> [] /\ before_word b.
Proof.
  intros [Hne H]. split; [exact Hne|]. destruct (exists_last Hne) as (u & x & ->). unfold before_word. rewrite last_snoc.
  unfold blanks in H. rewrite forallb_app in H. apply andb_true_iff in H as [_ H]. cbn [forallb] in H. rewrite andb_true_r in H.
  apply mem_char_In in H. repeat (destruct H as [<-|H]; [reflexivity|]). destruct H.
Qed.
Lemma finished_name t : lower_name t \/ upper_name t \/ digits1 t -> finished t.
Proof. intros H. exists [], t. split; [reflexivity|]. right. split; [reflexivity|exact H]. Qed.
Lemma finished_dotted q : qualified q -> finished (dotted q).
Proof.
  intros [Hne H]. unfold dotted. induction H as [|x q Hx H IH]; [congruence|]. destruct q as [|y q]; [apply finished_name; auto|].
  change (join (L ".") (x :: y :: q)) with (x ++ L "." ++ join (L ".") (y :: q)). rewrite app_assoc. apply finished_app; [apply IH; discriminate|].
  apply before_app; [discriminate|reflexivity].
Qed.
Ltac closer := rewrite ?app_assoc; apply finished_close; cbn; tauto.
Lemma finished_var e w : GVar e w -> finished w.
Proof. intros H. destruct H; [apply finished_name; auto|apply finished_dotted; assumption|closer..]. Qed.
Lemma finished_fields w fs : finished w -> Forall lower_name fs -> finished (w ++ flat_map (fun f => L "." ++ f) fs).
Proof.
  intros Hw H. revert w Hw. induction H as [|f fs Hf H IH]; intros w Hw; [rewrite app_nil_r; exact Hw|]. cbn [flat_map].
  rewrite app_assoc. apply IH. rewrite app_assoc. apply finished_app; [apply finished_name; auto|]. apply before_app; [discriminate|reflexivity].
Qed.
Lemma finished_sign sg d : sign_text sg -> finished d -> finished (sg ++ d).
Proof. intros Hs Hd. apply finished_app; [exact Hd|]. destruct Hs as [->|[->| ->]]; reflexivity. Qed.
Lemma finished_term i e w : GTerm i e w -> finished w.
Proof.
  intros H. destruct H; try closer.
  - eapply finished_var, H.
  - apply finished_fields; [eapply finished_var, H|assumption].
  - apply finished_app; [apply finished_name; auto|reflexivity].
  - change [quote; quote; quote] with ([quote; quote] ++ [quote]) at 2. closer.
  - destruct H as (sg & e & f & -> & H1 & _ & H3). apply finished_sign; [exact H1|]. rewrite app_assoc. apply finished_app; [apply finished_name; auto|].
    apply before_app; [discriminate|reflexivity].
  - destruct H as (sg & e & -> & H1 & H2). apply finished_sign; [exact H1|]. apply finished_name; auto.
  - destruct H; closer.
  - destruct H; [closer|]. apply (finished_close (L "(") (L ")")). cbn. tauto.
  - destruct H; [apply (finished_close (L "{") (L "}")); cbn; tauto|closer].
Qed.
Lemma finished_lay R i t j a w : lay R i t j -> finished w -> finished (a ++ t ++ w).
Proof. intros H Hw. destruct (before_lay R i t j H) as [H1 H2]. rewrite app_assoc. apply finished_app; [exact Hw|]. apply before_app; assumption. Qed.

Lemma finished_exprs :
  (forall i e w, GE i e w -> finished w) /\ (forall i f w, GFunc i f w -> finished w).
Proof.
  enough (K : (forall i e w, GE i e w -> finished w) /\ (forall i e w, GApp i e w -> finished w) /\
    (forall i e w, GTerm i e w -> True) /\ (forall i e w, GList i e w -> True) /\ (forall i es w, GElems i es w -> True) /\ (forall i e w, GTuple i e w -> True) /\
    (forall i es w, GTupleElems i es w -> True) /\ (forall i fs w, GFields i fs w -> True) /\ (forall i n e w, GField i n e w -> True) /\ (forall i fs w, GUpdates i fs w -> True) /\
    (forall i n e w, GUpdate i n e w -> True) /\ (forall i es w, GLamArgs i es w -> True) /\ (forall i es w, GEntries i es w -> True) /\ (forall i x w, GEntry i x w -> True) /\
    (forall i e w, GTarget i e w -> True) /\ (forall i f w, GFunc i f w -> finished w) /\ (forall i d w, GDef i d w -> finished w) /\ (forall i es w, GDefArgs i es w -> True) /\
    (forall i bs w, GBranches i bs w -> finished w) /\ (forall i p e w, GBranch i p e w -> finished w)) by (split; apply K).
  apply (GExpr_ind
    (fun _ _ w _ => finished w) (fun _ _ w _ => finished w) (fun _ _ w _ => True) (fun _ _ w _ => True)
    (fun _ _ w _ => True) (fun _ _ w _ => True) (fun _ _ w _ => True) (fun _ _ w _ => True)
    (fun _ _ _ w _ => True) (fun _ _ w _ => True) (fun _ _ _ w _ => True)
    (fun _ _ w _ => True) (fun _ _ w _ => True) (fun _ _ w _ => True) (fun _ _ w _ => True)
    (fun _ _ w _ => finished w) (fun _ _ w _ => finished w) (fun _ _ w _ => True) (fun _ _ w _ => finished w)
    (fun _ _ _ w _ => finished w)); intros; try exact I; try assumption.
  - destruct (before_blanks1 _ b0) as [H1 H2]. rewrite 3 app_assoc. apply finished_app; [assumption|]. apply before_app; assumption.
  - do 4 rewrite app_assoc.  eapply finished_lay; eassumption.
  - do 4 rewrite app_assoc.  eapply finished_lay; eassumption.
  - do 8 rewrite app_assoc.  eapply finished_lay; eassumption.
  - do 3 rewrite app_assoc.  eapply finished_lay; eassumption.
  - eapply finished_term; eassumption.
  - eapply finished_lay; [eassumption|]. eapply finished_term; eassumption.
  - rewrite 2 app_assoc. apply finished_app; [assumption|]. rewrite <- app_assoc. apply before_app; [discriminate|].
    destruct b as [|c b]; [reflexivity|]. destruct (exists_last (l := c :: b)) as (u & x & Eb); [discriminate|]. rewrite Eb in *. unfold before_word. rewrite app_assoc, last_snoc.
    match goal with H : all_spaces (u ++ [x]) = true |- _ => unfold all_spaces in H; rewrite forallb_app in H; apply andb_true_iff in H as [_ H]; cbn in H; rewrite andb_true_r in H; apply N.eqb_eq in H; subst x end.
    reflexivity.
  - do 3 rewrite app_assoc.  eapply finished_lay; eassumption.
  - eapply finished_lay; eassumption.
  - do 2 rewrite app_assoc.  eapply finished_lay; eassumption.
Qed.

(** ** Statements *)
(** The last character of a type or of a declaration without expressions: of a name, or a closing bracket *)
Definition closing_char (c : char) : bool := is_name_char c || mem_char c (L ")}").
Definition shut (w : str) : Prop := exists u c, w = u ++ [c] /\ closing_char c = true.
Lemma shut_app a w : shut w -> shut (a ++ w).
Proof. intros (u & c & -> & H). exists (a ++ u), c. rewrite app_assoc. auto. Qed.
Lemma shut_one c : closing_char c = true -> shut [c].
Proof. intros H. exists [], c. auto. Qed.
Lemma shut_forall (P : char -> bool) w : w <> [] -> (forall c, P c = true -> is_name_char c = true) -> forallb P w = true -> shut w.
Proof.
  intros Hne HP H. destruct (exists_last Hne) as (u & x & ->). exists u, x. split; [reflexivity|]. unfold closing_char. rewrite HP; [reflexivity|].
  rewrite forallb_app in H. apply andb_true_iff in H as [_ H]. cbn in H. apply andb_true_iff in H. apply H.
Qed.
Lemma shut_name c t : is_lower c || is_upper c = true -> forallb is_name_char t = true -> shut (c :: t).
Proof.
  intros H1 H2. destruct t as [|d t]; [apply shut_one; unfold closing_char, is_name_char; apply orb_true_iff in H1 as [-> | ->]; rewrite ?orb_true_r; reflexivity|].
  apply (shut_app [c]). apply (shut_forall is_name_char); [discriminate|auto|exact H2].
Qed.
Lemma shut_lower n : lower_name n -> shut n.
Proof. intros [->|[(c & t & -> & H1 & H2) _]]; [apply shut_one; reflexivity|]. apply shut_name; [rewrite H1; reflexivity|exact H2]. Qed.
Lemma shut_upper n : upper_name n -> shut n.
Proof. intros (c & t & -> & H1 & H2). apply shut_name; [rewrite H1; apply orb_true_r|exact H2]. Qed.
Lemma tyvar_name c : is_tyvar_char c = true -> is_name_char c = true.
Proof.
  intros H. unfold is_tyvar_char in H. unfold is_name_char.
  destruct (is_lower c); [reflexivity|]. cbn [orb] in H.
  destruct (c =? C "_")%N; [rewrite !orb_true_r; reflexivity|]. rewrite orb_false_r in H.
  replace (is_dec c) with true; [rewrite orb_true_r; reflexivity|].
  symmetry. unfold is_dec, between in *. apply andb_true_iff in H as [H1 H2].
  apply andb_true_iff. split; [|exact H2]. apply N.leb_le in H1. apply N.leb_le. lia.
Qed.
Lemma shut_tyvar n : type_var_name n -> shut n.
Proof.
  intros (c & t & -> & H1 & H2). apply shut_name; [rewrite H1; reflexivity|]. rewrite forallb_forall in *. intros x Hx. apply tyvar_name, H2, Hx.
Qed.
Lemma shut_dotted q : qualified q -> shut (dotted q).
Proof.
  intros [Hne H]. unfold dotted. induction H as [|x q Hx H IH]; [congruence|]. destruct q as [|y q]; [apply shut_upper, Hx|].
  change (join (L ".") (x :: y :: q)) with (x ++ L "." ++ join (L ".") (y :: q)). do 2 apply shut_app. apply IH. discriminate.
Qed.
Ltac shutter := repeat apply shut_app; apply shut_one; reflexivity.
Lemma shut_types :
  (forall i t w, GTy i t w -> shut w) /\ (forall i t w, GAnn i t w -> shut w) /\ (forall i ts w, GParams i ts w -> w = [] \/ shut w).
Proof.
  enough (K : (forall i t w, GTy i t w -> shut w) /\ (forall i t w, GTySimple i t w -> shut w) /\
    (forall i t w, GParam i t w -> shut w) /\ (forall i ts w, GParams i ts w -> w = [] \/ shut w) /\
    (forall i ts w, GTyElems i ts w -> True) /\ (forall i fs w, GTyFields i fs w -> True) /\
    (forall i n t w, GTyField i n t w -> True) /\ (forall i t w, GAnn i t w -> shut w)) by (split; [apply K|split; apply K]).
  apply (GType_ind (fun _ _ w _ => shut w) (fun _ _ w _ => shut w) (fun _ _ w _ => shut w)
    (fun _ _ w _ => w = [] \/ shut w) (fun _ _ w _ => True) (fun _ _ w _ => True)
    (fun _ _ _ w _ => True) (fun _ _ w _ => shut w)); intros; try exact I; try assumption; try shutter.
  - destruct H as [->|H]; [rewrite app_nil_r; apply shut_dotted; assumption|apply shut_app, H].
  - apply shut_tyvar; assumption.
  - apply shut_dotted; assumption.
  - left. reflexivity.
  - right. apply shut_app. destruct H0 as [->|H0]; [rewrite app_nil_r; assumption|apply shut_app, H0].
  - do 4 apply shut_app. assumption.
Qed.
Lemma shut_exports e w : GExports e w -> shut w.
Proof. intros H. destruct H; shutter. Qed.
Lemma shut_constructors m cs w : GConstructors m cs w -> shut w.
Proof.
  induction 1 as [m q args w Hq Hp|m q args w t j b cs w' Hq Hp Ht Hb H IH]; [|do 5 apply shut_app; exact IH].
  apply shut_types in Hp as [->|Hp]; [rewrite app_nil_r; apply shut_dotted, Hq|apply shut_app, Hp].
Qed.

(** how the text of a statement ends, by kind of statement *)
Definition ending (st : statement_ast) (w : str) : Prop :=
  match st with
  | Function_ _ | PortDeclaration _ _ _ => finished w
  | InfixDeclaration _ _ _ => exists u c, w = u ++ [c] /\ (is_name_char c = true \/ is_op_char c = true)
  | Comment _ => True
  | _ => exists u c, w = u ++ [c] /\ (is_name_char c = true \/ In c (L ")}"))
  end.
Lemma shut_ending w : shut w -> exists u c, w = u ++ [c] /\ (is_name_char c = true \/ In c (L ")}")).
Proof.
  intros (u & c & -> & H). exists u, c. split; [reflexivity|]. unfold closing_char in H. apply orb_true_iff in H as [H|H]; [auto|]. apply mem_char_In in H. auto.
Qed.
Lemma ending_GStmt st w : GStmt st w -> ending st w.
Proof.
  intros H. destruct H; cbn [ending]; try exact I.
  - apply shut_ending. do 6 apply shut_app. eapply shut_exports; eassumption.
  - apply shut_ending. do 8 apply shut_app. eapply shut_exports; eassumption.
  - apply shut_ending. do 14 apply shut_app. eapply shut_exports; eassumption.
  - apply shut_ending. do 2 apply shut_app. destruct H2 as [|b1 b2 e w Hb1 Hb2 He].
    + rewrite app_nil_r. destruct H1 as [|b1 b2 n Hb1 Hb2 Hn]; [rewrite app_nil_r; apply shut_dotted; assumption|]. do 4 apply shut_app. apply shut_upper, Hn.
    + do 5 apply shut_app. eapply shut_exports, He.
  - apply shut_ending. do 8 apply shut_app. eapply (proj1 (proj2 shut_types)); eassumption.
  - apply shut_ending. do 6 apply shut_app. eapply shut_constructors; eassumption.
  - apply shut_ending. do 6 apply shut_app. eapply (proj1 (proj2 shut_types)); eassumption.
  - do 5 rewrite app_assoc.  eapply finished_lay; [eassumption|]. eapply (proj1 finished_exprs); eassumption.
  - eapply (proj2 finished_exprs); eassumption.
  - assert (K : exists u c, n = u ++ [c] /\ (is_name_char c = true \/ is_op_char c = true)).
    { destruct H3 as [H3|(Hne & H3 & _)].
      - assert (Hn : n <> [] /\ forallb is_name_char n = true).
        { destruct H3 as [->|[(c & t & -> & Hc & Ht) _]]; [split; [discriminate|reflexivity]|]. split; [discriminate|]. cbn [forallb]. rewrite Ht, andb_true_r.
          unfold is_name_char. rewrite Hc. reflexivity. }
        destruct Hn as [Hne Hn]. destruct (exists_last Hne) as (u & c & ->). exists u, c. split; [reflexivity|]. left. rewrite forallb_app in Hn. apply andb_true_iff in Hn as [_ Hn].
        cbn [forallb] in Hn. apply andb_true_iff in Hn. apply Hn.
      - destruct (exists_last Hne) as (u & c & ->). exists u, c. split; [reflexivity|]. right. rewrite forallb_app in H3. apply andb_true_iff in H3 as [_ H3].
        cbn [forallb] in H3. apply andb_true_iff in H3. apply H3. }
    destruct K as (u & c & -> & K). exists (assoc_word a ++ b1 ++ d ++ b2 ++ u), c. split; [rewrite <- !app_assoc; reflexivity|exact K].
Qed.
