(** * The order in which alternatives are tried *)
From Verif Require Import Base Nom Regex Ast Good Spec Helpers Types Expr Stmt Total Layout Seqs Language Sound Heads.
From Coq Require Import Permutation.

(** [alt!] of nom 4.0.0 with the alternatives as a list: the first that accepts wins. *)
Definition one_of {A} (ps : list (parser A)) : parser A := fold_right alt (fun _ => Err) ps.
(** [k] stands somewhere before [k'] *)
Definition before {K} (k k' : K) (l : list K) : Prop := exists a b c, l = a ++ k :: b ++ k' :: c.
(** two results for the same text differ *)
Definition clash {A} (p q : parser A) : Prop :=
  exists s r a r' a', p s = Ok r a /\ q s = Ok r' a' /\ (r, a) <> (r', a').

Section Order.
  Context {K A : Type} (rd : K -> parser A).

  Lemma one_of_Ok l s r a : one_of (map rd l) s = Ok r a <->
    exists p k q, l = p ++ k :: q /\ Forall (fun x => rd x s = Err) p /\ rd k s = Ok r a.
  Proof.
    induction l as [|x l IH]; cbn.
    - split; [discriminate|]. intros (p & k & q & E & _). destruct p; discriminate E.
    - split.
      + intros H. apply alt_Ok in H as [H|[Hx H]].
        * exists [], x, l. repeat split; auto.
        * apply IH in H as (p & k & q & -> & Hp & Hk). exists (x :: p), k, q. repeat split; auto.
      + intros (p & k & q & E & Hp & Hk). destruct p as [|y p]; injection E as -> E.
        * apply alt_left, Hk.
        * subst l. inversion Hp; subst. apply alt_right; [assumption|]. apply IH. eauto 8.
  Qed.
  Lemma one_of_Err l s : (forall k w, rd k s <> Abort w) -> (one_of (map rd l) s = Err <-> Forall (fun x => rd x s = Err) l).
  Proof.
    intros Hab. induction l as [|x l IH]; cbn; [split; auto|]. unfold alt. destruct (rd x s) eqn:E.
    - split; [discriminate|]. intros H. inversion H. congruence.
    - fold (@alt A). rewrite IH. split; [intros H; constructor; assumption|intros H; inversion H; assumption].
    - destruct (Hab _ _ E).
  Qed.
  Lemma one_of_cases l s : (forall k w, rd k s <> Abort w) ->
    one_of (map rd l) s = Err \/ exists r a, one_of (map rd l) s = Ok r a.
  Proof.
    intros Hab. induction l as [|x l IH]; cbn; [auto|]. unfold alt. destruct (rd x s) eqn:E; eauto. destruct (Hab _ _ E).
  Qed.

  Lemma before_first (l p : list K) k q k' : NoDup l -> l = p ++ k :: q -> before k' k l -> In k' p.
  Proof.
    intros Hd -> (a & b & c & E). revert a E. induction p as [|y p IH]; intros a E.
    - exfalso. cbn in Hd. inversion Hd as [|? ? Hn _]; subst. destruct a; injection E as -> E; subst; apply Hn, in_app_iff; cbn; auto.
      right. right. apply in_app_iff. cbn. auto.
    - destruct a as [|z a]; injection E as -> E; [left; reflexivity|]. right. inversion Hd; subst. eapply IH; eassumption.
  Qed.
  Lemma before_total (l : list K) k k' : In k l -> In k' l -> k <> k' -> before k k' l \/ before k' k l.
  Proof.
    intros H H' Hn. apply in_split in H as (p & q & ->). apply in_app_iff in H' as [H|[H|H]]; [|congruence|].
    - right. apply in_split in H as (p1 & p2 & ->). exists p1, p2, q. rewrite <- app_assoc. reflexivity.
    - left. apply in_split in H as (p1 & p2 & ->). exists p, p1, p2. reflexivity.
  Qed.
  (** [all]: the alternatives in their order in the code; [P]: pairs whose order counts *)
  Variables (all : list K) (P : list (K * K)).
  Hypothesis Hall : NoDup all.
  Hypothesis Hab : forall s k w, rd k s <> Abort w.
  Hypothesis Hone : forall k k' s r a r' a', rd k s = Ok r a -> rd k' s = Ok r' a' ->
    In (k, k') P \/ In (k', k) P \/ (r = r' /\ a = a').
  Hypothesis HP : forall k k', In (k, k') P -> before k k' all /\
    exists s r a r' a', rd k s = Ok r a /\ rd k' s = Ok r' a' /\ (r, a) <> (r', a') /\
      forall x, x <> k -> x <> k' -> rd x s = Err.

  Lemma before_ne k k' : In (k, k') P -> k <> k'.
  Proof. intros H ->. destruct (HP _ _ H) as [_ (s & r & a & r' & a' & H1 & H2 & Hn & _)]. congruence. Qed.
  Lemma before_In k k' : In (k, k') P -> In k all /\ In k' all.
  Proof.
    intros H. destruct (HP _ _ H) as [(a & b & c & ->) _]. split; apply in_app_iff; right; [left; reflexivity|].
    right. apply in_app_iff. right. left. reflexivity.
  Qed.

  Theorem order_iff l : Permutation all l ->
    (forall s, one_of (map rd l) s = one_of (map rd all) s) <-> (forall k k', In (k, k') P -> before k k' l).
  Proof.
    intros Hp. pose proof (Permutation_NoDup Hp Hall) as Hl. split.
    - intros H k k' Hk. destruct (before_In _ _ Hk) as [I1 I2].
      destruct (before_total l k k') as [Hb|Hb]; [eapply Permutation_in; eassumption..|apply before_ne, Hk|exact Hb|exfalso].
      destruct (HP _ _ Hk) as [Hb' (s & r & a & r' & a' & H1 & H2 & Hn & Ho)].
      assert (E : forall l0 x y rx ax, NoDup l0 -> before x y l0 -> (x = k /\ y = k' \/ x = k' /\ y = k) -> rd x s = Ok rx ax ->
        one_of (map rd l0) s = Ok rx ax).
      { intros l0 x y rx ax Hd (p & b & c & E) Hxy Hx. apply one_of_Ok. exists p, x, (b ++ y :: c). split; [exact E|]. split; [|exact Hx].
        apply Forall_forall. intros z Hz. apply Ho; intros ->; rewrite E in Hd.
        - apply NoDup_remove_2 in Hd as Hd1. destruct Hxy as [[-> ->]|[-> ->]].
          + apply Hd1, in_app_iff. auto.
          + assert (Hd2 : NoDup ((p ++ k' :: b) ++ k :: c)) by (rewrite <- app_assoc; exact Hd).
            apply NoDup_remove_2 in Hd2. apply Hd2, in_app_iff. left. apply in_app_iff. auto.
        - apply NoDup_remove_2 in Hd as Hd1. destruct Hxy as [[-> ->]|[-> ->]].
          + assert (Hd2 : NoDup ((p ++ k :: b) ++ k' :: c)) by (rewrite <- app_assoc; exact Hd).
            apply NoDup_remove_2 in Hd2. apply Hd2, in_app_iff. left. apply in_app_iff. auto.
          + apply Hd1, in_app_iff. auto. }
      pose proof (E l k' k r' a' Hl Hb ltac:(auto) H2) as E1. pose proof (E all k k' r a Hall Hb' ltac:(auto) H1) as E2.
      specialize (H s). congruence.
    - intros H s. destruct (one_of_cases l s (Hab s)) as [E|(r & a & E)].
      + rewrite E. symmetry. apply one_of_Err; [apply Hab|]. apply one_of_Err in E; [|apply Hab].
        rewrite Forall_forall in *. intros x Hx. apply E. eapply Permutation_in; eassumption.
      + rewrite E. destruct (one_of_cases all s (Hab s)) as [E'|(r' & a' & E')].
        { exfalso. apply one_of_Err in E'; [|apply Hab]. apply one_of_Ok in E as (p & k & q & -> & _ & Hk).
          rewrite Forall_forall in E'. assert (I : In k all). { eapply Permutation_in; [apply Permutation_sym, Hp|]. apply in_app_iff. cbn. auto. }
          specialize (E' k I). cbv beta in E'. congruence. }
        rewrite E'. apply one_of_Ok in E as (p & k & q & E & Hpk & Hk). apply one_of_Ok in E' as (p' & k' & q' & E' & Hpk' & Hk').
        rewrite Forall_forall in Hpk, Hpk'.
        destruct (Hone _ _ _ _ _ _ _ Hk Hk') as [I|[I|[-> ->]]]; [..|reflexivity]; exfalso.
        * destruct (HP _ _ I) as [B _]. pose proof (before_first _ _ _ _ _ Hall E' B) as I'. specialize (Hpk' _ I'). cbv beta in Hpk'. congruence.
        * pose proof (before_first _ _ _ _ _ Hl E (H _ _ I)) as I'. specialize (Hpk _ I'). cbv beta in Hpk. congruence.
  Qed.

  (** two kinds clash exactly if they are one of the pairs *)
  Theorem clash_iff k k' : clash (rd k) (rd k') <-> In (k, k') P \/ In (k', k) P.
  Proof.
    split.
    - intros (s & r & a & r' & a' & H & H' & Hn). destruct (Hone _ _ _ _ _ _ _ H H') as [I|[I|[-> ->]]]; [auto..|congruence].
    - intros [I|I]; destruct (HP _ _ I) as [_ (s & r & a & r' & a' & H1 & H2 & Hn & _)];
        [exists s, r, a, r', a'|exists s, r', a', r, a]; repeat split; auto.
  Qed.
End Order.
