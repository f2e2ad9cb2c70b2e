(** * C46: elm-parser-dump on a directory tree *)
From Verif Require Import Base Nom Ast Spec Utf8 Stmt Fail Errors Cli CliProps Tree.

(** [mounted w dir n]: in the world [w], the directory [dir] is the tree [n].
    [elm_file dir n p m]: the node [m] of the tree, a file or a link that does
    not lead to a directory, is named *.elm and has the path [p].  [report]: the
    message for a file (CliProps.v).  All in Tree.v. *)

(** Every Elm file is reported exactly once and nothing else is, if everything
    can be listed and read. *)
Theorem C46_every_file : forall w dir n quiet, mounted w dir n -> named n -> listed n ->
  (forall p m, elm_file dir n p m -> readable m) ->
  exists ps ms, dump_main w (Some dir) quiet = (ms, Returned) /\ Forall2 (report w quiet) ps ms /\
    NoDup ps /\ forall p, In p ps <-> exists m, elm_file dir n p m.
Proof.
  intros w dir n quiet Hm Hn Hl Hr.
  destruct (dump_tree w dir n quiet Hm Hn) as (ps & ms & e & E & Hf & Hd & Hin & He & Hall).
  destruct He as [->|(p & m & msg & Hel & Hnr & _)]; [|destruct (Hnr (Hr p m Hel))].
  exists ps, ms. split; [exact E|]. split; [exact Hf|]. split; [exact Hd|]. intros p. split; [apply Hin|].
  intros (m & Hel). exact (Hall eq_refl Hl p m Hel).
Qed.
Print Assumptions C46_every_file.

(** With --quiet the lines tell which files are accepted. *)
Theorem C46_quiet : forall w dir n ms, mounted w dir n -> named n -> listed n ->
  (forall p m, elm_file dir n p m -> readable m) -> dump_main w (Some dir) true = (ms, Returned) ->
  forall p m s, elm_file dir n p m -> data m = Bytes (encode s) -> Forall scalar s ->
  (In (ParsedSuccessfully p) ms <-> exists sts, file s = Ok [] sts) /\
  (In (FailedToParse p) ms <-> file s = Err).
Proof.
  intros w dir n ms Hm Hn Hl Hr E p m s Hel Hs Hsc.
  destruct (C46_every_file w dir n true Hm Hn Hl Hr) as (ps & ms' & E' & Hf & _ & Hin).
  rewrite E in E'. injection E' as <-.
  assert (Ht : has_text w p s).
  { split; [|exact Hsc]. destruct Hm as (_ & _ & Hdisk). rewrite (Hdisk p m (proj1 Hel)). exact Hs. }
  assert (Hp : In p ps) by (apply Hin; eauto).
  assert (Hto : forall x, In x ms -> exists q, In q ps /\ report w true q x).
  { clear -Hf. induction Hf as [|q y ps ms Hq _ IH]; intros x Hx; [destruct Hx|].
    destruct Hx as [<-|Hx]; [exists q; split; [left; reflexivity|exact Hq]|].
    destruct (IH x Hx) as (q' & H1 & H2). exists q'. split; [right; exact H1|exact H2]. }
  assert (Hfrom : exists x, In x ms /\ report w true p x).
  { clear -Hf Hp. induction Hf as [|q y ps ms Hq _ IH]; [destruct Hp|].
    destruct Hp as [->|Hp]; [exists y; split; [left; reflexivity|exact Hq]|].
    destruct (IH Hp) as (x & H1 & H2). exists x. split; [right; exact H1|exact H2]. }
  assert (Hu : forall s', has_text w p s' -> s' = s).
  { intros s' H. apply contents_text in H, Ht. congruence. }
  assert (Hex : forall sts, file s = Ok [] sts -> file s = Err -> False) by congruence.
  split; split.
  - intros H. apply Hto in H as (q & _ & H). inversion H as [s' sts Ht' Hf'|]; subst.
    rewrite (Hu s' Ht') in Hf'. eauto.
  - intros (sts & H). destruct Hfrom as (x & Hx & Hrep). inversion Hrep as [s' sts' Ht' Hf'|s' r k Ht' Hf']; subst; [exact Hx|].
    rewrite (Hu s' Ht') in Hf'. apply file_ok in H. congruence.
  - intros H. apply Hto in H as (q & _ & H). inversion H as [|s' r k Ht' Hf']; subst.
    rewrite (Hu s' Ht') in Hf'. apply file_err. eauto.
  - intros H. destruct Hfrom as (x & Hx & Hrep). inversion Hrep as [s' sts' Ht' Hf'|s' r k Ht' Hf']; subst; [|exact Hx].
    rewrite (Hu s' Ht') in Hf'. congruence.
Qed.
Print Assumptions C46_quiet.

(** One Elm file that cannot be read (a dangling link, a file that is not
    UTF-8, missing permission) ends the run with a panic, wherever it is. *)
Theorem C46_unreadable : forall w dir n quiet p m, mounted w dir n -> named n -> listed n ->
  elm_file dir n p m -> ~ readable m -> exists ms msg, dump_main w (Some dir) quiet = (ms, Panicked msg).
Proof.
  intros w dir n quiet p m Hm Hn Hl Hel Hnr.
  destruct (dump_tree w dir n quiet Hm Hn) as (ps & ms & e & E & Hf & Hd & Hin & He & Hall).
  destruct He as [->|(p' & m' & msg & _ & _ & _ & ->)]; [exfalso|eauto].
  pose proof (Hall eq_refl Hl p m Hel) as Hp.
  assert (Hrep : exists x, report w quiet p x).
  { clear -Hf Hp. induction Hf as [|q y ps ms Hq _ IH]; [destruct Hp|]. destruct Hp as [->|Hp]; eauto. }
  assert (Ht : exists s, has_text w p s) by (destruct Hrep as (x & [s sts Ht _|s r k Ht _]); eauto).
  destruct Ht as (s & Ht & Hsc). apply Hnr. exists s. split; [|exact Hsc].
  destruct Hm as (_ & _ & Hdisk). rewrite <- (Hdisk p m (proj1 Hel)). exact Ht.
Qed.
Print Assumptions C46_unreadable.

(** Also if errors happen, no file is reported twice, only Elm files are
    reported, and the run ends normally or panics because of an Elm file that
    cannot be read. *)
Theorem C46_only : forall w dir n quiet, mounted w dir n -> named n ->
  exists ps ms e, dump_main w (Some dir) quiet = (ms, e) /\ Forall2 (report w quiet) ps ms /\ NoDup ps /\
    (forall p, In p ps -> exists m, elm_file dir n p m) /\
    (e = Returned \/ exists p m msg, elm_file dir n p m /\ ~ readable m /\ e = Panicked msg).
Proof.
  intros w dir n quiet Hm Hn.
  destruct (dump_tree w dir n quiet Hm Hn) as (ps & ms & e & E & Hf & Hd & Hin & He & _).
  exists ps, ms, e. split; [exact E|]. split; [exact Hf|]. split; [exact Hd|]. split; [exact Hin|].
  destruct He as [->|(p & m & msg & H1 & H2 & _ & H3)]; [left; reflexivity|right; eauto 6].
Qed.
Print Assumptions C46_only.

(** Every tree is the directory of some world, and the hypotheses hold of this one:
    a directory named like an Elm file, a link to a directory, a link to a file. *)
Theorem C46_mounted : forall dir n, named n -> mounted (world_of dir n) dir n.
Proof. exact mounted_world_of. Qed.
Print Assumptions C46_mounted.
Definition some_tree : node := DirNode [
  Some (L "A.elm", FileNode (Bytes (L "a = 1")));
  Some (L "b.txt", FileNode (Bytes [255%N]));
  Some (L "src.elm", DirNode [Some (L "A.elm", LinkNode (Bytes (L "= 1")) false)]);
  Some (L "up.elm", LinkNode Unreadable true)].
Definition broken_tree : node := DirNode [
  Some (L "A.elm", FileNode (Bytes (L "a = 1")));
  Some (L "B.elm", LinkNode NotFound false)].
Lemma dir_split {A} (a b c : list A) x y l : l = a ++ x :: b ++ y :: c -> NoDup l -> x <> y.
Proof.
  intros -> H ->. apply NoDup_remove_2 in H. apply H, in_or_app. right. apply in_or_app. right. left. reflexivity.
Qed.
Definition child_name (x : option (list N * node)) : list N := match x with Some (n, _) => n | None => [] end.
Lemma names_differ cs : NoDup (map child_name cs) ->
  forall a b c name x y, cs = a ++ Some (name, x) :: b ++ Some (name, y) :: c -> False.
Proof.
  intros H a b c name x y ->. rewrite !map_app in H. cbn [map] in H. rewrite map_app in H. cbn [map child_name] in H.
  exact (dir_split _ _ _ _ _ _ eq_refl H eq_refl).
Qed.
Ltac tree_ok :=
  repeat match goal with
  | |- named (DirNode _) => apply named_dir
  | |- named _ => constructor
  | |- listed (DirNode _) => apply listed_dir
  | |- listed _ => constructor
  | |- forall name c, In _ _ -> _ => intros ? ? H; repeat (destruct H as [H|H]; [injection H as <- <-|]); [..|destruct H]
  | |- _ /\ _ => split
  | |- _ <> [] => discriminate
  | |- ~ In _ _ => intros H; repeat (destruct H as [H|H]; [discriminate H|]); exact H
  | |- forall a b c name x y, _ -> False => apply names_differ; cbn
  | |- NoDup _ => constructor
  end.
Lemma named_some : named some_tree. Proof. unfold some_tree. tree_ok. Qed.
Lemma listed_some : listed some_tree. Proof. unfold some_tree. tree_ok. Qed.
Lemma named_broken : named broken_tree. Proof. unfold broken_tree. tree_ok. Qed.
Lemma listed_broken : listed broken_tree. Proof. unfold broken_tree. tree_ok. Qed.
Lemma elm_some p m : elm_file (L "d") some_tree p m -> readable m.
Proof.
  intros (Hf & _ & Hd & He). revert Hf He. generalize (encode p) as q. intros q Hf He.
  assert (Hs : forall s, data m = Bytes (encode s) -> Forall scalar s -> readable m) by (intros s; exists s; auto).
  inversion Hf as [|? ? name c ? ? Hc Hm]; subst; [discriminate Hd|].
  repeat (destruct Hc as [Hc|Hc]; [injection Hc as <- <-|]); [..|destruct Hc].
  - inversion Hm; subst. apply (Hs (L "a = 1")); [reflexivity|]. repeat (constructor; [left; apply N.leb_le; reflexivity|]). constructor.
  - inversion Hm; subst. apply extension_elm in He. vm_compute in He. discriminate He.
  - inversion Hm as [|? ? name c ? ? Hc Hm']; subst; [discriminate Hd|].
    destruct Hc as [Hc|[]]. injection Hc as <- <-. inversion Hm'; subst. apply (Hs (L "= 1")); [reflexivity|]. repeat (constructor; [left; apply N.leb_le; reflexivity|]). constructor.
  - inversion Hm; subst. discriminate Hd.
Qed.
(** The hypotheses hold of [some_tree] and the run is this one. *)
Example C46_instance :
  mounted (world_of (L "d") some_tree) (L "d") some_tree /\ named some_tree /\ listed some_tree /\
  (forall p m, elm_file (L "d") some_tree p m -> readable m) /\
  dump_main (world_of (L "d") some_tree) (Some (L "d")) true =
    ([ParsedSuccessfully (L "d/A.elm"); FailedToParse (L "d/src.elm/A.elm")], Returned).
Proof.
  split; [apply C46_mounted, named_some|]. split; [exact named_some|]. split; [exact listed_some|].
  split; [exact elm_some|]. vm_compute. reflexivity.
Qed.
Print Assumptions C46_instance.
(** The same for C46_unreadable and [broken_tree], which has a dangling link. *)
Example C46_unreadable_instance :
  mounted (world_of (L "d") broken_tree) (L "d") broken_tree /\ named broken_tree /\ listed broken_tree /\
  elm_file (L "d") broken_tree (L "d/B.elm") (LinkNode NotFound false) /\
  ~ readable (LinkNode NotFound false) /\
  dump_main (world_of (L "d") broken_tree) (Some (L "d")) true =
    ([ParsedSuccessfully (L "d/A.elm")], Panicked not_found).
Proof.
  split; [apply C46_mounted, named_broken|]. split; [exact named_broken|]. split; [exact listed_broken|].
  split; [|split; [intros (s & H & _); discriminate H|vm_compute; reflexivity]].
  split.
  { unfold broken_tree. eapply found_below; [right; left; reflexivity|]. apply found_here. }
  split; [repeat (constructor; [left; apply N.leb_le; reflexivity|]); constructor|]. split; [reflexivity|]. apply extension_elm. vm_compute. reflexivity.
Qed.
Print Assumptions C46_unreadable_instance.
