(** * Directories

    Cli.v takes the traversal of [WalkDir] (src/dump.rs:48) as an input.  Here a
    directory is a tree, and the traversal is computed: the model of the crate
    walkdir 2 (not part of /repo) with its default options: an entry comes before
    what is below it, links are not followed, the order within a directory is
    the one the operating system gives. *)
From Verif Require Import Base Nom Ast Utf8 Stmt Fail Errors Cli CliProps.

(** The names are bytes, as on Unix.  A [None] among the children is an error
    while the directory is listed (a directory that cannot be opened has it as its
    only child). *)
Inductive node :=
| FileNode (o : opened)                (* what opening and reading the file meets *)
| LinkNode (o : opened) (dir : bool)   (* a symbolic link: what reading through it meets,
                                          and whether it leads to a directory *)
| DirNode (children : list (option (list N * node))).

(** [Path::join] for a name: a slash is added unless there is one *)
Definition join (path name : list N) : list N :=
  match rev path with
  | c :: _ => if (c =? C "/")%N then path ++ name else path ++ L "/" ++ name
  | [] => name
  end.

(** [for entry in WalkDir::new(path)], src/dump.rs:48; the second component is the
    answer of [ent.path().is_dir()] (line 51), which follows links *)
Fixpoint walk_node (path : list N) (n : node) : list (option entry) :=
  match n with
  | FileNode _ => [Some (mkEntry path false)]
  | LinkNode _ dir => [Some (mkEntry path dir)]
  | DirNode children =>
      Some (mkEntry path true) ::
      flat_map (fun c => match c with
                         | Some (name, m) => walk_node (join path name) m
                         | None => [None]
                         end) children
  end.

(** ** Specification *)

(** In the tree [n], which is found at [base], the node [m] is found at [p]. *)
Inductive found : list N -> node -> list N -> node -> Prop :=
| found_here base n : found base n base n
| found_below base children name c p m : In (Some (name, c)) children -> found (join base name) c p m ->
    found base (DirNode children) p m.

(** Names within a directory are not empty, have no slash and differ. *)
Inductive named : node -> Prop :=
| named_file o : named (FileNode o)
| named_link o d : named (LinkNode o d)
| named_dir children :
    (forall name c, In (Some (name, c)) children -> name <> [] /\ ~ In (C "/") name /\ named c) ->
    (forall a b c name x y, children = a ++ Some (name, x) :: b ++ Some (name, y) :: c -> False) ->
    named (DirNode children).

(** No error happens while the directories are listed. *)
Inductive listed : node -> Prop :=
| listed_file o : listed (FileNode o)
| listed_link o d : listed (LinkNode o d)
| listed_dir children : ~ In None children -> (forall name c, In (Some (name, c)) children -> listed c) ->
    listed (DirNode children).

(** what reading the node meets (a directory can be opened but not read) *)
Definition data (n : node) : opened :=
  match n with FileNode o | LinkNode o _ => o | DirNode _ => Unreadable end.
Definition leads_to_directory (n : node) : bool :=
  match n with FileNode _ => false | LinkNode _ d => d | DirNode _ => true end.

(** [w] is a world in which the directory [dir] is the tree [n]. *)
Definition mounted (w : world) (dir : str) (n : node) : Prop :=
  is_directory w dir = Some true /\ walk w dir = walk_node (encode dir) n /\
  forall p m, found (encode dir) n (encode p) m -> disk w p = data m.

(** An Elm file below [dir]: a file, or a link that does not lead to a directory,
    named *.elm, whose path is the text [p]. *)
Definition elm_file (dir : str) (n : node) (p : str) (m : node) : Prop :=
  found (encode dir) n (encode p) m /\ Forall scalar p /\ leads_to_directory m = false /\ elm_path (encode p).
(** It can be read: its bytes are the UTF-8 encoding of a text. *)
Definition readable (m : node) : Prop := exists s, data m = Bytes (encode s) /\ Forall scalar s.

(** ** Proofs *)

Section NodeInd.
  Variable P : node -> Prop.
  Hypothesis Hf : forall o, P (FileNode o).
  Hypothesis Hl : forall o d, P (LinkNode o d).
  Hypothesis Hd : forall cs, (forall name c, In (Some (name, c)) cs -> P c) -> P (DirNode cs).
  Fixpoint node_ind' (n : node) : P n.
  Proof.
    destruct n as [o|o d|cs]; [apply Hf|apply Hl|]. apply Hd.
    induction cs as [|x cs IH]; [contradiction|]. intros name c [H|H]; [|exact (IH name c H)].
    destruct x as [[name' c']|]; [|discriminate H]. assert (E : c' = c) by congruence. rewrite <- E. apply node_ind'.
  Defined.
End NodeInd.

Lemma walk_iff n : forall base p d, In (Some (mkEntry p d)) (walk_node base n) <->
  exists m, found base n p m /\ leads_to_directory m = d.
Proof.
  induction n as [o|o d0|cs IH] using node_ind'; intros base p d.
  - split.
    + intros [[= <- <-]|[]]. eexists. split; [apply found_here|reflexivity].
    + intros (m & H & <-). inversion H; subst. left. reflexivity.
  - split.
    + intros [[= <- <-]|[]]. eexists. split; [apply found_here|reflexivity].
    + intros (m & H & <-). inversion H; subst. left. reflexivity.
  - cbn [walk_node]. split.
    + intros [[= <- <-]|H]; [eexists; split; [apply found_here|reflexivity]|].
      apply in_flat_map in H as ([[name c]|] & Hc & H); [|destruct H as [H|[]]; discriminate H].
      apply (IH name c Hc) in H as (m & Hm & Hd). exists m. split; [|exact Hd]. eapply found_below; eassumption.
    + intros (m & H & Hd). inversion H as [|? ? name c ? ? Hc Hm]; subst; [left; reflexivity|].
      right. apply in_flat_map. exists (Some (name, c)). split; [exact Hc|]. apply (IH name c Hc). eauto.
Qed.
Lemma walk_listed n : listed n -> forall base, ~ In None (walk_node base n).
Proof.
  induction n as [o|o d0|cs IH] using node_ind'; intros Hl base H.
  - destruct H as [H|[]]. discriminate H.
  - destruct H as [H|[]]. discriminate H.
  - inversion Hl as [| |cs' Hn Hc]; subst. destruct H as [H|H]; [discriminate H|].
    apply in_flat_map in H as ([[name c]|] & Hin & H); [|exact (Hn Hin)].
    exact (IH name c Hin (Hc name c Hin) _ H).
Qed.

(** what follows a name in a path *)
Definition tail (x : list N) : Prop := x = [] \/ exists y, x = C "/" :: y.
Lemma join_form base name : exists b, join base name = b ++ name /\ forall name', join base name' = b ++ name'.
Proof.
  unfold join. destruct (rev base) as [|c r] eqn:E.
  - exists []. auto.
  - destruct (c =? C "/")%N.
    + exists base. auto.
    + exists (base ++ L "/"). rewrite <- app_assoc. split; [reflexivity|]. intros n'. rewrite <- app_assoc. reflexivity.
Qed.
Lemma join_longer base name : name <> [] -> exists x, x <> [] /\ join base name = base ++ x.
Proof.
  intros H. unfold join. destruct (rev base) as [|c r] eqn:E.
  - assert (base = []) by (rewrite <- (rev_involutive base), E; reflexivity). subst base. exists name. auto.
  - destruct (c =? C "/")%N; [exists name; auto|]. exists (L "/" ++ name). split; [discriminate|reflexivity].
Qed.
Lemma join_below base name1 name2 : name1 <> [] -> ~ In (C "/") name1 ->
  exists x, join (join base name1) name2 = join base name1 ++ C "/" :: x.
Proof.
  intros H1 H2. unfold join at 1. destruct (join_form base name1) as (b & E & _).
  destruct (rev (join base name1)) as [|c r] eqn:E1.
  { rewrite E, rev_app_distr in E1. apply app_eq_nil in E1 as [E1 _]. rewrite <- (rev_involutive name1), E1 in H1. easy. }
  assert (Hc : (c =? C "/")%N = false).
  { apply N.eqb_neq. intros ->. apply H2. apply in_rev. rewrite E, rev_app_distr in E1.
    destruct (rev name1) as [|c' r'] eqn:E2; [rewrite <- (rev_involutive name1), E2 in H1; easy|].
    cbn [app] in E1. injection E1 as -> _. left. reflexivity. }
  rewrite Hc. exists name2. reflexivity.
Qed.
Lemma found_tail base n p m : found base n p m -> named n -> forall b name, base = join b name ->
  name <> [] -> ~ In (C "/") name -> exists x, p = base ++ x /\ tail x.
Proof.
  induction 1 as [base n|base cs name c p m Hc Hf IH]; intros Hn b nm -> H1 H2.
  - exists []. split; [rewrite app_nil_r; reflexivity|left; reflexivity].
  - inversion Hn as [| |cs' Hg Hd]; subst. destruct (Hg name c Hc) as (G1 & G2 & G3).
    destruct (IH G3 _ _ eq_refl G1 G2) as (x & -> & Hx). destruct (join_below b nm name H1 H2) as (y & ->).
    exists (C "/" :: y ++ x). split; [rewrite <- app_assoc; reflexivity|]. right. eauto.
Qed.
Lemma found_longer base n p m : found base n p m -> named n -> exists x, p = base ++ x.
Proof.
  induction 1 as [base n|base cs name c p m Hc Hf IH]; intros Hn.
  - exists []. rewrite app_nil_r. reflexivity.
  - inversion Hn as [| |cs' Hg Hd]; subst. destruct (Hg name c Hc) as (G1 & G2 & G3).
    destruct (IH G3) as (x & ->). destruct (join_longer base name G1) as (y & _ & ->).
    exists (y ++ x). rewrite <- app_assoc. reflexivity.
Qed.
Lemma name_tail n1 n2 x y : ~ In (C "/") n1 -> ~ In (C "/") n2 -> tail x -> tail y ->
  n1 ++ x = n2 ++ y -> n1 = n2.
Proof.
  revert n2. induction n1 as [|c n1 IH]; intros n2 H1 H2 Hx Hy E; destruct n2 as [|d n2]; [reflexivity|..].
  - cbn [app] in E. destruct Hx as [->|(x' & ->)]; [discriminate E|]. injection E as <- _.
    destruct H2. left. reflexivity.
  - cbn [app] in E. destruct Hy as [->|(y' & ->)]; [discriminate E|]. injection E as -> _.
    destruct H1. left. reflexivity.
  - injection E as <- E. f_equal. apply IH; try assumption; intros H; [apply H1|apply H2]; right; exact H.
Qed.
Lemma same_name base n1 c1 n2 c2 p m1 m2 : n1 <> [] -> ~ In (C "/") n1 -> named c1 ->
  n2 <> [] -> ~ In (C "/") n2 -> named c2 ->
  found (join base n1) c1 p m1 -> found (join base n2) c2 p m2 -> n1 = n2.
Proof.
  intros A1 A2 A3 B1 B2 B3 F1 F2.
  destruct (found_tail _ _ _ _ F1 A3 _ _ eq_refl A1 A2) as (x & E1 & Hx).
  destruct (found_tail _ _ _ _ F2 B3 _ _ eq_refl B1 B2) as (y & E2 & Hy).
  destruct (join_form base n1) as (b & _ & Hb). rewrite Hb in E1, E2. rewrite E1, <- !app_assoc in E2.
  apply app_inv_head in E2. exact (name_tail _ _ _ _ A2 B2 Hx Hy E2).
Qed.

(** the paths of a list of entries *)
Definition paths (es : list (option entry)) : list (list N) :=
  flat_map (fun x => match x with Some e => [e_path e] | None => [] end) es.
Lemma paths_app a b : paths (a ++ b) = paths a ++ paths b.
Proof. apply flat_map_app. Qed.
Lemma in_paths p es : In p (paths es) <-> exists d, In (Some (mkEntry p d)) es.
Proof.
  unfold paths. rewrite in_flat_map. split.
  - intros ([[p' d]|] & H & Hp); [|destruct Hp]. destruct Hp as [<-|[]]. exists d. exact H.
  - intros (d & H). exists (Some (mkEntry p d)). split; [exact H|left; reflexivity].
Qed.
Lemma in_walk_paths base n p : In p (paths (walk_node base n)) <-> exists m, found base n p m.
Proof.
  rewrite in_paths. split.
  - intros (d & H). apply walk_iff in H as (m & H & _). eauto.
  - intros (m & H). exists (leads_to_directory m). apply walk_iff. eauto.
Qed.
Lemma NoDup_app_intro {A} (a b : list A) : NoDup a -> NoDup b -> (forall x, In x a -> ~ In x b) -> NoDup (a ++ b).
Proof.
  intros Ha Hb H. induction Ha as [|x a Hx Ha IH]; [exact Hb|]. cbn [app]. constructor.
  - intros Hin. apply in_app_or in Hin as [Hin|Hin]; [contradiction|]. exact (H x (or_introl eq_refl) Hin).
  - apply IH. intros y Hy. apply H. right. exact Hy.
Qed.
Lemma walk_NoDup n : named n -> forall base, NoDup (paths (walk_node base n)).
Proof.
  induction n as [o|o d0|cs IH] using node_ind'; intros Hn base.
  - repeat constructor. intros [].
  - repeat constructor. intros [].
  - inversion Hn as [| |cs' Hg Hd]; subst. cbn [walk_node].
    match goal with |- NoDup (paths (?e :: ?l)) => change (paths (e :: l)) with (base :: paths l) end.
    constructor.
    + rewrite in_paths. intros (d & H). apply in_flat_map in H as ([[name c]|] & Hc & H);
        [|destruct H as [H|[]]; discriminate H].
      apply walk_iff in H as (m & H & _). destruct (Hg name c Hc) as (G1 & _ & G3).
      destruct (found_longer _ _ _ _ H G3) as (x & E). destruct (join_longer base name G1) as (y & Hy & E2).
      rewrite E2, <- app_assoc in E. rewrite <- (app_nil_r base) in E at 1. apply app_inv_head in E.
      symmetry in E. apply app_eq_nil in E as [E _]. contradiction.
    + clear Hn. revert IH Hg Hd. induction cs as [|x cs IHcs]; intros IH Hg Hd; [constructor|].
      cbn [flat_map]. rewrite paths_app. apply NoDup_app_intro.
      * destruct x as [[name c]|]; [|constructor]. apply (IH name c); [left; reflexivity|].
        apply (Hg name c). left. reflexivity.
      * apply IHcs.
        -- intros name c H. apply (IH name c). right. exact H.
        -- intros name c H. apply (Hg name c). right. exact H.
        -- intros a b c name y z E. apply (Hd (x :: a) b c name y z). rewrite E. reflexivity.
      * intros p H1 H2. destruct x as [[name c]|]; [|destruct H1].
        apply in_walk_paths in H1 as (m1 & H1). apply in_paths in H2 as (d & H2).
        apply in_flat_map in H2 as ([[name2 c2]|] & Hc2 & H2); [|destruct H2 as [H2|[]]; discriminate H2].
        apply walk_iff in H2 as (m2 & H2 & _).
        destruct (Hg name c (or_introl eq_refl)) as (A1 & A2 & A3).
        destruct (Hg name2 c2 (or_intror Hc2)) as (B1 & B2 & B3).
        pose proof (same_name base name c name2 c2 p m1 m2 A1 A2 A3 B1 B2 B3 H1 H2) as E. subst name2.
        apply in_split in Hc2 as (l1 & l2 & ->). exact (Hd [] l1 l2 name c c2 eq_refl).
Qed.

(** ** elm-parser-dump on a directory *)

Lemma selected_in es ps : selected es ps -> forall p, In p ps <-> exists ent, In ent es /\ wanted ent p.
Proof.
  induction 1 as [|ent es ps Hn Hs IH|ent path es ps Hw Hs IH]; intros p.
  - split; [intros []|]. intros (ent & [] & _).
  - rewrite IH. split; intros (e & He & H); exists e; (split; [|exact H]).
    + right. exact He.
    + destruct He as [<-|He]; [destruct (Hn p H)|exact He].
  - split.
    + intros [<-|H]; [exists ent; split; [left; reflexivity|exact Hw]|].
      apply IH in H as (e & He & H). exists e. split; [right; exact He|exact H].
    + intros (e & [<-|He] & H); [left; exact (wanted_unique _ _ _ Hw H)|]. right. apply IH. eauto.
Qed.
Lemma selected_NoDup es ps : selected es ps -> NoDup (paths (map Some es)) -> NoDup ps.
Proof.
  induction 1 as [|ent es ps Hn Hs IH|ent path es ps Hw Hs IH]; intros H; [constructor|..].
  - inversion H; subst. auto.
  - inversion H as [|x l Hx Hl]; subst. constructor; [|auto]. intros Hin.
    apply (proj1 (selected_in _ _ Hs path)) in Hin as (e & He & Hw').
    apply Hx. apply in_paths. exists (e_dir e). destruct Hw as (_ & _ & Hp & _), Hw' as (_ & _ & Hp' & _).
    rewrite Hp, <- Hp'. apply in_map_iff. exists e. destruct e. auto.
Qed.
Lemma found_unique base n p m1 : found base n p m1 -> named n -> forall m2, found base n p m2 -> m1 = m2.
Proof.
  induction 1 as [base n|base cs name c p m Hc Hf IH]; intros Hn m2 F2.
  - inversion F2 as [|? cs name c ? ? Hc Hf]; subst; [reflexivity|]. exfalso.
    inversion Hn as [| |cs' Hg Hd]; subst. destruct (Hg name c Hc) as (G1 & _ & G3).
    destruct (found_longer _ _ _ _ Hf G3) as (x & E). destruct (join_longer base name G1) as (y & Hy & E2).
    rewrite E2, <- app_assoc in E. rewrite <- (app_nil_r base) in E at 1. apply app_inv_head in E.
    symmetry in E. apply app_eq_nil in E as [E _]. contradiction.
  - inversion Hn as [| |cs' Hg Hd]; subst. destruct (Hg name c Hc) as (G1 & G2 & G3).
    inversion F2 as [|? ? name2 c2 ? ? Hc2 Hf2]; subst.
    + exfalso. destruct (found_longer _ _ _ _ Hf G3) as (x & E). destruct (join_longer p name G1) as (y & Hy & E2).
      rewrite E2, <- app_assoc in E. rewrite <- (app_nil_r p) in E at 1. apply app_inv_head in E.
      symmetry in E. apply app_eq_nil in E as [E _]. contradiction.
    + destruct (Hg name2 c2 Hc2) as (B1 & B2 & B3).
      pose proof (same_name base name c name2 c2 p m m2 G1 G2 G3 B1 B2 B3 Hf Hf2) as E. subst name2.
      assert (E : c = c2).
      { apply in_split in Hc as (l1 & l2 & ->). apply in_app_or in Hc2 as [H|[H|H]].
        - apply in_split in H as (l3 & l4 & ->). exfalso. apply (Hd l3 l4 l2 name c2 c). rewrite <- app_assoc. reflexivity.
        - congruence.
        - apply in_split in H as (l3 & l4 & ->). exfalso. exact (Hd l1 l3 l4 name c c2 eq_refl). }
      subst c2. apply IH; assumption.
Qed.
Lemma wanted_elm dir n ent p : named n -> In (Some ent) (walk_node (encode dir) n) ->
  (wanted ent p <-> e_path ent = encode p /\ exists m, elm_file dir n p m).
Proof.
  destruct ent as [q d]. intros Hn Hin. unfold wanted, elm_file. cbn [e_path e_dir].
  apply walk_iff in Hin as (m & Hm & Hd). split.
  - intros (-> & He & -> & Hs). split; [reflexivity|]. exists m. auto.
  - intros (-> & m' & Hm' & Hs & Hd' & He). rewrite (found_unique _ _ _ _ Hm Hn _ Hm') in Hd. subst d. auto.
Qed.
Lemma elm_wanted dir n p m : elm_file dir n p m ->
  exists ent, In (Some ent) (walk_node (encode dir) n) /\ wanted ent p.
Proof.
  intros (Hf & Hs & Hd & He). exists (mkEntry (encode p) false). split; [apply walk_iff; eauto|]. repeat split; assumption.
Qed.
Lemma fails_readable w dir n p m msg : mounted w dir n -> found (encode dir) n (encode p) m ->
  fails_to_read w p msg -> ~ readable m.
Proof.
  intros (_ & _ & Hdisk) Hf Hm (s & Hs & Hsc).
  assert (Ht : has_text w p s) by (split; [rewrite (Hdisk p m Hf); exact Hs|exact Hsc]).
  apply contents_text in Ht. apply contents_fails in Hm. congruence.
Qed.
Lemma some_prefix (l : list (option entry)) es rest : l = map Some es ++ rest ->
  (forall ent, In ent es -> In (Some ent) l).
Proof. intros -> ent H. apply in_or_app. left. apply in_map. exact H. Qed.

(** Whatever happens, the messages are the reports on different Elm files of the tree. *)
Theorem dump_tree w dir n quiet : mounted w dir n -> named n ->
  exists ps ms e, dump_main w (Some dir) quiet = (ms, e) /\ Forall2 (report w quiet) ps ms /\ NoDup ps /\
    (forall p, In p ps -> exists m, elm_file dir n p m) /\
    (e = Returned \/ exists p m msg, elm_file dir n p m /\ ~ readable m /\ fails_to_read w p msg /\ e = Panicked msg) /\
    (e = Returned -> listed n -> forall p m, elm_file dir n p m -> In p ps).
Proof.
  intros Hm Hn. pose proof Hm as (Hd & Hw & Hdisk). cbn [dump_main]. rewrite Hd.
  destruct (dump_directory w (walk w dir) quiet) as [ms e] eqn:E. rewrite Hw in E.
  apply dump_directory_iff in E as (es & rest & ps & E & Hs & Hr & He). exists ps, ms, e.
  pose proof (some_prefix _ _ _ E) as Hin.
  split; [reflexivity|]. split; [exact Hr|]. split.
  { apply (selected_NoDup es); [exact Hs|]. pose proof (walk_NoDup n Hn (encode dir)) as H.
    rewrite E, paths_app in H. clear -H. induction (paths (map Some es)) as [|x l IH]; [constructor|].
    inversion H as [|y l' Hy Hl]; subst. constructor; [|auto]. intros Hx. apply Hy, in_or_app. left. exact Hx. }
  split.
  { intros p Hp. apply (proj1 (selected_in _ _ Hs p)) in Hp as (ent & He' & Hwa).
    apply (wanted_elm dir n ent p Hn (Hin ent He')) in Hwa as [_ H]. exact H. }
  split.
  - destruct He as [|rest|ent path m rest Hwa Hf]; [left; reflexivity|left; reflexivity|]. right.
    assert (Hent : In (Some ent) (walk_node (encode dir) n)).
    { rewrite E. apply in_or_app. right. left. reflexivity. }
    apply (wanted_elm dir n ent path Hn Hent) in Hwa as [_ (nd & Hel)].
    exists path, nd, m. split; [exact Hel|]. split; [|auto]. eapply fails_readable; [exact Hm|apply Hel|exact Hf].
  - intros -> Hl p m Hel. apply elm_wanted in Hel as (ent & Hent & Hwa). apply (selected_in _ _ Hs).
    exists ent. split; [|exact Hwa]. rewrite E in Hent. apply in_app_or in Hent as [H|H].
    + apply in_map_iff in H as (ent' & [= ->] & H). exact H.
    + exfalso. inversion He as [E1|rest' E1|]; subst; [destruct H|].
      apply (walk_listed n Hl (encode dir)). rewrite E. apply in_or_app. right. left. reflexivity.
Qed.

(** ** A world with one directory *)

(** the files of a tree, by path *)
Fixpoint table (path : list N) (n : node) : list (list N * opened) :=
  match n with
  | DirNode cs =>
      (path, Unreadable) :: flat_map (fun c => match c with
                                               | Some (name, m) => table (join path name) m
                                               | None => []
                                               end) cs
  | _ => [(path, data n)]
  end.
Definition world_of (dir : str) (n : node) : world :=
  mkWorld
    (fun p => match find (fun '(q, _) => str_eqb q (encode p)) (table (encode dir) n) with
              | Some (_, o) => o
              | None => NotFound
              end)
    (fun p => if str_eqb p dir then Some true else None)
    (fun p => if str_eqb p dir then walk_node (encode dir) n else [None]).
Lemma in_table n : forall base p o, In (p, o) (table base n) <-> exists m, found base n p m /\ data m = o.
Proof.
  induction n as [o0|o0 d0|cs IH] using node_ind'; intros base p o.
  - split.
    + intros [[= <- <-]|[]]. eexists. split; [apply found_here|reflexivity].
    + intros (m & H & <-). inversion H; subst. left. reflexivity.
  - split.
    + intros [[= <- <-]|[]]. eexists. split; [apply found_here|reflexivity].
    + intros (m & H & <-). inversion H; subst. left. reflexivity.
  - cbn [table]. split.
    + intros [[= <- <-]|H]; [eexists; split; [apply found_here|reflexivity]|].
      apply in_flat_map in H as ([[name c]|] & Hc & H); [|destruct H].
      apply (IH name c Hc) in H as (m & Hm & Hd). exists m. split; [|exact Hd]. eapply found_below; eassumption.
    + intros (m & H & Hd). inversion H as [|? ? name c ? ? Hc Hm]; subst; [left; reflexivity|].
      right. apply in_flat_map. exists (Some (name, c)). split; [exact Hc|]. apply (IH name c Hc). eauto.
Qed.
Lemma mounted_world_of dir n : named n -> mounted (world_of dir n) dir n.
Proof.
  intros Hn. assert (Hr : str_eqb dir dir = true) by (apply str_eqb_eq; reflexivity).
  unfold mounted, world_of. cbn [is_directory walk disk]. rewrite Hr. split; [reflexivity|]. split; [reflexivity|].
  intros p m Hf. destruct (find _ _) as [[q o]|] eqn:E.
  - apply find_some in E as [Hin Hq]. apply str_eqb_eq in Hq. subst q.
    apply in_table in Hin as (m' & Hf' & <-). rewrite (found_unique _ _ _ _ Hf Hn _ Hf'). reflexivity.
  - exfalso. pose proof (find_none _ _ E (encode p, data m)) as H. cbn in H.
    assert (Hp : str_eqb (encode p) (encode p) = true) by (apply str_eqb_eq; reflexivity).
    rewrite Hp in H. discriminate H. apply in_table. eauto.
Qed.
