(** * Specification and proofs for the command-line tools *)
From Verif Require Import Base Nom Ast Good Spec Utf8 Stmt Total Layout Front Grammar SoundS Wf Fail Errors Cli.

Lemma rsplit_Some x p a b : rsplit x p = Some (a, b) <-> p = a ++ x :: b /\ ~ In x b.
Proof.
  revert a b. induction p as [|c p IH]; intros a b.
  { split; [discriminate|]. intros [E _]. destruct a; discriminate E. }
  cbn [rsplit]. destruct (rsplit x p) as [[a' b']|] eqn:E.
  - destruct (proj1 (IH a' b') eq_refl) as [-> Hb]. split.
    + intros [= <- <-]. auto.
    + intros [H Hx]. destruct a as [|d a].
      * injection H as -> <-. exfalso. apply Hx. apply in_or_app. right. left. reflexivity.
      * injection H as <- H. assert (Hs : Some (a', b') = Some (a, b)) by (apply IH; auto).
        injection Hs as -> ->. reflexivity.
  - destruct (N.eqb_spec c x) as [->|Hc].
    + split.
      * intros [= <- <-]. split; [reflexivity|]. intros Hx. apply in_split in Hx as (l1 & l2 & ->).
        clear -E. induction l1 as [|d l1 IH']; simpl in E.
        -- destruct (rsplit x l2) as [[? ?]|]; [discriminate|]. rewrite N.eqb_refl in E. discriminate.
        -- destruct (rsplit x (l1 ++ x :: l2)) as [[? ?]|]; [discriminate|]. auto.
      * intros [H Hx]. destruct a as [|d a].
        -- injection H as <-. reflexivity.
        -- injection H as <- ->. assert (Hs : None = Some (a, b)) by (apply IH; auto). discriminate Hs.
    + split; [discriminate|]. intros [H Hx]. destruct a as [|d a].
      * injection H as -> _. congruence.
      * injection H as _ ->. assert (Hs : None = Some (a, b)) by (apply IH; auto). discriminate Hs.
Qed.

Lemma rsplit_None x p : rsplit x p = None <-> ~ In x p.
Proof.
  split.
  - intros H Hx. assert (Hl : exists a b, p = a ++ x :: b /\ ~ In x b).
    { clear H. induction p as [|c p IH]; [contradiction|].
      destruct (in_dec N.eq_dec x p) as [Hp|Hp].
      - destruct (IH Hp) as (a & b & -> & Hb). exists (c :: a), b. auto.
      - destruct Hx as [->|Hx]; [|contradiction]. exists [], p. auto. }
    destruct Hl as (a & b & Hl). apply rsplit_Some in Hl. congruence.
  - intros H. destruct (rsplit x p) as [[a b]|] eqn:E; [|reflexivity].
    apply rsplit_Some in E as [-> _]. exfalso. apply H, in_or_app. right. left. reflexivity.
Qed.

(** ** Which paths are Elm files *)

(** [dir/stem.elm] or [stem.elm], where the stem is not empty (".elm" is a
    hidden file without extension) *)
Definition elm_path (p : list N) : Prop :=
  exists dir stem, p = dir ++ stem ++ L ".elm" /\ (dir = [] \/ exists d, dir = d ++ L "/") /\
    stem <> [] /\ ~ In (C "/") stem.

Lemma in_elm x : In x (L ".elm") -> x <> C "/".
Proof. intros H ->. repeat (destruct H as [H|H]; [discriminate H|]). exact H. Qed.

Lemma file_name_iff p n : file_name p = n <->
  exists dir, p = dir ++ n /\ (dir = [] \/ exists d, dir = d ++ L "/") /\ ~ In (C "/") n.
Proof.
  unfold file_name. destruct (rsplit (C "/") p) as [[a b]|] eqn:E.
  - apply rsplit_Some in E as [-> Hb]. split.
    + intros <-. exists (a ++ L "/"). split; [rewrite <- app_assoc; reflexivity|]. split; [right; eauto|exact Hb].
    + intros (dir & H & Hd & Hn). destruct Hd as [->|(d & ->)].
      * simpl in H. exfalso. apply Hn. rewrite <- H. apply in_or_app. right. left. reflexivity.
      * assert (Hs : Some (a, b) = Some (d, n)).
        { rewrite <- (proj2 (rsplit_Some (C "/") (a ++ C "/" :: b) a b) (conj eq_refl Hb)).
          apply rsplit_Some. split; [|exact Hn]. rewrite H, <- app_assoc. reflexivity. }
        injection Hs as _ ->. reflexivity.
  - apply rsplit_None in E. split.
    + intros <-. exists []. auto.
    + intros (dir & -> & Hd & Hn). destruct Hd as [->|(d & ->)]; [reflexivity|].
      exfalso. apply E, in_or_app. left. apply in_or_app. right. left. reflexivity.
Qed.

Theorem extension_elm p : extension p = Some (L "elm") <-> elm_path p.
Proof.
  unfold extension. set (n := file_name p).
  destruct (proj1 (file_name_iff p n) eq_refl) as (dir & Hp & Hd & Hn). clearbody n. split.
  - destruct (str_eqb n (L "..")) eqn:E; [discriminate|].
    destruct (rsplit (C ".") n) as [[a b]|] eqn:E2; [|discriminate]. destruct a as [|c a]; [discriminate|].
    intros [= ->]. apply rsplit_Some in E2 as [-> _]. exists dir, (c :: a). split; [exact Hp|].
    split; [exact Hd|]. split; [discriminate|]. intros H. apply Hn, in_or_app. left. exact H.
  - intros (dir' & stem & Hp' & Hd' & Hne & Hs).
    assert (En : n = stem ++ L ".elm").
    { transitivity (file_name p); [symmetry|]; apply file_name_iff.
      - exists dir. auto.
      - exists dir'. split; [exact Hp'|]. split; [exact Hd'|]. intros H.
        apply in_app_or in H as [H|H]; [exact (Hs H)|exact (in_elm _ H eq_refl)]. }
    destruct (str_eqb n (L "..")) eqn:E.
    { apply str_eqb_eq in E. exfalso. rewrite E in En. destruct stem as [|? [|? [|? stem]]]; discriminate En. }
    assert (E2 : rsplit (C ".") n = Some (stem, L "elm")).
    { apply rsplit_Some. split; [exact En|]. intros H. repeat (destruct H as [H|H]; [discriminate H|]). exact H. }
    rewrite E2. destruct stem; [congruence|reflexivity].
Qed.

(** ** Reading a file *)

(** the file [path] holds the UTF-8 encoding of the text [s] *)
Definition has_text (w : world) (path s : str) : Prop :=
  disk w path = Bytes (encode s) /\ Forall scalar s.

(** opening or reading the file fails, with that message *)
Definition fails_to_read (w : world) (path m : str) : Prop :=
  (disk w path = NotFound /\ m = not_found) \/
  (disk w path = Unreadable /\ m = cannot_read) \/
  (exists bs, disk w path = Bytes bs /\ ~ (exists s, Forall scalar s /\ bs = encode s) /\ m = cannot_read).

Lemma contents_text w path s : contents w path = inl s <-> has_text w path s.
Proof.
  unfold contents, has_text. destruct (disk w path) as [| |bs].
  - split; [discriminate|]. intros [H _]. discriminate H.
  - split; [discriminate|]. intros [H _]. discriminate H.
  - split.
    + destruct (decode bs) as [s'|] eqn:E; [|discriminate]. intros [= ->].
      apply decode_iff in E as [Hs ->]. auto.
    + intros [[= ->] Hs]. rewrite (proj2 (decode_iff (encode s) s) (conj Hs eq_refl)). reflexivity.
Qed.

Lemma contents_fails w path m : contents w path = inr m <-> fails_to_read w path m.
Proof.
  unfold contents, fails_to_read. destruct (disk w path) as [| |bs].
  - split; [intros [= <-]; auto|]. intros [[_ ->]|[[H _]|(bs & H & _)]]; [reflexivity|discriminate H..].
  - split; [intros [= <-]; auto|]. intros [[H _]|[[_ ->]|(bs & H & _)]]; [discriminate H|reflexivity|discriminate H].
  - split.
    + destruct (decode bs) as [s'|] eqn:E; [discriminate|]. intros [= <-]. right. right. exists bs.
      split; [reflexivity|]. split; [|reflexivity]. intros (s & H). apply decode_iff in H. congruence.
    + intros [[H _]|[[H _]|(bs' & [= <-] & H & ->)]]; [discriminate H..|].
      destruct (decode bs) as [s'|] eqn:E; [|reflexivity]. exfalso. apply H. exists s'. apply decode_iff, E.
Qed.

Lemma read_or_fails w path : (exists s, has_text w path s) \/ (exists m, fails_to_read w path m).
Proof.
  destruct (contents w path) as [s|m] eqn:E; [left; exists s; apply contents_text, E|].
  right. exists m. apply contents_fails, E.
Qed.

(** ** elm-parser-dump *)

(** the message printed for a readable file *)
Inductive report (w : world) (quiet : bool) (path : str) : message -> Prop :=
| report_ok s sts : has_text w path s -> file s = Ok [] sts ->
    report w quiet path (if quiet then ParsedSuccessfully path else ShowAst sts)
| report_error s r k : has_text w path s -> file_e s = EError r k ->
    report w quiet path (if quiet then FailedToParse path else ShowError r k).

Theorem dump_file_iff w path quiet ms e : dump_file w path quiet = (ms, e) <->
  (exists m, report w quiet path m /\ ms = [m] /\ e = Returned) \/
  (exists m, fails_to_read w path m /\ ms = [] /\ e = Panicked m).
Proof.
  unfold dump_file. destruct (contents w path) as [s|m] eqn:E.
  - apply contents_text in E.
    assert (Hn : forall m, ~ fails_to_read w path m).
    { intros m H. apply contents_fails in H. apply contents_text in E. congruence. }
    destruct (file_e_total s) as [(sts & H)|(r & k & H)]; rewrite H; cbn [show_result]; split.
    + intros [= <- <-]. left. eexists. apply file_ok in H. split; [eapply report_ok; eassumption|auto].
    + intros [(m & Hr & -> & ->)|(m & Hr & _)]; [|destruct (Hn m Hr)].
      destruct Hr as [s' sts' Ht Hf|s' r k Ht Hf]; try apply file_ok in Hf; apply contents_text in E, Ht;
        rewrite E in Ht; injection Ht as <-; rewrite H in Hf; [injection Hf as <-; reflexivity|discriminate Hf].
    + intros [= <- <-]. left. eexists. split; [eapply report_error; eassumption|auto].
    + intros [(m & Hr & -> & ->)|(m & Hr & _)]; [|destruct (Hn m Hr)].
      destruct Hr as [s' sts' Ht Hf|s' r' k' Ht Hf]; try apply file_ok in Hf; apply contents_text in E, Ht;
        rewrite E in Ht; injection Ht as <-; rewrite H in Hf; [discriminate Hf|injection Hf as <- <-; reflexivity].
  - split.
    + intros [= <- <-]. right. exists m. split; [apply contents_fails, E|auto].
    + intros [(m' & Hr & _)|(m' & Hr & -> & ->)].
      * destruct Hr as [s' sts' Ht Hf|s' r k Ht Hf]; apply contents_text in Ht; congruence.
      * apply contents_fails in Hr. congruence.
Qed.

(** the entry is to be parsed, under the name [path] *)
Definition wanted (ent : entry) (path : str) : Prop :=
  e_dir ent = false /\ elm_path (e_path ent) /\ e_path ent = encode path /\ Forall scalar path.

(** the names of the entries to be parsed, in order *)
Inductive selected : list entry -> list str -> Prop :=
| selected_nil : selected [] []
| selected_skip ent es ps : (forall path, ~ wanted ent path) -> selected es ps ->
    selected (ent :: es) ps
| selected_take ent path es ps : wanted ent path -> selected es ps ->
    selected (ent :: es) (path :: ps).

Lemma wanted_iff ent path : wanted ent path <->
  e_dir ent = false /\ extension (e_path ent) = Some (L "elm") /\ decode (e_path ent) = Some path.
Proof.
  unfold wanted. rewrite extension_elm, decode_iff. tauto.
Qed.

Lemma dump_entry_wanted w ent path quiet : wanted ent path ->
  dump_entry w ent quiet = dump_file w path quiet.
Proof.
  intros H. apply wanted_iff in H as (H1 & H2 & H3). unfold dump_entry. rewrite H1, H2, H3. reflexivity.
Qed.

Lemma dump_entry_other w ent quiet : (forall path, ~ wanted ent path) ->
  dump_entry w ent quiet = ([], Returned).
Proof.
  intros H. unfold dump_entry. destruct (e_dir ent) eqn:E1; [reflexivity|].
  destruct (extension (e_path ent)) as [x|] eqn:E2; [|reflexivity].
  destruct (str_eqb x (L "elm")) eqn:E3; [|reflexivity]. apply str_eqb_eq in E3. subst x.
  destruct (decode (e_path ent)) as [path|] eqn:E4; [|reflexivity].
  exfalso. apply (H path). apply wanted_iff. auto.
Qed.

Lemma wanted_dec ent : (exists path, wanted ent path) \/ (forall path, ~ wanted ent path).
Proof.
  destruct (e_dir ent) eqn:E1; [right; intros p H; apply wanted_iff in H as (H & _); congruence|].
  destruct (extension (e_path ent)) as [x|] eqn:E2;
    [|right; intros p H; apply wanted_iff in H as (_ & H & _); congruence].
  destruct (str_eqb x (L "elm")) eqn:E3.
  2:{ right. intros p H. apply wanted_iff in H as (_ & H & _). assert (x = L "elm") by congruence.
      apply str_eqb_eq in H0. congruence. }
  apply str_eqb_eq in E3. subst x.
  destruct (decode (e_path ent)) as [path|] eqn:E4.
  - left. exists path. apply wanted_iff. auto.
  - right. intros p H. apply wanted_iff in H as (_ & _ & H). congruence.
Qed.

(** how the traversal ends: at its end, at an error, or at a file that cannot be read *)
Inductive stops (w : world) : list (option entry) -> ending -> Prop :=
| stops_end : stops w [] Returned
| stops_error rest : stops w (None :: rest) Returned
| stops_panic ent path m rest : wanted ent path -> fails_to_read w path m ->
    stops w (Some ent :: rest) (Panicked m).

Lemma wanted_unique ent p p' : wanted ent p -> wanted ent p' -> p = p'.
Proof. intros H H'. apply wanted_iff in H as (_ & _ & H), H' as (_ & _ & H'). congruence. Qed.

Theorem dump_directory_iff w quiet entries ms e : dump_directory w entries quiet = (ms, e) <->
  exists es rest paths, entries = map Some es ++ rest /\ selected es paths /\
    Forall2 (report w quiet) paths ms /\ stops w rest e.
Proof.
  revert ms e. induction entries as [|[ent|] entries IH]; intros ms e.
  - split.
    + intros [= <- <-]. exists [], [], []. repeat split; constructor.
    + intros (es & rest & ps & E & Hs & Hr & He). destruct es; [|discriminate E]. simpl in E. subst rest.
      inversion Hs; subst. inversion Hr; subst. inversion He; subst. reflexivity.
  - cbn [dump_directory]. destruct (dump_directory w entries quiet) as [ms' e'] eqn:Ed.
    destruct (wanted_dec ent) as [(path & Hw)|Hw].
    + rewrite (dump_entry_wanted w ent path quiet Hw).
      destruct (dump_file w path quiet) as [m1 e1] eqn:Ef. pose proof Ef as Ef'.
      apply dump_file_iff in Ef' as [(m & Hm & -> & ->)|(m & Hm & -> & ->)]; cbn [and_then app].
      * split.
        -- intros [= <- <-]. destruct (proj1 (IH ms' e') eq_refl) as (es & rest & ps & -> & Hs & Hr & He).
           exists (ent :: es), rest, (path :: ps). split; [reflexivity|].
           split; [apply selected_take; assumption|]. split; [constructor; assumption|exact He].
        -- intros (es & rest & ps & E & Hs & Hr & He). destruct es as [|ent' es].
           { simpl in E. subst rest. inversion He as [| |ent' path' m' rest' Hw' Hf]; subst.
             rewrite (wanted_unique _ _ _ Hw' Hw) in Hf.
             assert (H : dump_file w path quiet = ([], Panicked m')).
             { apply dump_file_iff. right. eauto. } congruence. }
           injection E as <- E. inversion Hs as [|x y z Hn|x p' y ps' Hw' Hs']; subst.
           { destruct (Hn path Hw). }
           inversion Hr as [|x m' y ms'' Hm' Hr']; subst.
           rewrite (wanted_unique _ _ _ Hw' Hw) in Hm'.
           assert (H : dump_file w path quiet = ([m'], Returned)).
           { apply dump_file_iff. left. eauto. }
           rewrite Ef in H. injection H as <-.
           assert (H : (ms', e') = (ms'', e)).
           { apply IH. exists es, rest, ps'. auto. }
           injection H as -> ->. reflexivity.
      * split.
        -- intros [= <- <-]. exists [], (Some ent :: entries), []. split; [reflexivity|].
           split; [constructor|]. split; [constructor|]. eapply stops_panic; eassumption.
        -- intros (es & rest & ps & E & Hs & Hr & He). destruct es as [|ent' es].
           { simpl in E. subst rest. inversion Hs; subst. inversion Hr; subst.
             inversion He as [| |ent' path' m' rest' Hw' Hf]; subst.
             rewrite (wanted_unique _ _ _ Hw' Hw) in Hf.
             assert (H : dump_file w path quiet = ([], Panicked m')).
             { apply dump_file_iff. right. eauto. } congruence. }
           injection E as <- E. inversion Hs as [|x y z Hn|x p' y ps' Hw' Hs']; subst.
           { destruct (Hn path Hw). }
           inversion Hr as [|x m' y ms'' Hm' Hr']; subst.
           rewrite (wanted_unique _ _ _ Hw' Hw) in Hm'.
           assert (H : dump_file w path quiet = ([m'], Returned)).
           { apply dump_file_iff. left. eauto. } congruence.
    + rewrite (dump_entry_other w ent quiet Hw). cbn [and_then app]. split.
      * intros [= <- <-]. destruct (proj1 (IH ms' e') eq_refl) as (es & rest & ps & -> & Hs & Hr & He).
        exists (ent :: es), rest, ps. split; [reflexivity|]. split; [apply selected_skip; assumption|auto].
      * intros (es & rest & ps & E & Hs & Hr & He). destruct es as [|ent' es].
        { simpl in E. subst rest. inversion He as [| |ent' path' m' rest' Hw' Hf]; subst. destruct (Hw _ Hw'). }
        injection E as <- E. inversion Hs as [|x y z Hn Hs'|x p' y ps' Hw' Hs']; subst; [|destruct (Hw _ Hw')].
        apply IH. exists es, rest, ps. auto.
  - cbn [dump_directory]. split.
    + intros [= <- <-]. exists [], (None :: entries), []. repeat split; constructor.
    + intros (es & rest & ps & E & Hs & Hr & He). destruct es; [|discriminate E]. simpl in E. subst rest.
      inversion Hs; subst. inversion Hr; subst. inversion He; subst. reflexivity.
Qed.

(** ** elm-parser-check *)

(** the function and operator names of an exposing list, types left out *)
Definition item_names (items : list export_set) : list str :=
  flat_map (fun i => match i with FunctionExport n => [n] | _ => [] end) items.

(** the exposing list of an import, if it is not "(..)" *)
Definition import_items (st : statement_ast) : list export_set :=
  match st with
  | ImportStatement _ _ (Some (SubsetExport items)) => items
  | _ => []
  end.

Lemma items_imports items : Forall wf_item items ->
  flat_map get_export_set_imports items = item_names items.
Proof.
  induction 1 as [|i items Hi _ IH]; [reflexivity|]. unfold item_names. cbn [flat_map].
  rewrite IH. destruct Hi; reflexivity.
Qed.

Theorem imported_names_wf sts : Forall wf_statement sts ->
  get_imported_names sts = item_names (flat_map import_items sts).
Proof.
  induction 1 as [|st sts Hst _ IH]; [reflexivity|].
  unfold get_imported_names in *. cbn [flat_map]. rewrite IH.
  unfold item_names. rewrite flat_map_app. f_equal.
  destruct Hst as [| | |q al ex Hq Ha He| | | | | | |]; try reflexivity.
  destruct ex as [e|]; [|reflexivity]. destruct He as [|es Hne He]; [reflexivity|].
  cbn [get_export_set_imports import_items]. apply items_imports, He.
Qed.

Theorem check_main_iff w program filename args ms e :
  check_main w (program :: filename :: args) = (ms, e) <->
  (exists s sts, has_text w filename s /\ file s = Ok [] sts /\
     ms = [ShowNames (item_names (flat_map import_items sts))] /\ e = Returned) \/
  (exists s r k, has_text w filename s /\ file_e s = EError r k /\ ms = [ShowError r k] /\ e = Returned) \/
  (exists m, fails_to_read w filename m /\ ms = [] /\ e = Panicked m).
Proof.
  assert (Hnames : forall s sts, file s = Ok [] sts ->
            get_imported_names sts = item_names (flat_map import_items sts)).
  { intros s sts H. apply imported_names_wf. apply file_sound in H as [_ H]. apply wf_GFile in H. apply H. }
  cbn [check_main]. destruct (contents w filename) as [s|m] eqn:E.
  - apply contents_text in E.
    assert (Hu : forall s', has_text w filename s' -> s' = s).
    { intros s' H. apply contents_text in H, E. congruence. }
    assert (Hn : forall m, ~ fails_to_read w filename m).
    { intros m H. apply contents_fails in H. apply contents_text in E. congruence. }
    destruct (file_e_total s) as [(sts & H)|(r & k & H)]; rewrite H; cbn [show_result]; split.
    + apply file_ok in H. intros [= <- <-]. left. exists s, sts. rewrite (Hnames s sts H). auto.
    + intros [(s' & sts' & Ht & Hf & -> & ->)|[(s' & r & k & Ht & Hf & _)|(m & Hm & _)]].
      * apply file_ok in H. rewrite (Hu s' Ht) in Hf. assert (sts' = sts) by congruence. subst. rewrite (Hnames s sts H). reflexivity.
      * rewrite (Hu s' Ht) in Hf. congruence.
      * destruct (Hn m Hm).
    + intros [= <- <-]. right. left. exists s, r, k. auto.
    + intros [(s' & sts' & Ht & Hf & -> & ->)|[(s' & r' & k' & Ht & Hf & -> & ->)|(m & Hm & _)]].
      * apply file_ok in Hf. rewrite (Hu s' Ht) in Hf. congruence.
      * rewrite (Hu s' Ht) in Hf. congruence.
      * destruct (Hn m Hm).
  - split.
    + intros [= <- <-]. right. right. exists m. split; [apply contents_fails, E|auto].
    + intros [(s' & sts' & Ht & _)|[(s' & r & k & Ht & _)|(m' & Hm & -> & ->)]].
      * apply contents_text in Ht. congruence.
      * apply contents_text in Ht. congruence.
      * apply contents_fails in Hm. congruence.
Qed.
