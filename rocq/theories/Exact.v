(** * Exposing lists, module headers and imports: the exact texts *)
From Verif Require Import Base Nom Regex Ast Good Spec Helpers Types Expr Stmt Lexers Total
  Layout Seqs Grammar Follow Sound SoundE SoundS LexProps Heads Rules Render CompleteT CompleteE
  CompleteX CompleteS Round Language Chains.

Lemma opt_sp_lay i s r o : opt_sp i s = Ok r o -> (exists t, s = t ++ r /\ olay i t) \/ r = [].
Proof.
  intros H. unfold opt_sp in H. apply opt_Ok in H as [(n & H & ->)|(_ & -> & ->)].
  - apply sp_lay in H as [(t & -> & Ht)| ->]; [left|right; reflexivity]. exists t. split; [reflexivity|].
    right. exists n. exact Ht.
  - left. exists []. split; [reflexivity|left; reflexivity].
Qed.

Lemma opt_sn_Ok s r o : opt spaces_and_newlines s = Ok r o -> exists b, s = b ++ r /\ ospnl b.
Proof.
  intros H. apply opt_Ok in H as [(n & H & ->)|(_ & -> & ->)].
  - apply sn_iff in H as (-> & [_ Hb] & _). exists n. auto.
  - exists []. split; reflexivity.
Qed.

Definition opens (r : str) : Prop := exists r', r = C "(" :: r'.

Lemma constructors_Ok s cs r : seps (tag (L ", ")) (map_ FunctionExport up_name) s cs r ->
  exists ns, cs = map FunctionExport ns /\ Forall upper_name ns /\
    s = concat (map (fun n => L ", " ++ n) ns) ++ r.
Proof.
  induction 1 as [s Hst|s s2 x s3 a l r Hs _ Hp _ _ (ns & -> & Hns & ->)].
  - exists []. repeat split. constructor.
  - apply tag_Ok in Hs as [-> _]. apply map_Ok in Hp as (n & Hn & ->).
    apply up_name_iff in Hn as (-> & Hn & _). exists (n :: ns). split; [reflexivity|].
    split; [constructor; assumption|]. cbn [map concat]. rewrite <- !app_assoc. reflexivity.
Qed.

Lemma item_Ok s r e : item s = Ok r e -> RExportItem e s r \/ opens r.
Proof.
  intros H. apply alt_Ok in H as [H|[_ H]].
  - left. apply map_Ok in H as (n & H & ->). apply alt_Ok in H as [H|[_ H]].
    + apply map_Ok in H as (n' & H & ->). apply lo_name_iff in H as (-> & Hn & Hr).
      apply RExport_function; assumption.
    + apply delimited_Ok in H as (s1 & a & s2 & d & H1 & H2 & H3). apply char_Ok in H1 as [-> _].
      apply operator_iff in H2 as (-> & Ho & _). apply char_Ok in H3 as [-> _].
      apply (RExport_operator n r Ho).
  - apply bind_Ok in H as (s1 & n & Hn & H). apply bind_Ok in H as (s2 & c & Hc & H).
    apply ret_Ok in H as [-> ->]. apply up_name_iff in Hn as (-> & Hn & Hs1).
    apply opt_Ok in Hc as [(c' & Hc & ->)|(Hc & -> & ->)].
    + left. apply delimited_Ok in Hc as (s3 & a & s4 & d & H1 & H2 & H3).
      apply char_Ok in H1 as [-> _]. apply char_Ok in H3 as [-> _].
      apply alt_Ok in H2 as [H2|[_ H2]].
      * apply map_Ok in H2 as (x & H2 & ->). apply tag_Ok in H2 as [-> _].
        apply (RExport_type_all n s2 Hn).
      * apply map_Ok in H2 as (x & H2 & ->).
        apply separated_nonempty_list_Ok in H2 as (m & l & s5 & -> & Hm & _ & Hl).
        apply map_Ok in Hm as (m' & Hm & ->). apply up_name_iff in Hm as (-> & Hm & _).
        apply constructors_Ok in Hl as (ns & -> & Hns & ->).
        assert (E : n ++ C "(" :: m' ++ concat (map (fun n => L ", " ++ n) ns) ++ C ")" :: s2 =
                    n ++ L "(" ++ join (L ", ") (m' :: ns) ++ L ")" ++ s2).
        { rewrite join_concat, <- app_assoc. reflexivity. }
        rewrite E. apply (RExport_type_some n (m' :: ns) s2 Hn). split; [discriminate|constructor; assumption].
    + destruct s1 as [|d s1]; [left; apply RExport_type; [exact Hn|exact I]|].
      destruct (N.eqb_spec d (C "(")) as [->|Hd]; [right; exists s1; reflexivity|left].
      apply RExport_type; [exact Hn|]. cbn [ends] in *. rewrite Hs1. apply N.eqb_neq, Hd.
Qed.

Lemma item_sep_Ok s r x : item_sep s = Ok r x ->
  exists b1 b2, s = b1 ++ L "," ++ b2 ++ r /\ ospnl b1 /\ ospnl b2.
Proof.
  intros H. apply delimited_Ok in H as (s1 & a & s2 & d & H1 & H2 & H3).
  apply opt_sn_Ok in H1 as (b1 & -> & H1). apply char_Ok in H2 as [-> _].
  apply opt_sn_Ok in H3 as (b2 & -> & H3). exists b1, b2. auto.
Qed.

Lemma items_Ok s1 es r : seps item_sep item s1 es r -> forall s e, item s = Ok s1 e -> ~ opens r ->
  RExportItems (e :: es) s r.
Proof.
  induction 1 as [s1 Hst|s1 s2 x s3 a l r Hs _ Hp _ _ IH]; intros s e He Hr.
  - apply item_Ok in He as [He|He]; [constructor; exact He|contradiction].
  - apply item_sep_Ok in Hs as (b1 & b2 & -> & H1 & H2).
    apply item_Ok in He as [He|(r' & He)].
    + econstructor; [exact He|exact H1|exact H2|]. apply IH; assumption.
    + exfalso. destruct b1 as [|c b1]; [discriminate He|]. injection He as -> _. discriminate H1.
Qed.

Theorem exports_iff s r e : exports s = Ok r e <-> RExports e s r.
Proof.
  split; [|apply complete_exports].
  intros H. unfold exports in H. apply delimited_Ok in H as (s1 & a & s2 & d & H1 & H2 & H3).
  apply preceded_Ok in H1 as (s0 & a0 & H0 & H1). apply char_Ok in H0 as [-> _].
  apply terminated_Ok in H3 as (s3 & b & H3 & H4). apply char_Ok in H4 as [-> _].
  apply opt_sp_lay in H3 as [(t2 & -> & Ht2)|H3]; [|discriminate H3].
  assert (Hne : s1 <> []).
  { intros ->. apply alt_Ok in H2 as [H2|[_ H2]]; discriminate H2. }
  apply opt_sp_lay in H1 as [(t1 & -> & Ht1)|H1]; [|contradiction].
  apply alt_Ok in H2 as [H2|[_ H2]].
  - apply map_Ok in H2 as (x & H2 & ->). apply tag_Ok in H2 as [-> _].
    apply (RExports_all t1 t2 r Ht1 Ht2).
  - apply map_Ok in H2 as (l & H2 & ->).
    apply separated_nonempty_list_Ok in H2 as (x & l' & s5 & -> & Hx & _ & Hl).
    apply (RExports_some t1 (x :: l') s1 t2 r Ht1); [|exact Ht2].
    eapply items_Ok; [exact Hl|exact Hx|]. intros (r' & E).
    destruct Ht2 as [->|(j & Ht & _)]; [discriminate E|].
    destruct Ht; discriminate E.
Qed.

(** ** Module headers *)

Lemma sp_gt0_lay s r j : sp_gt0 s = Ok r j -> r <> [] -> exists t, s = t ++ r /\ lay0 t.
Proof.
  intros H Hr. apply sp_lay in H as [(t & -> & Ht)|H]; [|contradiction].
  exists t. split; [reflexivity|]. exists j. exact Ht.
Qed.

Lemma tag_nonempty w s r a : w <> [] -> tag w s = Ok r a -> s = w ++ r /\ s <> [].
Proof. intros Hw H. apply tag_Ok in H as [-> _]. split; [reflexivity|]. destruct w; [congruence|discriminate]. Qed.

Lemma name_nonempty s r q : module_name s = Ok r q -> s = dotted q ++ r /\ qualified q /\ s <> [].
Proof.
  intros H. split; [apply module_name_iff in H; apply H|]. split; [apply module_name_iff in H; apply H|].
  intros ->. discriminate H.
Qed.

Lemma exports_nonempty s r e : exports s = Ok r e -> RExports e s r /\ s <> [].
Proof. intros H. split; [apply exports_iff, H|]. intros ->. discriminate H. Qed.

Ltac hdr := repeat match goal with
  | H : bind _ _ _ = Ok _ _ |- _ => let s := fresh "s" in let a := fresh "a" in let H' := fresh "H" in
      apply bind_Ok in H as (s & a & H' & H)
  | H : tag _ _ = Ok _ _ |- _ => apply tag_nonempty in H as [-> ?]; [|discriminate]
  | H : module_name _ = Ok _ _ |- _ => apply name_nonempty in H as (-> & ? & ?)
  | H : exports _ = Ok _ _ |- _ => apply exports_nonempty in H as [? ?]
  | H : ret _ _ = Ok _ _ |- _ => apply ret_Ok in H as [-> H]
  | H : sp_gt0 _ = Ok ?r _, Hn : ?r <> [] |- _ => apply sp_gt0_lay in H as (? & -> & ?); [|exact Hn]
  end.

Lemma module_Ok s r st : module_declaration s = Ok r st ->
  exists q e, st = ModuleDeclaration q e /\ RStmt st s r.
Proof.
  unfold module_declaration. intros H. hdr. subst st. do 2 eexists. split; [reflexivity|].
  apply RStmt_module; assumption.
Qed.

Lemma port_module_Ok s r st : port_module_declaration s = Ok r st ->
  exists q e, st = PortModuleDeclaration q e /\ RStmt st s r.
Proof.
  unfold port_module_declaration. intros H. hdr. subst st. do 2 eexists. split; [reflexivity|].
  apply RStmt_port_module; assumption.
Qed.

Lemma ospaces_Ok s r o : opt spaces s = Ok r o -> exists b, s = b ++ r /\ ospaces b.
Proof.
  intros H. apply opt_Ok in H as [(n & H & ->)|(_ & -> & ->)].
  - apply sound_spaces in H as (w & -> & -> & [_ Hb]). exists n. auto.
  - exists []. split; reflexivity.
Qed.

Lemma effect_field_Ok s r f : effect_field s = Ok r f -> REffectField f s r.
Proof.
  unfold effect_field. intros H. apply bind_Ok in H as (s1 & n & Hn & H).
  apply bind_Ok in H as (s2 & o1 & H1 & H). apply bind_Ok in H as (s3 & c & Hc & H).
  apply bind_Ok in H as (s4 & o2 & H2 & H). apply bind_Ok in H as (s5 & u & Hu & H).
  apply ret_Ok in H as [-> ->]. apply lo_name_iff in Hn as (-> & Hn & _).
  apply ospaces_Ok in H1 as (b1 & -> & H1). apply char_Ok in Hc as [-> _].
  apply ospaces_Ok in H2 as (b2 & -> & H2). apply up_name_iff in Hu as (-> & Hu & Hr).
  apply (REffectField_intro n b1 b2 u _); assumption.
Qed.

Lemma effect_fields_Ok s1 fs r : seps (tag (L ", ")) effect_field s1 fs r -> forall s f x,
  effect_field s = Ok s1 f -> r = L "}" ++ x -> REffectFields (f :: fs) s r.
Proof.
  induction 1 as [s1 Hst|s1 s2 y s3 a l r Hs _ Hp _ _ IH]; intros s f x Hf ->.
  - apply REffectFields_one, effect_field_Ok, Hf.
  - apply tag_Ok in Hs as [-> _]. eapply REffectFields_cons; [apply effect_field_Ok, Hf|discriminate|].
    eapply IH; [exact Hp|reflexivity].
Qed.

Lemma effect_module_Ok s r st : effect_module_declaration s = Ok r st ->
  exists q fs e, st = EffectModuleDeclaration q fs e /\ RStmt st s r.
Proof.
  unfold effect_module_declaration. intros H. hdr. subst st.
  match goal with H : delimited _ _ _ _ = _ |- _ =>
    apply delimited_Ok in H as (p1 & y1 & p2 & y2 & K1 & K2 & K3);
    apply char_Ok in K1 as [-> _]; apply char_Ok in K3 as [-> _] end.
  match goal with H : sp_gt0 _ = Ok (_ :: _) _ |- _ =>
    apply sp_gt0_lay in H as (? & -> & ?); [|discriminate] end.
  do 3 eexists. split; [reflexivity|].
  eapply RStmt_effect_module.
  6:{ apply separated_list_Ok in K2 as [(-> & E & _)|(f & l & s8 & -> & Hf & _ & Hl)].
      - rewrite <- E. apply REffectFields_nil.
      - eapply effect_fields_Ok; [exact Hl|exact Hf|reflexivity]. }
  all: assumption.
Qed.

(** ** Imports *)

Lemma import_Ok s r st : import_statement s = Ok r st ->
  exists q al ex, st = ImportStatement q al ex.
Proof. unfold import_statement. intros H. hdr. eauto. Qed.

Lemma keyword_Ok w s r x : delimited spaces (tag w) spaces s = Ok r x ->
  exists b1 b2, s = b1 ++ w ++ b2 ++ r /\ spaces1 b1 /\ spaces1 b2.
Proof.
  intros H. apply delimited_Ok in H as (s1 & a & s2 & d & H1 & H2 & H3).
  apply sound_spaces in H1 as (w1 & -> & -> & H1). apply tag_Ok in H2 as [-> _].
  apply sound_spaces in H3 as (w3 & -> & -> & H3). exists a, d. auto.
Qed.

Lemma alias_iff s n r :
  preceded (delimited spaces (tag (L "as")) spaces) up_name s = Ok r n <-> alias_text s n r.
Proof.
  split.
  - intros H. apply preceded_Ok in H as (s1 & x & H1 & H2).
    apply keyword_Ok in H1 as (b1 & b2 & -> & H1 & H3). apply up_name_iff in H2 as (-> & H2 & H4).
    exists b1, b2. auto.
  - intros (b1 & b2 & -> & H1 & H2 & Hn & Hr). eapply preceded_intro; [|apply up_name_intro; assumption].
    eapply delimited_intro; [apply spaces_intro; [exact H1|reflexivity]|apply tag_intro|].
    apply spaces_intro; [exact H2|]. destruct (upper_head n Hn) as (c & t & -> & Hc). cbn [app ends]. chr.
Qed.

Lemma exposing_iff s e r :
  preceded (delimited spaces (tag (L "exposing")) spaces) exports s = Ok r e <-> exposing_text s e r.
Proof.
  split.
  - intros H. apply preceded_Ok in H as (s1 & x & H1 & H2).
    apply keyword_Ok in H1 as (b1 & b2 & -> & H1 & H3). apply exports_iff in H2.
    exists b1, b2, s1. auto.
  - intros (b1 & b2 & s' & -> & H1 & H2 & He). eapply preceded_intro; [|apply exports_iff, He].
    eapply delimited_intro; [apply spaces_intro; [exact H1|reflexivity]|apply tag_intro|].
    apply spaces_intro; [exact H2|]. destruct He; reflexivity.
Qed.

Lemma optional_iff {A} (p : parser A) P s o r : ok 0 (S (length s)) p p ->
  (forall a r', p s = Ok r' a <-> P s a r') -> (opt p s = Ok r o <-> optional P s o r).
Proof.
  intros Ho Hp. split.
  - intros H. apply opt_Ok in H as [(a & H & ->)|(H & -> & ->)].
    + apply Hp, H.
    + split; [reflexivity|]. intros a r' Ha. apply Hp in Ha. congruence.
  - destruct o as [a|]; cbn [optional].
    + intros H. apply opt_Some, Hp, H.
    + intros [-> H]. apply opt_None, err_of_no_ok; [exact Ho|]. intros r' a Ha. apply Hp in Ha.
      eapply H, Ha.
Qed.

Lemma import_iff s r q al ex : import_statement s = Ok r (ImportStatement q al ex) <->
  exists b s1 s2, s = L "import" ++ b ++ dotted q ++ s1 /\ spaces1 b /\ qualified q /\ ends_dotted s1 /\
    optional alias_text s1 al s2 /\ optional exposing_text s2 ex r.
Proof.
  assert (Ha : forall s o r, opt (preceded (delimited spaces (tag (L "as")) spaces) up_name) s = Ok r o <->
                 optional alias_text s o r).
  { intros s' o r'. apply optional_iff; [oks|]. intros; apply alias_iff. }
  assert (He : forall s o r, opt (preceded (delimited spaces (tag (L "exposing")) spaces) exports) s = Ok r o <->
                 optional exposing_text s o r).
  { intros s' o r'. apply optional_iff; [oks|]. intros; apply exposing_iff. }
  unfold import_statement. split.
  - intros H. apply bind_Ok in H as (s1 & x & H1 & H). apply bind_Ok in H as (s2 & b & H2 & H).
    apply bind_Ok in H as (s3 & q' & H3 & H). apply bind_Ok in H as (s4 & al' & H4 & H).
    apply bind_Ok in H as (s5 & ex' & H5 & H). apply ret_Ok in H as [-> [= <- <- <-]].
    apply tag_Ok in H1 as [-> _]. apply sound_spaces in H2 as (w & -> & -> & H2).
    apply module_name_iff in H3 as (-> & H3 & H3'). exists b, s3, s4.
    apply Ha in H4. apply He in H5. auto 9.
  - intros (b & s1 & s2 & -> & Hb & Hq & Hs1 & H4 & H5). apply Ha in H4. apply He in H5.
    eapply bind_intro; [apply tag_intro|]. eapply bind_intro; [apply spaces_intro; [exact Hb|]|].
    { destruct Hq as [Hne Hq]. destruct q as [|n q]; [congruence|]. inversion Hq as [|? ? Hn _]; subst.
      destruct (upper_head n Hn) as (c & t & -> & Hc). rewrite dotted_concat. cbn [app ends]. chr. }
    eapply bind_intro; [apply module_name_intro; assumption|].
    eapply bind_intro; [exact H4|]. eapply bind_intro; [exact H5|]. reflexivity.
Qed.

(** ** As statements *)

Lemma statement_header s r st : statement s = Ok r st ->
  match st with
  | ModuleDeclaration _ _ => module_declaration s = Ok r st
  | PortModuleDeclaration _ _ => port_module_declaration s = Ok r st
  | EffectModuleDeclaration _ _ _ => effect_module_declaration s = Ok r st
  | ImportStatement _ _ _ => import_statement s = Ok r st
  | _ => True
  end.
Proof.
  intros H. unfold statement in H.
  apply alt_Ok in H as [H|[_ H]].
  { pose proof H as H'. apply port_module_Ok in H' as (q & e & -> & _). exact H. }
  apply alt_Ok in H as [H|[_ H]].
  { pose proof H as H'. apply effect_module_Ok in H' as (q & fs & e & -> & _). exact H. }
  apply alt_Ok in H as [H|[_ H]].
  { pose proof H as H'. apply module_Ok in H' as (q & e & -> & _). exact H. }
  apply alt_Ok in H as [H|[_ H]].
  { pose proof H as H'. apply import_Ok in H' as (q & al & ex & ->). exact H. }
  apply alt_Ok in H as [H|[_ H]].
  { unfold type_alias_declaration in H. hdr. subst st. exact I. }
  apply alt_Ok in H as [H|[_ H]].
  { unfold type_declaration in H. hdr. subst st. exact I. }
  apply alt_Ok in H as [H|[_ H]].
  { unfold port_type_declaration in H. hdr. subst st. exact I. }
  apply alt_Ok in H as [H|[_ H]].
  { unfold port_declaration in H. hdr. subst st. exact I. }
  apply alt_Ok in H as [H|[_ H]].
  { apply map_Ok in H as (f & _ & ->). exact I. }
  apply alt_Ok in H as [H|[_ H]].
  { unfold infix_declaration in H. hdr. subst st. exact I. }
  unfold comment in H. apply alt_Ok in H as [H|[_ H]]; apply map_Ok in H as (c & _ & ->); exact I.
Qed.

Theorem statement_module_iff s r q e :
  statement s = Ok r (ModuleDeclaration q e) <->
  exists t1 t2 t3 s', lay0 t1 /\ lay0 t2 /\ lay0 t3 /\ qualified q /\ RExports e s' r /\
    s = L "module" ++ t1 ++ dotted q ++ t2 ++ L "exposing" ++ t3 ++ s'.
Proof.
  split.
  - intros H. apply statement_header in H. apply module_Ok in H as (q' & e' & [= <- <-] & H).
    inversion H; subst. do 4 eexists. split; [|split; [|split; [|split; [|split]]]];
      [| | | | |reflexivity]; assumption.
  - intros (t1 & t2 & t3 & s' & H1 & H2 & H3 & Hq & He & ->). apply complete_statement.
    apply RStmt_module; assumption.
Qed.

Theorem statement_port_module_iff s r q e :
  statement s = Ok r (PortModuleDeclaration q e) <->
  exists t0 t1 t2 t3 s', lay0 t0 /\ lay0 t1 /\ lay0 t2 /\ lay0 t3 /\ qualified q /\ RExports e s' r /\
    s = L "port" ++ t0 ++ L "module" ++ t1 ++ dotted q ++ t2 ++ L "exposing" ++ t3 ++ s'.
Proof.
  split.
  - intros H. apply statement_header in H. apply port_module_Ok in H as (q' & e' & [= <- <-] & H).
    inversion H; subst. do 5 eexists. split; [|split; [|split; [|split; [|split; [|split]]]]];
      [| | | | | |reflexivity]; assumption.
  - intros (t0 & t1 & t2 & t3 & s' & H0 & H1 & H2 & H3 & Hq & He & ->). apply complete_statement.
    apply RStmt_port_module; assumption.
Qed.

Theorem statement_effect_module_iff s r q fs e :
  statement s = Ok r (EffectModuleDeclaration q fs e) <->
  exists t0 t1 t2 t3 sf t4 t5 s', lay0 t0 /\ lay0 t1 /\ lay0 t2 /\ lay0 t3 /\ lay0 t4 /\ lay0 t5 /\
    qualified q /\ REffectFields fs sf (L "}" ++ t4 ++ L "exposing" ++ t5 ++ s') /\ RExports e s' r /\
    s = L "effect" ++ t0 ++ L "module" ++ t1 ++ dotted q ++ t2 ++ L "where" ++ t3 ++ L "{" ++ sf.
Proof.
  split.
  - intros H. apply statement_header in H. apply effect_module_Ok in H as (q' & fs' & e' & [= <- <- <-] & H).
    inversion H; subst.
    match goal with H : REffectFields _ ?sf (_ ++ ?t4 ++ _ ++ ?t5 ++ ?s') |- _ =>
      exists t0, t1, t2, t3, sf, t4, t5, s' end. auto 12.
  - intros (t0 & t1 & t2 & t3 & sf & t4 & t5 & s' & H0 & H1 & H2 & H3 & H4 & H5 & Hq & Hf & He & ->).
    apply complete_statement. eapply RStmt_effect_module; eassumption.
Qed.

Theorem statement_import_iff s r q al ex :
  statement s = Ok r (ImportStatement q al ex) <->
  exists b s1 s2, s = L "import" ++ b ++ dotted q ++ s1 /\ spaces1 b /\ qualified q /\ ends_dotted s1 /\
    optional alias_text s1 al s2 /\ optional exposing_text s2 ex r.
Proof.
  rewrite <- import_iff. split; [apply (statement_header s r (ImportStatement q al ex))|].
  intros H. pose proof H as H'. apply import_iff in H' as (b & s1 & s2 & -> & _).
  unfold statement. apply alt_right; [reflexivity|]. apply alt_right; [reflexivity|].
  apply alt_right; [reflexivity|]. apply alt_left, H.
Qed.
