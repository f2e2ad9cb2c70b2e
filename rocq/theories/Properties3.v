(** * The properties, continued: headers and imports, and refuted expectations *)
From Verif Require Import Base Nom Regex Ast Good Spec Helpers Types Expr Stmt Lexers Total
  Layout Seqs Grammar Follow Sound SoundE SoundS LexProps Heads Rules Render CompleteT CompleteE
  CompleteX CompleteS Wf Printer Round Language Chains Exact Limits Properties Properties2.

(** ** C22: exposing lists, imports and module headers *)

(** The exposing lists accepted are exactly those of [RExports] (Render.v). *)
Theorem C22_exports : forall s r e, exports s = Ok r e <-> RExports e s r.
Proof. exact exports_iff. Qed.
Print Assumptions C22_exports.

Theorem C22_module : forall s r q e,
  statement s = Ok r (ModuleDeclaration q e) <->
  exists t1 t2 t3 s', lay0 t1 /\ lay0 t2 /\ lay0 t3 /\ qualified q /\ RExports e s' r /\
    s = L "module" ++ t1 ++ dotted q ++ t2 ++ L "exposing" ++ t3 ++ s'.
Proof. exact statement_module_iff. Qed.
Print Assumptions C22_module.

Theorem C22_port_module : forall s r q e,
  statement s = Ok r (PortModuleDeclaration q e) <->
  exists t0 t1 t2 t3 s', lay0 t0 /\ lay0 t1 /\ lay0 t2 /\ lay0 t3 /\ qualified q /\ RExports e s' r /\
    s = L "port" ++ t0 ++ L "module" ++ t1 ++ dotted q ++ t2 ++ L "exposing" ++ t3 ++ s'.
Proof. exact statement_port_module_iff. Qed.
Print Assumptions C22_port_module.

Theorem C22_effect_module : forall s r q fs e,
  statement s = Ok r (EffectModuleDeclaration q fs e) <->
  exists t0 t1 t2 t3 sf t4 t5 s', lay0 t0 /\ lay0 t1 /\ lay0 t2 /\ lay0 t3 /\ lay0 t4 /\ lay0 t5 /\
    qualified q /\ REffectFields fs sf (L "}" ++ t4 ++ L "exposing" ++ t5 ++ s') /\ RExports e s' r /\
    s = L "effect" ++ t0 ++ L "module" ++ t1 ++ dotted q ++ t2 ++ L "where" ++ t3 ++ L "{" ++ sf.
Proof. exact statement_effect_module_iff. Qed.
Print Assumptions C22_effect_module.

(** The alias and the exposing list of an import are present exactly when the
    text has them ([optional], Language.v). *)
Theorem C22_import : forall s r q al ex,
  statement s = Ok r (ImportStatement q al ex) <->
  exists b s1 s2, s = L "import" ++ b ++ dotted q ++ s1 /\ spaces1 b /\ qualified q /\ ends_dotted s1 /\
    optional alias_text s1 al s2 /\ optional exposing_text s2 ex r.
Proof. exact statement_import_iff. Qed.
Print Assumptions C22_import.

Example C22_instance :
  statement (L "import A.B  as C   exposing ( f, (+) ," ++ newline :: L " T, U(..), V(X, Y) )") =
    Ok [] (ImportStatement [L "A"; L "B"] (Some (L "C"))
      (Some (SubsetExport [FunctionExport (L "f"); FunctionExport (L "+"); TypeExport (L "T") None;
         TypeExport (L "U") (Some AllExport);
         TypeExport (L "V") (Some (SubsetExport [FunctionExport (L "X"); FunctionExport (L "Y")]))]))) /\
  statement (L "import A exposing") = Ok (L " exposing") (ImportStatement [L "A"] None None) /\
  statement (L "port module" ++ newline :: L " -- c" ++ newline :: L "   A exposing (..)") =
    Ok [] (PortModuleDeclaration [L "A"] AllExport) /\
  statement (L "effect module A where {command = MyCmd, s = T} exposing (a)") =
    Ok [] (EffectModuleDeclaration [L "A"] [(L "command", L "MyCmd"); (L "s", L "T")]
             (SubsetExport [FunctionExport (L "a")])).
Proof. repeat split; vm_compute; reflexivity. Qed.

(** ** C25: a signature is attached to whatever definition follows *)

(** Whatever the names in them, a signature and a definition on the next line
    are one function. *)
Theorem C25_attached : forall sg d s s' r,
  RSig 0 sg s ([newline] ++ s') -> RDef 0 d s' r ->
  statement s = Ok r (Function_ (mkFunc (Some sg) d)).
Proof.
  intros sg d s s' r Hs Hd. apply complete_statement, RStmt_function.
  apply (RFunc_sig 0 sg s [] d s' r Hs); [reflexivity|reflexivity|exact Hd].
Qed.
Print Assumptions C25_attached.

Theorem C25_any_names : forall n m t e, lower_name n -> lower_name m -> wf_type t -> wf_expr e ->
  file (n ++ L " : " ++ print_type t ([newline] ++ m ++ L " = " ++ print_expr e [])) =
  Ok [] [Function_ (mkFunc (Some (mkSig n t)) (mkDef m [] e))].
Proof.
  intros n m t e Hn Hm Ht He.
  assert (Hw : forall x, lower_name x -> is_word x = true).
  { intros x Hx. destruct (lower_name_head x Hx) as (c & y & -> & [->|Hc]); [reflexivity|]. simpl. chr. }
  assert (E : print_file [Function_ (mkFunc (Some (mkSig n t)) (mkDef m [] e))] =
              n ++ L " : " ++ print_type t ([newline] ++ m ++ L " = " ++ print_expr e [])).
  { unfold print_file. cbn [sep_with print_statement print_function print_signature print_definition
      spaced sig_name sig_type print_name]. unfold print_signature, print_name. cbn [sig_name sig_type].
    rewrite (Hw n Hn), (Hw m Hm). reflexivity. }
  rewrite <- E. apply C06_round_trip. split; [discriminate|]. constructor; [|constructor].
  apply wf_function, wf_func_intro; [|left; exact Hm|constructor|exact He].
  split; [left; exact Hn|exact Ht].
Qed.
Print Assumptions C25_any_names.

Theorem C25_refuted : ~ (forall s sts sg n args e, file s = Ok [] sts ->
  In (Function_ (mkFunc (Some sg) (mkDef n args e))) sts -> sig_name sg = n).
Proof.
  intros H.
  specialize (H (L "f : Int" ++ newline :: L "g = 1") _ (mkSig (L "f") (TypeConstructor [L "Int"] []))
                (L "g") [] (Integer (L "1")) eq_refl (or_introl eq_refl)). discriminate H.
Qed.
Print Assumptions C25_refuted.

Example C25_instance :
  let n := L "f" in let m := L "g" in
  lower_name n /\ lower_name m /\ n <> m /\ wf_type (TypeTuple []) /\ wf_expr (List_ []) /\
  file (L "f : ()" ++ [newline] ++ L "g = []") =
    Ok [] [Function_ (mkFunc (Some (mkSig n (TypeTuple []))) (mkDef m [] (List_ [])))].
Proof.
  cbv zeta. assert (H : forall c, In c (L "fg") -> lower_name [c]).
  { intros c Hc. right. split.
    - exists c, []. repeat split. destruct Hc as [<-|[<-|[]]]; reflexivity.
    - intros H. destruct Hc as [<-|[<-|[]]]; repeat (destruct H as [H|H]; [discriminate H|]); exact H. }
  split; [apply H; simpl; auto|]. split; [apply H; simpl; auto|]. split; [discriminate|].
  split; [repeat constructor|]. split; [apply wf_list; constructor|]. vm_compute. reflexivity.
Qed.

(** ** C26: line feeds and carriage returns *)

(** A carriage return is not layout ... *)
Theorem C26_not_layout : forall i ir r, sp i ir (cr :: r) = Err.
Proof. exact sp_cr. Qed.
Print Assumptions C26_not_layout.

(** ... so a definition whose body starts on the next line is rejected. *)
Theorem C26_rejected : forall n b r, lower_name n -> spaces1 b ->
  file (n ++ b ++ L "=" ++ [cr] ++ r) = Err.
Proof. exact file_cr. Qed.
Print Assumptions C26_rejected.

(** For all names, a file that is accepted with line feeds and is rejected after
    replacing each of them by carriage return and line feed. *)
Theorem C26_refuted : forall n m, lower_name n -> lower_name m ->
  let s := n ++ L " =" ++ [newline] ++ L "    " ++ m in
  file s = Ok [] [Function_ (mkFunc None (mkDef n [] (Variable_ [m])))] /\
  file (crlf s) = Err.
Proof.
  intros n m Hn Hm s. split; [apply file_lf; assumption|].
  unfold s. rewrite !crlf_app, (crlf_plain n), (crlf_plain m) by (apply lower_plain; assumption).
  apply (file_cr n (L " ") (newline :: L "    " ++ m) Hn). split; [discriminate|reflexivity].
Qed.
Print Assumptions C26_refuted.
Example C26_instance : crlf (L "a" ++ [newline; newline] ++ L "b") = L "a" ++ [13; 10; 13; 10]%N ++ L "b" /\
  file (L "f =" ++ [13; 10]%N ++ L "    x") = Err.
Proof. split; vm_compute; reflexivity. Qed.

(** ** C31: record update needs layout before its closing brace *)
(** [RUpdates i fs s r] (Render.v): [s] is the text of the fields [fs] followed by [r]. *)
Theorem C31_rejected : forall i t1 n t2 b fs s r,
  olay i t1 -> lower_name n -> olay i t2 -> blanks b -> RUpdates i fs s (L "}" ++ r) ->
  term i (L "{" ++ t1 ++ n ++ t2 ++ L "|" ++ b ++ s) = Err.
Proof. exact update_needs_layout. Qed.
Print Assumptions C31_rejected.

Theorem C31_accepted : forall i t1 n t2 b fs s t3 j r,
  olay i t1 -> lower_name n -> olay i t2 -> blanks b -> lay_ge i t3 j ->
  RUpdates i fs s (t3 ++ L "}" ++ r) ->
  term i (L "{" ++ t1 ++ n ++ t2 ++ L "|" ++ b ++ s) = Ok r (RecordUpdate n fs).
Proof.
  intros i t1 n t2 b fs s t3 j r H1 Hn H2 Hb H3 Hf.
  assert (H : RTerm i (RecordUpdate n fs) (L "{" ++ t1 ++ n ++ t2 ++ L "|" ++ b ++ s) r)
    by (eapply RTerm_update; eassumption).
  apply complete_exprs_all in H. apply H.
Qed.
Print Assumptions C31_accepted.

Theorem C31_layout_needed : forall i s r n fs, term i (L "{" ++ s) = Ok r (RecordUpdate n fs) ->
  exists w t j, s = w ++ t ++ L "}" ++ r /\ lay_ge i t j.
Proof. exact update_layout. Qed.
Print Assumptions C31_layout_needed.

(** An example of the repository is rejected for that reason: with one blank
    more it is accepted. *)
Theorem C31_example : file (lines browser_element_lines) = Err /\
  exists sts, file (lines browser_element_fixed) = Ok [] sts /\ length sts = 11.
Proof.
  split; [vm_compute; reflexivity|]. eexists. split; [vm_compute; reflexivity|reflexivity].
Qed.
Print Assumptions C31_example.
Example C31_instance :
  term 0 (L "{ m | a = 1, b = f x}") = Err /\
  term 0 (L "{ m | a = 1, b = f x }") = Ok [] (RecordUpdate (L "m") [(L "a", Integer (L "1"));
    (L "b", Application (Variable_ [L "f"]) (Variable_ [L "x"]))]).
Proof. split; vm_compute; reflexivity. Qed.
Example C31_hypotheses : RUpdates 0 [(L "a", Integer (L "1"))] (L "a = 1}") (L "}").
Proof.
  apply RUpdates_one. apply (RUpdate_intro 0 (L "a") (L " ") (L " ") _ (L "1}")).
  - right. split; [do 2 eexists; split; [reflexivity|split; reflexivity]|].
    intros H. repeat (destruct H as [H|H]; [discriminate H|]). exact H.
  - reflexivity.
  - reflexivity.
  - apply RE_app.
    + apply RApp_term, (RTerm_integer 0 (L "1") (L "}")).
      * exists [], (L "1"). split; [reflexivity|]. split; [left; reflexivity|split; [discriminate|reflexivity]].
      * split; [reflexivity|]. intros (d & r' & E & _). discriminate E.
    + exists [], (L "}"). split; [apply trivia_run_nil, no_trivia_char; discriminate|left; reflexivity].
    + exists [], (L "}"). split; [apply trivia_run_nil, no_trivia_char; discriminate|left; reflexivity].
Qed.
