(** * Expectations that the parser does not meet: lemmas for C25, C26 and C31 *)
From Verif Require Import Base Nom Regex Ast Good Spec Helpers Types Expr Stmt Lexers Total
  Layout Seqs Grammar Follow Sound SoundE SoundS LexProps Heads Rules Render CompleteT CompleteE
  CompleteX CompleteS Wf Printer Round Chains.

(** ** Record update: the closing brace needs layout *)

Lemma trivia_split t c r : trivia t -> is_blank c = false ->
  exists b x, t ++ c :: r = b ++ x /\ blanks b /\ ends is_blank x /\
    (x = c :: r \/ exists y, x = C "-" :: y).
Proof.
  intros Ht Hc. induction Ht as [|t _ (b & x & E & Hb & Hx & H)|t _ (b & x & E & Hb & Hx & H)|d t _ _ _ _].
  - exists [], (c :: r). repeat split; auto.
  - exists (space :: b), x. cbn [app]. rewrite E. auto.
  - exists (newline :: b), x. cbn [app]. rewrite E. auto.
  - exists [], ((L "--" ++ d ++ t) ++ c :: r). split; [reflexivity|]. split; [reflexivity|].
    split; [reflexivity|]. right. eexists. reflexivity.
Qed.

Lemma olay_trivia i t : olay i t -> trivia t.
Proof. intros [->|(j & H & _)]; [constructor|exact H]. Qed.

Lemma names_Err t1 n t2 s : trivia t1 -> lower_name n -> trivia t2 ->
  simplified_record (L "{" ++ t1 ++ n ++ t2 ++ L "|" ++ s) = Err.
Proof.
  intros H1 Hn H2. destruct (lower_name_head n Hn) as (c & n' & E & Hc).
  assert (Hcb : is_blank c = false) by (destruct Hc as [->|Hc]; [reflexivity|chr]).
  unfold simplified_record. apply map_Err. unfold delimited.
  eapply bind_Err2; [apply char_intro|].
  assert (He : exists y l, separated_list (char_ (C ",")) simplified_field (t1 ++ n ++ t2 ++ L "|" ++ s) = Ok y l
                 /\ not_char (C "}") y).
  2:{ destruct He as (y & l & He & Hy). eapply bind_Err2; [exact He|]. apply bind_Err1, char_Err, Hy. }
  destruct (trivia_split t1 c (n' ++ t2 ++ L "|" ++ s) H1 Hcb) as (b & x & Ex & Hb & Hx & H).
  assert (Et : t1 ++ n ++ t2 ++ L "|" ++ s = b ++ x) by (rewrite E; exact Ex).
  destruct H as [->|(y & ->)].
  - destruct (trivia_split t2 (C "|") s H2 eq_refl) as (b2 & x2 & Ex2 & Hb2 & Hx2 & H).
    assert (Hx2' : not_char (C "}") x2 /\ not_char (C ",") x2 /\ ends is_name_char x2)
      by (destruct H as [->|(y & ->)]; repeat split; reflexivity).
    exists x2, [(n, Variable_ [n])]. split; [|apply Hx2'].
    assert (Et2 : t1 ++ n ++ t2 ++ L "|" ++ s = b ++ n ++ b2 ++ x2).
    { rewrite Et. f_equal. rewrite <- Ex2, E. reflexivity. }
    rewrite Et2. eapply sep_list; [apply eats_char|apply eats_names| |apply seps_stop, sep_stop_Err, char_Err, Hx2'].
    unfold simplified_field.
    eapply bind_intro; [apply multispace0_intro; [exact Hb|]|].
    { rewrite E. cbn [app ends]. exact Hcb. }
    eapply bind_intro; [apply lo_name_intro; [exact Hn|right]|].
    { apply ends_blanks; [exact Hb2|intros; chr|apply Hx2']. }
    eapply bind_intro; [apply multispace0_intro; [exact Hb2|exact Hx2]|]. reflexivity.
  - exists (b ++ C "-" :: y), []. rewrite Et. split.
    + apply sep_list_nil. unfold simplified_field.
      eapply bind_Err2; [apply multispace0_intro; [exact Hb|exact Hx]|]. apply bind_Err1. nohead heads_lo_name.
    + apply ends_blanks; [exact Hb|intros; chr|reflexivity].
Qed.

Theorem update_needs_layout i t1 n t2 b fs s r :
  olay i t1 -> lower_name n -> olay i t2 -> blanks b -> RUpdates i fs s (L "}" ++ r) ->
  term i (L "{" ++ t1 ++ n ++ t2 ++ L "|" ++ b ++ s) = Err.
Proof.
  intros H1 Hn H2 Hb Hf. apply complete_exprs_all in Hf.
  rewrite term_others; [|apply brace_var_Err].
  change (L "{" ++ t1 ++ n ++ t2 ++ L "|" ++ b ++ s) with (C "{" :: t1 ++ n ++ t2 ++ L "|" ++ b ++ s).
  rewrite others_brace. apply alt_Err; [|apply alt_Err].
  - destruct (elems_head _ _ _ _ _ Hf) as (sx & x & Hx). apply update_lo_name in Hx as [Hx _].
    destruct (opt_lay_intro i t1 (n ++ t2 ++ L "|" ++ b ++ s) H1) as [o1 E1];
      [apply lower_no_trivia, Hn|].
    destruct (opt_lay_intro i t2 (L "|" ++ b ++ s) H2) as [o2 E2]; [apply no_trivia_char; discriminate|].
    unfold record_update_f, delimited.
    eapply bind_Err2; [eapply preceded_intro; [apply char_intro|exact E1]|].
    eapply bind_Err2.
    { eapply bind_intro; [apply lo_name_intro; [exact Hn|]|].
      { right. apply (ends_olay is_name_char i t2 (C "|")); [exact H2|reflexivity..]. }
      eapply bind_intro; [exact E2|]. eapply bind_intro; [apply char_intro|].
      eapply bind_intro; [apply multispace0_intro; [exact Hb|exact Hx]|].
      eapply bind_intro; [|reflexivity].
      eapply elems_list; [apply eats_comma2|apply eats_update|exact Hf|].
      apply (comma2_stop i _ []); [left; reflexivity|apply no_trivia_char; discriminate|discriminate]. }
    apply bind_Err1, bind_Err1, sp_nil, no_trivia_char; discriminate.
  - unfold record_f. apply map_Err. unfold delimited.
    destruct (open_ok i (C "{") t1 (n ++ t2 ++ L "|" ++ b ++ s) H1) as [o1 E1];
      [apply lower_no_trivia, Hn|].
    eapply bind_Err2; [exact E1|]. eapply bind_Err2.
    { apply sep_list_nil. unfold record_field_f, separated_pair.
      eapply bind_Err2; [apply lo_name_intro; [exact Hn|]|].
      { right. apply (ends_olay is_name_char i t2 (C "|")); [exact H2|reflexivity..]. }
      apply bind_Err1. unfold delimited.
      destruct (opt_sp_intro i t2 (L "|" ++ b ++ s) H2) as [o2 E2]; [apply no_trivia_char; discriminate|].
      eapply bind_Err2; [exact E2|]. apply bind_Err1. reflexivity. }
    apply bind_Err1. unfold terminated.
    destruct (opt_sp_intro i [] (n ++ t2 ++ L "|" ++ b ++ s)) as [o2 E2];
      [left; reflexivity|apply lower_no_trivia, Hn|].
    eapply bind_Err2; [exact E2|]. apply bind_Err1, char_Err.
    apply lower_name_ends; [exact Hn|intros; chr|reflexivity].
  - apply (names_Err t1 n t2 (b ++ s)); [eapply olay_trivia, H1|exact Hn|eapply olay_trivia, H2].
Qed.

(** ** Carriage returns are not layout *)

Definition cr : char := 13%N.

(** every line feed replaced by carriage return and line feed *)
Definition crlf (s : str) : str :=
  flat_map (fun c => if (c =? newline)%N then [cr; newline] else [c]) s.

Lemma sp_cr i ir r : sp i ir (cr :: r) = Err.
Proof. apply sp_nil, no_trivia_char; discriminate. Qed.

Lemma infix_def_Err n b r : lower_name n -> spaces1 b -> infix_declaration (n ++ b ++ C "=" :: r) = Err.
Proof.
  intros Hn Hb. apply err_of_no_ok; [oks|]. intros r' st H.
  unfold infix_declaration in H. apply bind_Ok in H as (s1 & asc & Ha & H).
  apply bind_Ok in H as (s2 & b1 & H1 & H). apply bind_Ok in H as (s3 & v & H2 & _).
  assert (Es : n ++ b ++ C "=" :: r = assoc_word asc ++ s1).
  { apply alt_Ok in Ha as [Ha|[_ Ha]]; [|apply alt_Ok in Ha as [Ha|[_ Ha]]];
      apply value_Ok in Ha as (x & Ha & ->); apply tag_Ok in Ha as [-> _]; reflexivity. }
  apply sound_spaces in H1 as (w & -> & -> & H1). apply map_res_Ok in H2 as (d & H2 & _).
  apply digit_iff in H2 as (-> & [Hdne Hd] & _).
  assert (Hl : longest is_name_char n (n ++ b ++ C "=" :: r) (b ++ C "=" :: r)).
  { apply lower_longest; [exact Hn|apply ends_spaces1; [exact Hb|reflexivity]]. }
  assert (Hl' : longest is_name_char (assoc_word asc) (assoc_word asc ++ b1 ++ d ++ s3) (b1 ++ d ++ s3)).
  { split; [reflexivity|]. split; [destruct asc; reflexivity|]. apply ends_spaces1; [exact H1|reflexivity]. }
  rewrite <- Es in Hl'. destruct (longest_unique _ _ _ _ _ _ Hl Hl') as [_ E].
  assert (Hs : longest is_sp_char b (b ++ C "=" :: r) (C "=" :: r)).
  { split; [reflexivity|]. split; [apply Hb|reflexivity]. }
  assert (Hs' : longest is_sp_char b1 (b1 ++ d ++ s3) (d ++ s3)).
  { split; [reflexivity|]. split; [apply H1|]. apply dec_sp. split; assumption. }
  rewrite <- E in Hs'. destruct (longest_unique _ _ _ _ _ _ Hs Hs') as [_ E'].
  destruct d as [|x d]; [congruence|]. injection E' as <- _. discriminate Hd.
Qed.

Theorem statement_cr n b r : lower_name n -> spaces1 b ->
  statement (n ++ b ++ L "=" ++ cr :: r) = Err.
Proof.
  intros Hn Hb. set (y := L "=" ++ cr :: r).
  assert (Hy : after_name y) by (left; do 2 eexists; split; [reflexivity|auto]).
  assert (Hl : longest is_name_char n (n ++ b ++ y) (b ++ y)).
  { apply lower_longest; [exact Hn|apply ends_spaces1; [exact Hb|reflexivity]]. }
  assert (Hres : forall w, In w reserved_words -> n <> w) by (intros; apply lower_not_reserved; assumption).
  unfold statement.
  apply alt_Err; [eapply keyword_sp; [exact Hl|reflexivity|apply Hres; simpl; auto 25]|].
  apply alt_Err; [eapply effect_Err; [exact Hn|reflexivity|exact Hb|exact Hy]|].
  apply alt_Err; [eapply keyword_sp; [exact Hl|reflexivity|apply Hres; simpl; auto 25]|].
  apply alt_Err; [eapply keyword_spaces; [exact Hl|reflexivity|apply Hres; simpl; auto 25]|].
  apply alt_Err; [eapply keyword_spaces; [exact Hl|reflexivity|apply Hres; simpl; auto 25]|].
  apply alt_Err; [eapply keyword_spaces; [exact Hl|reflexivity|apply Hres; simpl; auto 25]|].
  apply alt_Err; [eapply keyword_spaces; [exact Hl|reflexivity|apply Hres; simpl; auto 25]|].
  apply alt_Err; [eapply keyword_spaces; [exact Hl|reflexivity|apply Hres; simpl; auto 25]|].
  assert (Hlo : binding_name (n ++ b ++ y) = Ok (b ++ y) n).
  { apply alt_left, lo_name_intro; [exact Hn|]. right. apply Hl. }
  assert (Hsp : spaces (b ++ y) = Ok y b) by (apply spaces_intro; [exact Hb|reflexivity]).
  apply alt_Err.
  - apply map_Err. unfold function, function_f. eapply bind_Err2.
    { apply opt_None. apply bind_Err1. unfold function_signature.
      eapply bind_Err2; [exact Hlo|]. eapply bind_Err2; [exact Hsp|]. reflexivity. }
    apply bind_Err1. unfold function_definition_f.
    eapply bind_Err2; [exact Hlo|]. eapply bind_Err2.
    { apply many0_ok; [apply eats_arg|]. apply manys_stop. apply many_stop_Err.
      eapply bind_Err2; [exact Hsp|]. apply no_term_Err.
      repeat split; intros Hx; discriminate Hx. }
    eapply bind_Err2; [exact Hsp|]. eapply bind_Err2; [apply char_intro|]. apply bind_Err1, sp_cr.
  - apply alt_Err; [apply infix_def_Err; assumption|].
    destruct (lower_name_head n Hn) as (c & n' & -> & Hc).
    assert (Hc' : (c =? C "-")%N = false /\ (c =? C "{")%N = false).
    { destruct Hc as [->|Hc]; [auto|]. split; chr. }
    assert (Ht : forall w, In w [L "--"; L "{-"] -> tag w ((c :: n') ++ b ++ y) = Err).
    { intros w Hw. apply tag_Err. intros [x E]. simpl in Hw.
      destruct Hw as [<-|[<-|[]]]; injection E as E _; subst c; destruct Hc' as [H1 H2]; discriminate. }
    unfold comment. apply alt_Err.
    + apply map_Err. unfold map_index0, preceded, bind. rewrite Ht by (simpl; auto). reflexivity.
    + apply map_Err. unfold delimited. apply bind_Err1, Ht. simpl; auto.
Qed.

Lemma file_Err s : ends is_blank s -> statement s = Err -> file s = Err.
Proof.
  intros Hs H. unfold file, terminated. apply bind_Err1. unfold statements, delimited.
  eapply bind_Err2; [apply (multispace0_intro [] s); [reflexivity|exact Hs]|].
  apply bind_Err1. unfold separated_nonempty_list. rewrite H. reflexivity.
Qed.

Theorem file_cr n b r : lower_name n -> spaces1 b -> file (n ++ b ++ L "=" ++ cr :: r) = Err.
Proof.
  intros Hn Hb. apply file_Err; [|apply statement_cr; assumption].
  apply lower_name_ends; [exact Hn|intros; chr|reflexivity].
Qed.

Lemma crlf_app a b : crlf (a ++ b) = crlf a ++ crlf b.
Proof. apply flat_map_app. Qed.
Lemma crlf_plain s : forallb not_newline s = true -> crlf s = s.
Proof.
  induction s as [|c s IH]; [reflexivity|]. intros H. simpl in H. apply andb_true_iff in H as [Hc H].
  unfold crlf in *. cbn [flat_map]. rewrite (IH H).
  unfold not_newline in Hc. destruct (c =? newline)%N; [discriminate|reflexivity].
Qed.
Lemma lower_plain n : lower_name n -> forallb not_newline n = true.
Proof.
  intros [->|[(c & t & -> & Hc & Ht) _]]; [reflexivity|]. simpl. apply andb_true_iff. split.
  - unfold not_newline. chr.
  - apply forallb_forall. intros x Hx. rewrite forallb_forall in Ht. specialize (Ht x Hx).
    unfold not_newline. chr.
Qed.

(** the same definition with a line feed is fine *)
Theorem file_lf n m : lower_name n -> lower_name m ->
  file (n ++ L " =" ++ [newline] ++ L "    " ++ m) =
  Ok [] [Function_ (mkFunc None (mkDef n [] (Variable_ [m])))].
Proof.
  intros Hn Hm. apply complete_file.
  apply (RFile_intro [] _ (n ++ L " =" ++ [newline] ++ L "    " ++ m) []); [reflexivity| |reflexivity].
  apply RStmts_one, RStmt_function, RFunc_plain.
  apply (RDef_intro 0 n (n ++ L " =" ++ [newline] ++ L "    " ++ m) []
           (L " =" ++ [newline] ++ L "    " ++ m) (L " ") (newline :: L "    ") 4 (Variable_ [m]) m []).
  - apply (RName_lower n); [exact Hn|]. right. reflexivity.
  - apply RDefArgs_nil.
  - split; [discriminate|reflexivity].
  - split; [repeat constructor|]. split; [reflexivity|]. split; [discriminate|]. split; [reflexivity|reflexivity].
  - apply RE_app; [|exists [], []; split; [apply trivia_run_nil; exact I|left; reflexivity]..].
    apply RApp_term, RTerm_var; [|exact I]. rewrite <- (app_nil_r m) at 2.
    apply RVar_lower; [exact Hm|right; exact I].
Qed.

(** Conversely a record update is only accepted with layout before its closing brace. *)
Theorem update_layout i s r n fs : term i (L "{" ++ s) = Ok r (RecordUpdate n fs) ->
  exists w t j, s = w ++ t ++ L "}" ++ r /\ lay_ge i t j.
Proof.
  intros H. apply sound_term in H as (w & E & H). inversion H; subst; try discriminate E.
  - match goal with V : GVar _ _ |- _ => inversion V end.
  - match goal with V : GList _ _ _ |- _ => inversion V end.
  - match goal with V : GTuple _ _ _ |- _ => inversion V end.
  - injection E as E. exists (t1 ++ n ++ t2 ++ L "|" ++ b ++ w0), t3, j3. split; [|assumption].
    rewrite E. cbn [app]. repeat (rewrite <- app_assoc; cbn [app]). reflexivity.
  - injection E as E. exists (t1 ++ n ++ t2 ++ L "|" ++ b), t3, j3. split; [|assumption].
    rewrite E. cbn [app]. repeat (rewrite <- app_assoc; cbn [app]). reflexivity.
  - match goal with V : GNameRecord _ _ |- _ => inversion V end.
Qed.

(** examples/BrowserElement.elm, line by line *)
Definition browser_element_lines : list str :=
  [ L "module BrowserElement exposing (..)"
  ; []
  ; L "import Browser exposing (..)"
  ; L "import Html exposing (..)"
  ; L "import Html.Events exposing (onClick)"
  ; []
  ; L "type alias Model ="
  ; L "  { toggleCount: Int"
  ; L "  , isToggled: Bool"
  ; L "  }"
  ; []
  ; L "type Msg"
  ; L "  = Toggle"
  ; L "  | Reset"
  ; []
  ; L "type alias Flags = {}"
  ; []
  ; L "view : Model -> Html Msg"
  ; L "view model ="
  ; L "  div []"
  ; L "    [ button [ onClick Toggle ] [ text ""Toggle"" ]"
  ; L "    , button [ onClick Reset ] [ text ""Reset"" ]"
  ; L "    , text (if model.isToggled then ""Yup"" else ""Nope"")"
  ; L "    ]"
  ; []
  ; L "update : Msg -> Model -> (Model, Cmd msg)"
  ; L "update msg model ="
  ; L "  case msg of"
  ; L "    Toggle ->"
  ; L "      ({ model | isToggled = not model.isToggled, toggleCount = model.toggleCount + 1}, Cmd.none)"
  ; L "    Reset ->"
  ; L "      ({ model | isToggled = False, toggleCount = 0 }, Cmd.none)"
  ; []
  ; L "init : Flags -> (Model, Cmd msg)"
  ; L "init flags ="
  ; L "  ({ toggleCount = 0, isToggled = False }, Cmd.none)"
  ; []
  ; L "main = Browser.element"
  ; L "  { init = init"
  ; L "  , update = update"
  ; L "  , subscriptions = (\_ -> Sub.none)"
  ; L "  , view = view"
  ; L "  }" ].
Definition lines (ls : list str) : str := concat (map (fun l => l ++ [newline]) ls).

(** the file with a blank put before the closing brace of line 30 *)
Definition browser_element_fixed : list str :=
  map (fun l => if list_eq_dec N.eq_dec l
                     (L "      ({ model | isToggled = not model.isToggled, toggleCount = model.toggleCount + 1}, Cmd.none)")
                then L "      ({ model | isToggled = not model.isToggled, toggleCount = model.toggleCount + 1 }, Cmd.none)"
                else l) browser_element_lines.
