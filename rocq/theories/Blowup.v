(** * The number of recursive calls on nested tuples and nested function types *)
From Verif Require Import Base Nom Regex Ast Helpers Types Expr Stmt Spec Lexers Trace TraceProps.

(** How often an event of a kind occurs. *)
Definition is_call_e (e : event) : bool := match e with CalledExpression => true | _ => false end.
Definition is_call_t (e : event) : bool := match e with CalledType => true | _ => false end.
Definition expression_calls (t : list event) : nat := length (filter is_call_e t).
Definition type_calls (t : list event) : nat := length (filter is_call_t t).

(** [(...((a,a),a)...,a)] *)
Fixpoint nested (n : nat) : str :=
  match n with O => L "a" | S n' => L "(" ++ nested n' ++ L ",a)" end.
Fixpoint nested_ast (n : nat) : expr :=
  match n with O => Variable_ [L "a"] | S n' => Tuple [nested_ast n'; Variable_ [L "a"]] end.

(** [(...((a -> a) -> a)... -> a)] *)
Fixpoint arrows (n : nat) : str :=
  match n with O => L "a" | S n' => L "(" ++ arrows n' ++ L " -> a)" end.

Lemma alt_err {A} (p : parser A) q s : p s = Err -> (quiet p <||> q) s = q s.
Proof. intros H. unfold alt_t, quiet. rewrite H. destruct (q s). reflexivity. Qed.
Lemma alt_err_t {A} (p q : tparser A) s t : p s = (Err, t) ->
  (p <||> q) s = let '(x, t') := q s in (x, t ++ t').
Proof. intros H. unfold alt_t. rewrite H. reflexivity. Qed.

(** what follows a sub-expression *)
Definition stop (r : str) : Prop := r = [] \/ exists r', r = C "," :: r' \/ r = C ")" :: r'.
Lemma sp_stop i ir r : stop r -> spaces_or_new_lines_and_indent i ir r = Err.
Proof. intros [->|(r' & [-> | ->])]; reflexivity. Qed.

Lemma nested_head n : exists s, nested n = C "a" :: s \/ nested n = C "(" :: s.
Proof. destruct n as [|n]; eexists; [left|right]; reflexivity. Qed.

Definition open_head (s : str) : Prop := exists s', s = C "a" :: s' \/ s = C "(" :: s'.
Lemma open_nested n r : open_head (nested n ++ r).
Proof. destruct n; cbn [nested app]; eexists; [left|right]; reflexivity. Qed.
Lemma variable_paren s : open_head s -> variable (C "(" :: s) = Err.
Proof.
  intros (s' & [-> | ->]); unfold variable, alt, lower_case, upper_with_dots, op, map_, separated_nonempty_list;
    rewrite lo_name_eq; cbn [N.eqb is_lower]; rewrite up_name_eq; cbn; unfold delimited, bind, alt; cbn;
    rewrite operator_eq; reflexivity.
Qed.
Lemma single_string_no c s : (c =? 34)%N = false -> single_string (c :: s) = Err.
Proof. intros H. unfold single_string, map_index0, map_res, delimited, bind, char_. rewrite H. reflexivity. Qed.

(** A term that starts with a parenthesis: first [parens], then [tuple]. *)
Lemma term_paren E i s t e r : open_head s -> E i s = (Ok (C "," :: r) e, t) ->
  term_f_t E i (C "(" :: s) =
  let '(x, t') := (tuple_f_t E i <||> record_update_f_t E i <||> record_f_t E i <||> simplified_record)
                    (C "(" :: s) in (x, t ++ t').
Proof.
  intros Hs HE. unfold term_f_t.
  rewrite alt_err by (unfold access, bind; rewrite (variable_paren s Hs); reflexivity).
  rewrite alt_err by (apply variable_paren, Hs).
  rewrite alt_err by reflexivity.
  rewrite alt_err by reflexivity.
  rewrite alt_err by reflexivity.
  rewrite alt_err by reflexivity.
  rewrite (alt_err_t character_t _ _ []) by reflexivity.
  rewrite (alt_err_t (parens_f_t E i) _ _ t).
  2:{ unfold parens_f_t, delimited_t, bind_t, quiet. cbn. rewrite HE. cbn.
      rewrite app_nil_r. reflexivity. }
  rewrite (alt_err_t (list_f_t E i) _ _ []) by reflexivity.
  destruct ((tuple_f_t E i <||> _) (C "(" :: s)) as [x t']. reflexivity.
Qed.
Lemma multispace0_open s : open_head s -> multispace0 s = Ok s [].
Proof. intros (s' & [-> | ->]); reflexivity. Qed.
Lemma length_neq {A} (u v : list A) : u <> [] -> (length v =? length (u ++ v)) = false.
Proof.
  intros H. apply Nat.eqb_neq. rewrite app_length. destruct u; [congruence|]. cbn [length]. lia.
Qed.
Lemma tuple_two E i u r e t : u <> [] -> open_head (u ++ L ",a)" ++ r) ->
  E i (u ++ L ",a)" ++ r) = (Ok (L ",a)" ++ r) e, t) ->
  (forall r', E i (L "a)" ++ r') = (Ok (L ")" ++ r') (Variable_ [L "a"]), [CalledExpression; CallEnds])) ->
  tuple_f_t E i (C "(" :: u ++ L ",a)" ++ r) =
  (Ok r (Tuple [e; Variable_ [L "a"]]), t ++ [CalledExpression; CallEnds]).
Proof.
  intros Hu Hh HE Ha. unfold tuple_f_t, map_t.
  assert (H1 : delimited_t multispace0 (E i) multispace0 (u ++ L ",a)" ++ r) = (Ok (L ",a)" ++ r) e, t)).
  { unfold delimited_t, bind_t, quiet. rewrite multispace0_open by exact Hh. rewrite HE. cbn.
    rewrite app_nil_r. reflexivity. }
  assert (H2 : delimited_t multispace0 (E i) multispace0 (L "a)" ++ r) =
               (Ok (L ")" ++ r) (Variable_ [L "a"]), [CalledExpression; CallEnds])).
  { unfold delimited_t, bind_t, quiet. rewrite multispace0_open by (eexists; left; reflexivity).
    rewrite Ha. reflexivity. }
  set (p := delimited_t multispace0 (E i) multispace0) in *.
  unfold delimited_t at 1. unfold bind_t at 1. unfold quiet at 1.
  change (char_ (C "(") (C "(" :: u ++ L ",a)" ++ r)) with (Ok (u ++ L ",a)" ++ r) (C "(")).
  cbv iota beta. unfold bind_t at 1. unfold separated_list_t. rewrite H1. rewrite (length_neq u _ Hu).
  assert (H3 : sep_loop_t (S (length (L ",a)" ++ r))) (quiet (char_ (C ","))) p (L ",a)" ++ r) =
               (Ok (L ")" ++ r) [Variable_ [L "a"]], [CalledExpression; CallEnds])).
  { cbn [app] in *. cbn [length]. cbn [sep_loop_t]. unfold quiet at 1. cbn [char_ N.eqb Pos.eqb app].
    replace (length (C "a" :: C ")" :: r) =? length (C "," :: C "a" :: C ")" :: r)) with false
      by (symmetry; apply Nat.eqb_neq; cbn [length]; lia).
    rewrite H2.
    replace (length (C ")" :: r) =? length (C "a" :: C ")" :: r)) with false
      by (symmetry; apply Nat.eqb_neq; cbn [length]; lia).
    reflexivity. }
  rewrite H3. cbn. rewrite app_nil_r. reflexivity.
Qed.
Lemma application_one E i s r e t : s <> r -> length r <> length s -> stop r -> 
  term_f_t E i s = (Ok r e, t) -> application_or_var_f_t E i s = (Ok r e, t).
Proof.
  intros Hne Hl Hr H. unfold application_or_var_f_t, map_res_t, separated_list_t. rewrite H.
  apply Nat.eqb_neq in Hl. rewrite Hl. cbn [sep_loop_t]. unfold quiet at 1. rewrite sp_stop by exact Hr.
  rewrite app_nil_r. reflexivity.
Qed.

Lemma expression_one E i s r e t : length r <> length s -> stop r ->
  term_f_t E i s = (Ok r e, t) -> expression_f_t E i s = (Ok r e, t).
Proof.
  intros Hl Hr H. unfold expression_f_t, alt_t, binary_f_t, bind_t.
  rewrite (application_one E i s r e t) by (congruence || assumption).
  unfold opt_t, operator_exp_f_t, bind_t at 1, quiet. rewrite sp_stop by exact Hr.
  cbn [ret]. rewrite app_nil_r. reflexivity.
Qed.
Lemma expression_a n i r : stop r ->
  expression_n_t (S n) i (L "a" ++ r) = (Ok r (Variable_ [L "a"]), [CalledExpression; CallEnds]).
Proof.
  intros Hr. cbn [expression_n_t].
  assert (Hv : variable (L "a" ++ r) = Ok r (Variable_ [L "a"])).
  { destruct Hr as [->|(r' & [-> | ->])]; unfold variable, alt, lower_case, map_; rewrite lo_name_eq; reflexivity. }
  rewrite (expression_one _ i (L "a" ++ r) r (Variable_ [L "a"]) []); [reflexivity|cbn [app length]; lia|exact Hr|].
  unfold term_f_t. rewrite alt_err.
  - unfold alt_t, quiet. rewrite Hv. reflexivity.
  - unfold access, bind. rewrite Hv. destruct Hr as [->|(r' & [-> | ->])]; reflexivity.
Qed.

(** The events of [expression] on [nested k]. *)
Fixpoint nested_trace (k : nat) : list event :=
  match k with
  | O => [CalledExpression; CallEnds]
  | S k' => CalledExpression :: (nested_trace k' ++ nested_trace k' ++ [CalledExpression; CallEnds]) ++ [CallEnds]
  end.
Theorem nested_run k : forall n i r, k < n -> stop r ->
  expression_n_t n i (nested k ++ r) = (Ok r (nested_ast k), nested_trace k).
Proof.
  induction k as [|k IH]; intros n i r Hn Hr; (destruct n as [|n]; [lia|]).
  - apply expression_a, Hr.
  - cbn [expression_n_t nested nested_ast nested_trace].
    assert (IH' : expression_n_t n i (nested k ++ L ",a)" ++ r) = (Ok (L ",a)" ++ r) (nested_ast k), nested_trace k)).
    { apply IH; [lia|]. right. eexists. left. reflexivity. }
    assert (Hs : (L "(" ++ nested k ++ L ",a)") ++ r = C "(" :: nested k ++ L ",a)" ++ r).
    { rewrite <- !app_assoc. reflexivity. }
    rewrite Hs.
    rewrite (expression_one _ i _ r (Tuple [nested_ast k; Variable_ [L "a"]])
               (nested_trace k ++ nested_trace k ++ [CalledExpression; CallEnds])); [reflexivity| |exact Hr|].
    + cbn [length]. rewrite !app_length. cbn [length]. lia.
    + rewrite (term_paren _ i _ (nested_trace k) (nested_ast k) (L "a)" ++ r) (open_nested k _) IH').
      unfold alt_t at 1. rewrite (tuple_two _ i (nested k) r (nested_ast k) (nested_trace k)).
      * reflexivity.
      * destruct k; discriminate.
      * apply open_nested.
      * exact IH'.
      * intros r'. destruct n as [|n]; [lia|]. apply (expression_a n i (L ")" ++ r')). right.
        eexists. right. reflexivity.
Qed.
Lemma calls_app t t' : expression_calls (t ++ t') = expression_calls t + expression_calls t'.
Proof. unfold expression_calls. rewrite filter_app, app_length. reflexivity. Qed.
Lemma nested_calls k : expression_calls (nested_trace k) + 2 = 3 * 2 ^ k.
Proof.
  induction k as [|k IH]; [reflexivity|]. cbn [nested_trace].
  change (CalledExpression :: (nested_trace k ++ nested_trace k ++ [CalledExpression; CallEnds]) ++ [CallEnds]) with
    ([CalledExpression] ++ (nested_trace k ++ nested_trace k ++ [CalledExpression; CallEnds]) ++ [CallEnds]).
  rewrite !calls_app. change (expression_calls [CalledExpression]) with 1. change (expression_calls [CalledExpression; CallEnds]) with 1. change (expression_calls [CallEnds]) with 0. cbn [Nat.pow]. lia.
Qed.
Lemma nested_length k : length (nested k) = 4 * k + 1.
Proof. induction k as [|k IH]; [reflexivity|]. cbn [nested]. rewrite !app_length, IH. cbn [length]. lia. Qed.

(** ** Types *)

Definition tstop (r : str) : Prop := r = [] \/ (exists r', r = L " -> a)" ++ r') \/ exists r', r = C ")" :: r'.
Fixpoint arrows_ast (n : nat) : type_ast :=
  match n with
  | O => TypeVariable (L "a")
  | S n' => TypeApplication (arrows_ast n') (TypeVariable (L "a"))
  end.
Fixpoint arrows_trace (k : nat) : list event :=
  match k with
  | O => [CalledType; CallEnds]
  | S k' => CalledType :: (arrows_trace k' ++ arrows_trace k' ++ [CalledType; CallEnds]) ++ [CallEnds]
  end.
Lemma constructor_no T i c s : is_upper c = false -> type_constructor_f_t T i (c :: s) = (Err, []).
Proof.
  intros H. unfold type_constructor_f_t, bind_t at 1, separated_nonempty_list_t, quiet.
  rewrite up_name_eq, H. reflexivity.
Qed.
Lemma type_a n i r : tstop r ->
  type_n_t (S n) i (L "a" ++ r) = (Ok r (TypeVariable (L "a")), [CalledType; CallEnds]).
Proof.
  intros Hr. cbn [type_n_t]. unfold type_f_t.
  rewrite (alt_err_t (type_constructor_f_t _ i) _ _ []) by (apply constructor_no; reflexivity).
  unfold alt_t, quiet. rewrite type_variable_eq.
  destruct Hr as [->|[(r' & ->)|(r' & ->)]]; reflexivity.
Qed.
Lemma opt_sp_open i s : open_head s -> opt_sp i s = Ok s None.
Proof. intros (s' & [-> | ->]); reflexivity. Qed.
Lemma open_arrows n r : open_head (arrows n ++ r).
Proof. destruct n; cbn [arrows app]; eexists; [left|right]; reflexivity. Qed.
Lemma sp_arrow i r : spaces_or_new_lines_and_indent i IR_GTE (L " -> a)" ++ r) = Ok (L "-> a)" ++ r) i.
Proof. reflexivity. Qed.
Lemma opt_sp_arrow i r : opt_sp i (L " -> a)" ++ r) = Ok (L "-> a)" ++ r) (Some i).
Proof. unfold opt_sp, opt. rewrite sp_arrow. reflexivity. Qed.
Lemma tuple_arrow T i u r e t : u <> [] -> open_head (u ++ L " -> a)" ++ r) ->
  T i (u ++ L " -> a)" ++ r) = (Ok (L " -> a)" ++ r) e, t) ->
  type_tuple_f_t T i (C "(" :: u ++ L " -> a)" ++ r) = (Err, t).
Proof.
  intros Hu Hh HT. unfold type_tuple_f_t, map_t.
  assert (H1 : preceded_t (char_ (C "(")) (opt_sp i) (C "(" :: u ++ L " -> a)" ++ r) =
               (Ok (u ++ L " -> a)" ++ r) None, [])).
  { unfold preceded_t, bind_t, quiet. cbn [char_ N.eqb Pos.eqb]. rewrite opt_sp_open by exact Hh. reflexivity. }
  assert (H2 : separated_list_t (comma_sep i) (T i) (u ++ L " -> a)" ++ r) = (Ok (L " -> a)" ++ r) [e], t)).
  { unfold separated_list_t. rewrite HT, (length_neq u _ Hu). cbn [sep_loop_t]. unfold quiet at 1.
    assert (H : comma_sep i (L " -> a)" ++ r) = Err).
    { unfold comma_sep, delimited, bind. rewrite opt_sp_arrow. reflexivity. }
    rewrite H. rewrite app_nil_r. reflexivity. }
  unfold delimited_t, bind_t at 1. rewrite H1. unfold bind_t at 1. rewrite H2.
  assert (H3 : terminated_t (opt_sp i) (char_ (C ")")) (L " -> a)" ++ r) = (Err, [])).
  { unfold terminated_t, bind_t, quiet. rewrite opt_sp_arrow. reflexivity. }
  unfold bind_t at 1. rewrite H3. cbn [app]. rewrite app_nil_r. reflexivity.
Qed.
Lemma parens_arrow T i u r e t : u <> [] -> open_head (u ++ L " -> a)" ++ r) ->
  T i (u ++ L " -> a)" ++ r) = (Ok (L " -> a)" ++ r) e, t) ->
  T i (L "a)" ++ r) = (Ok (L ")" ++ r) (TypeVariable (L "a")), [CalledType; CallEnds]) ->
  type_parens_f_t T i (C "(" :: u ++ L " -> a)" ++ r) =
  (Ok r (TypeApplication e (TypeVariable (L "a"))), t ++ [CalledType; CallEnds]).
Proof.
  intros Hu Hh HT Ha. unfold type_parens_f_t.
  assert (H1 : preceded_t (char_ (C "(")) (opt_sp i) (C "(" :: u ++ L " -> a)" ++ r) =
               (Ok (u ++ L " -> a)" ++ r) None, [])).
  { unfold preceded_t, bind_t, quiet. cbn [char_ N.eqb Pos.eqb]. rewrite opt_sp_open by exact Hh. reflexivity. }
  assert (H2 : type_annotation_f_t T i (u ++ L " -> a)" ++ r) =
               (Ok (L ")" ++ r) (TypeApplication e (TypeVariable (L "a"))), t ++ [CalledType; CallEnds])).
  { unfold type_annotation_f_t, map_res_t, separated_nonempty_list_t. rewrite HT, (length_neq u _ Hu).
    set (sep := delimited_t (quiet spaces_and_newlines) (quiet (tag (L "->"))) (quiet spaces_and_newlines)).
    assert (Hs1 : sep (L " -> a)" ++ r) = (Ok (L "a)" ++ r) (L "->"), [])) by reflexivity.
    assert (Hs2 : sep (L ")" ++ r) = (Err, [])) by reflexivity.
    assert (H : sep_loop_t (S (length (L " -> a)" ++ r))) sep (T i) (L " -> a)" ++ r) =
                (Ok (L ")" ++ r) [TypeVariable (L "a")], [CalledType; CallEnds])).
    { cbn [sep_loop_t]. rewrite Hs1.
      replace (length (L "a)" ++ r) =? length (L " -> a)" ++ r)) with false
        by (symmetry; apply Nat.eqb_neq; cbn [app length]; lia).
      rewrite Ha.
      replace (length (L ")" ++ r) =? length (L "a)" ++ r)) with false
        by (symmetry; apply Nat.eqb_neq; cbn [app length]; lia).
      change (length (L " -> a)" ++ r)) with (S (length (L "-> a)" ++ r))). cbn [sep_loop_t].
      rewrite Hs2. reflexivity. }
    rewrite H. reflexivity. }
  unfold delimited_t, bind_t at 1. rewrite H1. unfold bind_t at 1. rewrite H2.
  cbn. rewrite app_nil_r. reflexivity.
Qed.
Theorem arrows_run k : forall n i r, k < n -> tstop r ->
  type_n_t n i (arrows k ++ r) = (Ok r (arrows_ast k), arrows_trace k).
Proof.
  induction k as [|k IH]; intros n i r Hn Hr; (destruct n as [|n]; [lia|]).
  - apply type_a, Hr.
  - cbn [type_n_t arrows arrows_ast arrows_trace].
    assert (IH' : type_n_t n i (arrows k ++ L " -> a)" ++ r) = (Ok (L " -> a)" ++ r) (arrows_ast k), arrows_trace k)).
    { apply IH; [lia|]. right. left. eauto. }
    assert (Hs : (L "(" ++ arrows k ++ L " -> a)") ++ r = C "(" :: arrows k ++ L " -> a)" ++ r).
    { rewrite <- !app_assoc. reflexivity. }
    rewrite Hs. unfold type_f_t.
    rewrite (alt_err_t (type_constructor_f_t _ i) _ _ []) by (apply constructor_no; reflexivity).
    rewrite alt_err by (rewrite type_variable_eq; reflexivity).
    rewrite (alt_err_t (type_record_constructor_f_t _ i) _ _ []) by reflexivity.
    rewrite (alt_err_t (type_record_f_t _ i) _ _ []) by reflexivity.
    assert (Hne : arrows k <> []) by (destruct k; discriminate).
    rewrite (alt_err_t (type_tuple_f_t _ i) _ _ _ (tuple_arrow _ i _ r _ _ Hne (open_arrows k _) IH')).
    rewrite (parens_arrow _ i _ r _ _ Hne (open_arrows k _) IH').
    + reflexivity.
    + destruct n as [|n]; [lia|]. apply (type_a n i (L ")" ++ r)). right. right. eexists. reflexivity.
Qed.
Lemma tcalls_app t t' : type_calls (t ++ t') = type_calls t + type_calls t'.
Proof. unfold type_calls. rewrite filter_app, app_length. reflexivity. Qed.
Lemma arrows_calls k : type_calls (arrows_trace k) + 2 = 3 * 2 ^ k.
Proof.
  induction k as [|k IH]; [reflexivity|]. cbn [arrows_trace].
  change (CalledType :: (arrows_trace k ++ arrows_trace k ++ [CalledType; CallEnds]) ++ [CallEnds]) with
    ([CalledType] ++ (arrows_trace k ++ arrows_trace k ++ [CalledType; CallEnds]) ++ [CallEnds]).
  rewrite !tcalls_app. change (type_calls [CalledType]) with 1. change (type_calls [CalledType; CallEnds]) with 1. change (type_calls [CallEnds]) with 0. cbn [Nat.pow]. lia.
Qed.
Lemma arrows_length k : length (arrows k) = 7 * k + 1.
Proof. induction k as [|k IH]; [reflexivity|]. cbn [arrows]. rewrite !app_length, IH. cbn [length]. lia. Qed.

(** ** Whole files *)

Theorem file_nested k :
  file_t (L "x = " ++ nested k) =
  (Ok [] [Function_ (mkFunc None (mkDef (L "x") [] (nested_ast k)))], nested_trace k).
Proof.
  assert (He : expression_t 0 (nested k) = (Ok [] (nested_ast k), nested_trace k)).
  { unfold expression_t. rewrite <- (app_nil_r (nested k)) at 2. apply nested_run; [|left; reflexivity].
    rewrite nested_length. lia. }
  assert (Hterm : forall E i r, term_f_t E i (C "=" :: r) = (Err, [])).
  { intros E i r. unfold term_f_t.
    assert (Hv : variable (C "=" :: r) = Err).
    { unfold variable, alt, lower_case, upper_with_dots, op, map_, separated_nonempty_list.
      rewrite lo_name_eq, up_name_eq. reflexivity. }
    rewrite alt_err by (unfold access, bind; rewrite Hv; reflexivity).
    rewrite alt_err by exact Hv. reflexivity. }
  assert (Hname : forall r, binding_name (C "x" :: C " " :: r) = Ok (C " " :: r) (L "x")).
  { intros r. unfold binding_name, alt. rewrite lo_name_eq. reflexivity. }
  assert (Hdef : function_definition_f_t expression_t 0 (L "x = " ++ nested k) =
                 (Ok [] (mkDef (L "x") [] (nested_ast k)), nested_trace k)).
  { unfold function_definition_f_t. cbn [app]. unfold bind_t at 1, quiet at 1. rewrite Hname.
    assert (Hm : many0_t (preceded_t spaces (term_f_t expression_t 0)) (L " = " ++ nested k) =
                 (Ok (L " = " ++ nested k) [], [])).
    { unfold many0_t. cbn [many0_loop_t]. unfold preceded_t, bind_t, quiet at 1.
      assert (Hsp : spaces (L " = " ++ nested k) = Ok (L "= " ++ nested k) (L " ")) by reflexivity.
      rewrite Hsp. cbn [app]. rewrite Hterm. reflexivity. }
    cbn [app] in Hm. unfold bind_t at 1. rewrite Hm.
    unfold bind_t at 1, quiet at 1.
    assert (Hsp : spaces (L " = " ++ nested k) = Ok (L "= " ++ nested k) (L " ")) by reflexivity.
    cbn [app] in Hsp. rewrite Hsp. unfold bind_t at 1, quiet at 1. cbn [char_ N.eqb Pos.eqb].
    assert (Hsp2 : spaces_or_new_lines_and_indent 0 IR_GT (L " " ++ nested k) = Ok (nested k) 0%N).
    { destruct k; reflexivity. }
    cbn [app] in Hsp2. unfold bind_t at 1, quiet at 1. rewrite Hsp2. unfold bind_t at 1. rewrite He.
    cbn. rewrite app_nil_r. reflexivity. }
  assert (Hfun : function_t 0 (L "x = " ++ nested k) =
                 (Ok [] (mkFunc None (mkDef (L "x") [] (nested_ast k))), nested_trace k)).
  { unfold function_t, function_f_t.
    assert (Hsig : opt_t (terminated_t (function_signature_t 0) (new_line_and_same_indent 0)) (L "x = " ++ nested k) =
                   (Ok (L "x = " ++ nested k) None, [])).
    { unfold opt_t, terminated_t, function_signature_t. cbn [app]. unfold bind_t at 1, bind_t at 1, quiet at 1.
      rewrite Hname. reflexivity. }
    unfold bind_t at 1. rewrite Hsig. unfold bind_t at 1. rewrite Hdef. cbn. rewrite app_nil_r. reflexivity. }
  assert (Hst : statement_t (L "x = " ++ nested k) =
                (Ok [] (Function_ (mkFunc None (mkDef (L "x") [] (nested_ast k)))), nested_trace k)).
  { unfold statement_t.
    do 4 rewrite alt_err by reflexivity.
    rewrite (alt_err_t type_alias_declaration_t _ _ []) by reflexivity.
    rewrite (alt_err_t (type_declaration_t 0) _ _ []) by reflexivity.
    rewrite (alt_err_t port_type_declaration_t _ _ []) by reflexivity.
    rewrite (alt_err_t port_declaration_t _ _ []) by reflexivity.
    unfold alt_t at 1, map_t. rewrite Hfun. reflexivity. }
  unfold file_t, terminated_t, statements_t, delimited_t.
  unfold bind_t at 1, bind_t at 1, quiet at 1.
  assert (Hm : multispace0 (L "x = " ++ nested k) = Ok (L "x = " ++ nested k) []) by reflexivity.
  rewrite Hm. unfold bind_t at 1, separated_nonempty_list_t. rewrite Hst.
  replace (length (@nil N) =? length (L "x = " ++ nested k)) with false
    by (symmetry; apply Nat.eqb_neq; cbn [app length]; lia).
  cbn. rewrite !app_nil_r. reflexivity.
Qed.
Theorem file_arrows k :
  file_t (L "port x : " ++ arrows k) =
  (Ok [] [PortTypeDeclaration (L "x") (arrows_ast k)], arrows_trace k).
Proof.
  assert (Ht : type__t 0 (arrows k) = (Ok [] (arrows_ast k), arrows_trace k)).
  { unfold type__t. rewrite <- (app_nil_r (arrows k)) at 2. apply arrows_run; [|left; reflexivity].
    rewrite arrows_length. lia. }
  assert (Ha : type_annotation_t 0 (arrows k) = (Ok [] (arrows_ast k), arrows_trace k)).
  { unfold type_annotation_t, type_annotation_f_t, map_res_t, separated_nonempty_list_t. rewrite Ht.
    replace (length (@nil N) =? length (arrows k)) with false
      by (symmetry; apply Nat.eqb_neq; rewrite arrows_length; cbn [length]; lia).
    cbn. rewrite app_nil_r. reflexivity. }
  assert (Hst : statement_t (L "port x : " ++ arrows k) =
                (Ok [] (PortTypeDeclaration (L "x") (arrows_ast k)), arrows_trace k)).
  { unfold statement_t.
    do 4 rewrite alt_err by reflexivity.
    rewrite (alt_err_t type_alias_declaration_t _ _ []) by reflexivity.
    rewrite (alt_err_t (type_declaration_t 0) _ _ []) by reflexivity.
    unfold alt_t at 1, port_type_declaration_t.
    unfold bind_t at 1, quiet at 1.
    assert (H1 : tag (L "port") (L "port x : " ++ arrows k) = Ok (L " x : " ++ arrows k) (L "port")) by reflexivity.
    rewrite H1. unfold bind_t at 1, quiet at 1.
    assert (H2 : spaces (L " x : " ++ arrows k) = Ok (L "x : " ++ arrows k) (L " ")) by reflexivity.
    rewrite H2. unfold bind_t at 1, quiet at 1.
    assert (H3 : lo_name (L "x : " ++ arrows k) = Ok (L " : " ++ arrows k) (L "x")) by (rewrite lo_name_eq; reflexivity).
    rewrite H3. unfold bind_t at 1, quiet at 1.
    assert (H4 : spaces (L " : " ++ arrows k) = Ok (L ": " ++ arrows k) (L " ")) by reflexivity.
    rewrite H4. unfold bind_t at 1, quiet at 1. cbn [app char_ N.eqb Pos.eqb].
    assert (Hsp2 : spaces_or_new_lines_and_indent 0 IR_GT (L " " ++ arrows k) = Ok (arrows k) 0%N).
    { destruct k; reflexivity. }
    cbn [app] in Hsp2. unfold bind_t at 1, quiet at 1. rewrite Hsp2. unfold bind_t at 1. rewrite Ha.
    cbn. rewrite app_nil_r. reflexivity. }
  unfold file_t, terminated_t, statements_t, delimited_t.
  unfold bind_t at 1, bind_t at 1, quiet at 1.
  assert (Hm : multispace0 (L "port x : " ++ arrows k) = Ok (L "port x : " ++ arrows k) []) by reflexivity.
  rewrite Hm. unfold bind_t at 1, separated_nonempty_list_t. rewrite Hst.
  replace (length (@nil N) =? length (L "port x : " ++ arrows k)) with false
    by (symmetry; apply Nat.eqb_neq; cbn [app length]; lia).
  cbn. rewrite !app_nil_r. reflexivity.
Qed.
