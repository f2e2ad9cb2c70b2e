(** * Printed files can be joined

    [print_x a r] is the text of [a] followed by [r] for every printing function,
    so printed files can be concatenated. *)
From Verif Require Import Base Nom Ast Spec Stmt Wf Printer Round.

Definition follows {A} (p : A -> str -> str) (a : A) : Prop := forall r, p a r = p a [] ++ r.

Lemma follows_name n : follows print_name n.
Proof. intros r. unfold print_name. destruct (is_word n); rewrite ?app_nil_r, <- ?app_assoc; reflexivity. Qed.

Lemma follows_with {A} sep (p : A -> str -> str) l : Forall (follows p) l -> follows (sep_with sep p) l.
Proof.
  intros H. induction H as [|x l Hx H IH]; intros r; [reflexivity|].
  destruct l as [|y l]; [apply Hx|].
  change (p x (sep ++ sep_with sep p (y :: l) r) = p x (sep ++ sep_with sep p (y :: l) []) ++ r).
  rewrite Hx, IH, (Hx (sep ++ _)). rewrite <- !app_assoc. reflexivity.
Qed.
Lemma follows_spaced {A} (p : A -> str -> str) l : Forall (follows p) l -> follows (spaced p) l.
Proof.
  intros H. induction H as [|x l Hx H IH]; intros r; [reflexivity|].
  change (L " " ++ p x (spaced p l r) = (L " " ++ p x (spaced p l [])) ++ r).
  rewrite Hx, IH, (Hx (spaced p l [])). rewrite <- !app_assoc. reflexivity.
Qed.

(** Rewrites with hypotheses [follows p a] until only appending is left. *)
Ltac follow :=
  repeat match goal with
  | H : follows ?p ?a |- context [?p ?a ?r] =>
      lazymatch r with [] => fail | _ => rewrite (H r) end
  end; rewrite ?app_nil_r, <- ?app_assoc; reflexivity.

Definition tfield (f : str * type_ast) (r : str) : str := fst f ++ L " : " ++ print_type (snd f) r.
Definition efield (f : str * expr) (r : str) : str := fst f ++ L " = " ++ print_expr (snd f) r.
Definition ebranch (b : expr * expr) (r : str) : str := print_expr (fst b) (L " -> " ++ print_expr (snd b) r).

Lemma follows_types :
  (forall t, wf_type t -> follows print_type t) /\
  (forall ts, wf_types ts -> Forall (follows print_type) ts) /\
  (forall fs, wf_tfields fs -> Forall (follows tfield) fs).
Proof.
  apply (wf_type_all (follows print_type) (Forall (follows print_type)) (Forall (follows tfield))).
  - intros q args _ _ IH _ r. apply follows_spaced in IH. cbn [print_type]. follow.
  - intros n _ r. cbn [print_type]. follow.
  - intros n fs _ _ _ IH r. apply (follows_with (L ", ")) in IH. cbn [print_type]. fold tfield. follow.
  - intros fs _ IH r. apply (follows_with (L ", ")) in IH. cbn [print_type]. fold tfield. follow.
  - intros ts _ IH r. apply (follows_with (L ", ")) in IH. cbn [print_type]. follow.
  - intros a b _ Ha _ Hb r. cbn [print_type]. follow.
  - constructor.
  - constructor; auto.
  - constructor.
  - intros n t fs _ _ H _ IH. constructor; [|exact IH]. intros r. unfold tfield. cbn [fst snd]. follow.
Qed.
Lemma follows_type t : wf_type t -> follows print_type t.
Proof. apply follows_types. Qed.
Lemma follows_sig s : wf_sig s -> follows print_signature s.
Proof.
  intros [_ H] r. apply follows_type in H. pose proof (follows_name (sig_name s)) as Hn.
  unfold print_signature. follow.
Qed.
Lemma follows_var e : wf_var e -> follows print_expr e.
Proof.
  intros [(n & -> & _)|(q & -> & _)] r; cbn [print_expr print_variable].
  - pose proof (follows_name n) as H. follow.
  - destruct q as [|x [|y q]]; [reflexivity| |].
    + pose proof (follows_name x) as H. unfold print_variable. follow.
    + unfold print_variable. follow.
Qed.
Lemma follows_access fs r : fold_right (fun f k => L "." ++ f ++ k) r fs =
  fold_right (fun f k => L "." ++ f ++ k) [] fs ++ r.
Proof. induction fs as [|f fs IH]; [reflexivity|]. cbn [fold_right]. rewrite IH, <- !app_assoc. reflexivity. Qed.
Lemma follows_words (l : list (str * expr)) : follows (sep_with (L ", ") (fun f r => fst f ++ r)) l.
Proof. apply follows_with, Forall_forall. intros f _ r. rewrite app_nil_r. reflexivity. Qed.

Lemma follows_exprs :
  (forall e, wf_expr e -> follows print_expr e) /\
  (forall es, wf_exprs es -> Forall (follows print_expr) es) /\
  (forall fs, wf_fields fs -> Forall (follows efield) fs) /\
  (forall bs, wf_branches bs -> Forall (follows ebranch) bs) /\
  (forall xs, wf_entries xs -> Forall (follows print_entry) xs) /\
  (forall x, wf_entry x -> follows print_entry x) /\
  (forall f, wf_func f -> follows print_function f).
Proof.
  apply (wf_expr_all (follows print_expr) (Forall (follows print_expr)) (Forall (follows efield))
    (Forall (follows ebranch)) (Forall (follows print_entry)) (follows print_entry)
    (follows print_function)).
  - intros c r. reflexivity.
  - intros s _ r. cbn [print_expr]. unfold print_string.
    destruct (existsb (N.eqb quote) s); cbn [app]; rewrite <- app_assoc; reflexivity.
  - intros s _ r. cbn [print_expr]. follow.
  - intros s _ r. cbn [print_expr]. follow.
  - intros e H. apply follows_var, H.
  - intros es _ IH r. apply (follows_with (L ", ")) in IH. cbn [print_expr]. follow.
  - intros es _ IH r. destruct es as [|x [|y es]]; [reflexivity| |].
    + inversion IH as [|? ? H _ Eq]. cbn [print_expr]. follow.
    + apply (follows_with (L ", ")) in IH. cbn [print_expr]. follow.
  - intros e fs H _ _ r. apply follows_var in H. cbn [print_expr].
    rewrite (follows_access fs r). rewrite (H (fold_right _ _ _ ++ r)), (H (fold_right _ _ _)). rewrite app_assoc. reflexivity.
  - intros n _ r. cbn [print_expr]. follow.
  - intros fs _ IH r. apply (follows_with (L ", ")) in IH. cbn [print_expr]. fold efield. follow.
  - intros n fs _ _ IH r. destruct fs as [|f fs]; [cbn [print_expr]; follow|].
    apply (follows_with (L ", ")) in IH. cbn [print_expr]. fold efield. follow.
  - intros c t e _ H1 _ H2 _ H3 r. cbn [print_expr]. follow.
  - intros es e _ _ IH _ H r. apply (follows_with [newline]) in IH. cbn [print_expr]. follow.
  - intros e bs _ H _ _ IH r. apply (follows_with [newline]) in IH. cbn [print_expr]. fold ebranch. follow.
  - intros args e _ _ IH _ H r. apply (follows_with (L " ")) in IH. cbn [print_expr]. follow.
  - intros f x _ H1 _ H2 r. cbn [print_expr]. follow.
  - intros o a b _ _ H1 _ H2 r. cbn [print_expr]. follow.
  - constructor.
  - constructor; auto.
  - constructor.
  - intros n e fs _ _ H _ IH. constructor; [|exact IH]. intros r. unfold efield. cbn [fst snd]. follow.
  - constructor.
  - intros p e bs _ H1 _ H2 _ IH. constructor; [|exact IH]. intros r. unfold ebranch. cbn [fst snd]. follow.
  - constructor.
  - constructor; auto.
  - intros x e _ _ H1 _ H2 r. rewrite !print_binding. rewrite H2.
    assert (H3 : follows print_target x).
    { destruct x; try exact H1. intros z. unfold print_target. pose proof (follows_words fields) as H. follow. }
    rewrite (H3 (L " = " ++ print_expr e [] ++ r)), (H3 (L " = " ++ print_expr e [])). rewrite <- !app_assoc. reflexivity.
  - intros sg n args e _ _ IH r. exact (IH r).
  - intros sg n args e Hs _ _ IH _ H r. apply follows_spaced in IH. pose proof (follows_name n) as Hn.
    cbn [print_function print_definition]. destruct sg as [sg|].
    + apply follows_sig in Hs. follow.
    + follow.
Qed.
Lemma follows_expr e : wf_expr e -> follows print_expr e.
Proof. apply follows_exprs. Qed.
Lemma follows_function f : wf_func f -> follows print_function f.
Proof. apply follows_exprs. Qed.

Lemma follows_item e : wf_item e -> follows print_item e.
Proof.
  intros H r. destruct H; cbn [print_item]; try follow.
  pose proof (follows_name n) as Hn. follow.
Qed.
Lemma follows_exports e : wf_exports e -> follows print_exports e.
Proof.
  intros H r. destruct H as [|es _ H]; cbn [print_exports]; [reflexivity|].
  assert (IH : Forall (follows print_item) es).
  { eapply Forall_impl; [|exact H]. intros a. apply follows_item. }
  apply (follows_with (L ", ")) in IH. follow.
Qed.

Lemma follows_statement st : wf_statement st -> follows print_statement st.
Proof.
  intros H r. destruct H as [q e _ H|q e _ H|q fs e _ _ H|q al ex _ _ H|n t H1 H2|n cs H1 _ H2 _|n t _ H|n args e _ _ H|f H|a p n _ _|c _];
    cbn [print_statement].
  - apply follows_exports in H. follow.
  - apply follows_exports in H. follow.
  - apply follows_exports in H.
    assert (IH : Forall (follows (fun (f : str * str) r => fst f ++ L " = " ++ snd f ++ r)) fs).
    { apply Forall_forall. intros f _ z. follow. }
    apply (follows_with (L ", ")) in IH. follow.
  - destruct ex as [e|]; [apply follows_exports in H|]; destruct al; follow.
  - apply follows_type in H1, H2. follow.
  - apply follows_type in H1. apply follows_types in H2. apply (follows_with (L " | ")) in H2. follow.
  - apply follows_type in H. follow.
  - apply follows_expr in H.
    assert (IH : Forall (follows (fun (a : str) r => a ++ r)) args).
    { apply Forall_forall. intros a _ z. follow. }
    apply follows_spaced in IH. follow.
  - apply follows_function in H. exact (H r).
  - follow.
  - destruct (existsb (N.eqb newline) c); follow.
Qed.

Lemma print_file_app l1 l2 : wf_file l1 -> l2 <> [] ->
  print_file (l1 ++ l2) = print_file l1 ++ [newline] ++ print_file l2.
Proof.
  intros [Hne H] H2. unfold print_file.
  assert (E : sep_with [newline] print_statement (l1 ++ l2) [] =
              sep_with [newline] print_statement l1 ([newline] ++ sep_with [newline] print_statement l2 [])).
  { clear H. induction l1 as [|st l1 IH]; [congruence|]. destruct l1 as [|st' l1].
    - destruct l2; [congruence|reflexivity].
    - cbn [app]. change (st' :: l1 ++ l2) with ((st' :: l1) ++ l2).
      change (print_statement st ([newline] ++ sep_with [newline] print_statement ((st' :: l1) ++ l2) []) =
              print_statement st ([newline] ++ sep_with [newline] print_statement (st' :: l1) ([newline] ++ sep_with [newline] print_statement l2 []))).
      rewrite IH by discriminate. reflexivity. }
  rewrite E.
  assert (IH : Forall (follows print_statement) l1).
  { eapply Forall_impl; [|exact H]. intros a. apply follows_statement. }
  apply (follows_with [newline]) in IH. apply IH.
Qed.

Theorem joined l1 l2 : wf_file l1 -> wf_file l2 ->
  file (print_file l1 ++ [newline] ++ print_file l2) = Ok [] (l1 ++ l2).
Proof.
  intros H1 H2. rewrite <- print_file_app by (assumption || apply H2). apply round_trip.
  destruct H1 as [H1 H1'], H2 as [H2 H2']. split; [destruct l1; [congruence|discriminate]|].
  apply Forall_app. auto.
Qed.
