(** * C57, C58: the cost of rejecting, and cutting and joining declarations *)
From Coq Require Import Permutation.
From Verif Require Import Base Nom Regex Ast Spec Helpers Types Expr Stmt Trace TraceProps Blowup BlowupLet Properties6
  Errors CutS CutFile.

(** ** C57: rejecting a text without brackets can take exponential time

    [lets n] is [let a = ] repeated [n] times: the text of a declaration that
    someone has begun to write. *)
Theorem C57_lets : forall n,
  length (L "x = " ++ lets n) = 8 * n + 4 /\
  file (L "x = " ++ lets n) = Err /\
  expression_calls (snd (file_t (L "x = " ++ lets n))) + 1 = 2 ^ S n.
Proof.
  intros n. split; [rewrite app_length, lets_length; cbn [length]; lia|].
  rewrite <- er_file, file_lets. split; [reflexivity|]. apply lets_calls.
Qed.
Print Assumptions C57_lets.

Definition bracket (c : char) : bool := existsb (N.eqb c) (L "()[]{}").
Lemma lets_no_bracket n : existsb bracket (L "x = " ++ lets n) = false.
Proof.
  assert (H : existsb bracket (lets n) = false).
  { induction n as [|n IH]; [reflexivity|]. change (existsb bracket (L "let a = " ++ lets n) = false). rewrite existsb_app, IH. reflexivity. }
  rewrite existsb_app, H. reflexivity.
Qed.
Lemma lets_beat_polynomial c d : exists n, c * (8 * n + 4) ^ d + c < 2 ^ S n - 1.
Proof.
  set (k := 5 * d + c + 9). exists (2 ^ k).
  assert (Hk : c + (4 + k) * d + 2 <= 2 ^ k).
  { pose proof (square_pow k ltac:(unfold k; lia)). assert (c + (4 + k) * d + 2 <= k * k) by (unfold k; nia). lia. }
  assert (H1 : 1 <= 2 ^ k) by (pose proof (Nat.pow_nonzero 2 k); lia).
  assert (H2 : (8 * 2 ^ k + 4) ^ d <= 2 ^ ((4 + k) * d)).
  { rewrite Nat.pow_mul_r. apply Nat.pow_le_mono_l. rewrite Nat.pow_add_r. change (2 ^ 4) with 16. lia. }
  assert (H3 : c <= 2 ^ c) by (pose proof (Nat.pow_gt_lin_r 2 c); lia).
  assert (H4 : c * (8 * 2 ^ k + 4) ^ d + c <= 2 ^ (c + (4 + k) * d + 1)).
  { rewrite !Nat.pow_add_r. change (2 ^ 1) with 2.
    assert (1 <= 2 ^ ((4 + k) * d)) by (pose proof (Nat.pow_nonzero 2 ((4 + k) * d)); lia). nia. }
  assert (H5 : 2 ^ (c + (4 + k) * d + 2) <= 2 ^ (2 ^ k)) by (apply Nat.pow_le_mono_r; lia).
  replace (c + (4 + k) * d + 2) with (S (c + (4 + k) * d + 1)) in H5 by lia. cbn [Nat.pow] in H5 |- *.
  assert (1 <= 2 ^ (c + (4 + k) * d + 1)) by (pose proof (Nat.pow_nonzero 2 (c + (4 + k) * d + 1)); lia).
  lia.
Qed.
Theorem C57_not_polynomial : forall c d, exists s,
  file s = Err /\ existsb bracket s = false /\ c * length s ^ d + c < expression_calls (snd (file_t s)).
Proof.
  intros c d. destruct (lets_beat_polynomial c d) as [n Hn]. destruct (C57_lets n) as (Hl & Hf & Hc).
  exists (L "x = " ++ lets n). split; [exact Hf|]. split; [apply lets_no_bracket|]. rewrite Hl. lia.
Qed.
Print Assumptions C57_not_polynomial.
Example C57_instance :
  lets 2 = L "let a = let a = " /\
  expression_calls (snd (file_t (L "x = let a = let a = let a = let a = let a = "))) = 63.
Proof. vm_compute. auto. Qed.

(** ** C58: declarations without expressions can be cut out and put together

    [without_expression st]: [st] is not the definition of a value, a function or a
    port.  [declaration (c, g) st]: [c] alone is a file with [st] as its only
    statement, not a definition; it begins in column 0, has no blanks at its end
    (unless it is a line comment), and [g] are spaces and line feeds, first and last a line feed
    (CutS.v, CutFile.v). *)

(** Cutting: an accepted file consists of one piece per statement and the blanks
    between them; every piece that is not a definition is a file of its own, with the
    same meaning. *)
Theorem C58_cut : forall s sts, file s = Ok [] sts ->
  exists b (parts : list (str * str)), s = b ++ concat (map (fun p => fst p ++ snd p) parts) /\ blanks b /\
    Forall2 (fun p st => fst p <> [] /\ blanks (snd p) /\
      (without_expression st = true -> file (fst p) = Ok [] [st])) parts sts.
Proof. exact file_cut. Qed.
Print Assumptions C58_cut.

(** Joining: one declaration before any file, if the file goes on in column 0 *)
Theorem C58_join : forall c st g s sts,
  file c = Ok [] [st] -> without_expression st = true -> trimmed c ->
  (exists g', g = newline :: g') -> blanks g -> new_line_at_0 (g ++ s) ->
  file s = Ok [] sts -> file (c ++ g ++ s) = Ok [] (st :: sts).
Proof. exact file_join. Qed.
Print Assumptions C58_join.

(** many declarations, in any order *)
Theorem C58_any_order : forall l l' : list ((str * str) * statement_ast),
  Forall (fun x => declaration (fst x) (snd x)) l -> l <> [] -> Permutation l l' ->
  file (concat (map (fun x => fst (fst x) ++ snd (fst x)) l')) = Ok [] (map snd l').
Proof.
  intros l l' Hl Hne Hp.
  assert (Hl' : Forall2 declaration (map fst l') (map snd l')).
  { assert (H : Forall (fun x => declaration (fst x) (snd x)) l') by (eapply Permutation_Forall; eassumption).
    clear -H. induction H; constructor; assumption. }
  apply file_of_declarations in Hl'.
  - unfold text_of in Hl'. rewrite map_map in Hl'. exact Hl'.
  - intros E. apply map_eq_nil in E. subst l'. apply Permutation_sym, Permutation_nil in Hp. contradiction.
Qed.
Print Assumptions C58_any_order.

(** the head of a file and the rest *)
Theorem C58_head : forall parts sts s l,
  Forall2 declaration parts sts -> file s = Ok [] l -> (forall g, gap g -> new_line_at_0 (g ++ s)) ->
  file (concat (map (fun p => fst p ++ snd p) parts) ++ s) = Ok [] (sts ++ l).
Proof. intros parts sts s l H1 H2 H3. exact (file_joins parts sts s l H1 H2 H3). Qed.
Print Assumptions C58_head.

Lemma trimmed_last c h : is_blank h = false -> trimmed (c ++ [h]).
Proof. intros Hh c' h' E Hb. apply app_inj_tail in E as [_ <-]. congruence. Qed.
Lemma gap_newline : gap [newline].
Proof. split; [exists []; reflexivity|]. split; reflexivity. Qed.
Lemma gap_newlines : gap [newline; space; newline].
Proof. split; [exists [space; newline]; reflexivity|]. split; reflexivity. Qed.

Definition pieces : list (str * str) :=
  [(L "module M exposing (..)", [newline; space; newline]);
   (L "import List as L", [newline]);
   (L "-- types ", [newline]);
   (L "type T a = A a" ++ [newline] ++ L "  | B", [newline; space; newline]);
   (L "type alias R = { f : Int -> T Int }", [newline]);
   (L "{- infix -}", [newline]);
   (L "infixl 4 +++", [newline])].
Example C58_instance :
  exists sts, Forall2 declaration pieces sts /\ length sts = 7 /\
  (exists f, file (L "x = 1") = Ok [] [f] /\ without_expression f = false) /\
  forall g, gap g -> new_line_at_0 (g ++ L "x = 1").
Proof.
  eexists. split; [|split; [|split]].
  - assert (Ht : forall c, is_blank (last c 0%N) = false -> c <> [] -> trimmed c).
    { intros c Hb Hc. rewrite (app_removelast_last 0%N Hc). apply trimmed_last, Hb. }
    unfold pieces. repeat (apply Forall2_cons; [|]); [..|apply Forall2_nil];
      (split; [vm_compute; reflexivity|]; split; [reflexivity|]; split; [reflexivity|]; split;
        [first [apply Ht; [reflexivity|discriminate]|intros c' h _ _; split; [eexists|]; reflexivity]
        |first [exact gap_newline|exact gap_newlines]]).
  - reflexivity.
  - eexists. split; [vm_compute; reflexivity|reflexivity].
  - intros g ((g' & Eg) & Hg & Hl). exists g, (L "x = 1"). destruct (Cut.spnl_trivia _ Hg) as [Ht Hc].
    split; [|split; [rewrite Eg; reflexivity|split; [auto|reflexivity]]].
    split; [reflexivity|]. split; [exact Ht|]. split; [|left; exact Hc].
    split; [discriminate|]. split; [discriminate|]. intros [E _]. discriminate E.
Qed.
(** in another order *)
Example C58_order_instance :
  Permutation [1; 2; 3] [3; 1; 2] /\
  exists a b c, file (L "import A" ++ [newline] ++ L "import B" ++ [newline] ++ L "type T = T" ++ [newline]) = Ok [] [a; b; c] /\
  file (L "type T = T" ++ [newline] ++ L "import A" ++ [newline] ++ L "import B" ++ [newline]) = Ok [] [c; a; b].
Proof.
  split; [|do 3 eexists; split; vm_compute; reflexivity].
  apply (Permutation_trans (l' := [1; 3; 2])); [constructor; constructor|constructor].
Qed.

(** *** Definitions are different

    The meaning of a definition can depend on the contents of a comment in the line
    after it. *)
Definition odd_definition : str :=
  L "x = let" ++ [newline] ++ L "  y = case z of p -> 1" ++ [newline] ++ L "  a =-- b ->-- (b """"""" ++ [newline] ++
  L "   c" ++ [newline] ++ L " in a".
Example C58_definitions :
  (exists st, file odd_definition = Ok [] [st] /\ without_expression st = false /\
     (exists c, file (L "-- """""")") = Ok [] [c]) /\
     file (odd_definition ++ [newline] ++ L "-- comment") = Ok [] [st; Comment (L " comment")] /\
     exists st', file (odd_definition ++ [newline] ++ L "-- """""")") = Ok [] [st'; Comment (L " """""")")] /\ st' <> st).
Proof.
  eexists. split; [vm_compute; reflexivity|]. split; [reflexivity|]. split; [eexists; vm_compute; reflexivity|].
  split; [vm_compute; reflexivity|]. eexists. split; [vm_compute; reflexivity|]. discriminate.
Qed.
(** *** The conditions are needed

    Column 0: an indented name goes on with the type. *)
Example C58_column :
  exists a b l, file (L "type A = B") = Ok [] [a] /\ file (L "  y = 2") = Ok [] [b] /\
  file (L "type A = B" ++ [newline] ++ L "y = 2") = Ok [] [a; b] /\
  file (L "type A = B" ++ [newline] ++ L "  y = 2") = l /\ l <> Ok [] [a; b].
Proof. do 3 eexists. split; [vm_compute; reflexivity|]. split; [vm_compute; reflexivity|]. split; [vm_compute; reflexivity|]. split; [vm_compute; reflexivity|]. discriminate. Qed.
(** the line feed: what follows a line comment becomes part of it *)
Example C58_line_feed :
  exists a b l, file (L "-- A") = Ok [] [a] /\ file (L "import B") = Ok [] [b] /\
  file (L "-- A" ++ [newline] ++ L "import B") = Ok [] [a; b] /\
  file (L "-- A" ++ L " " ++ L "import B") = l /\ l <> Ok [] [a; b].
Proof. do 3 eexists. split; [vm_compute; reflexivity|]. split; [vm_compute; reflexivity|]. split; [vm_compute; reflexivity|]. split; [vm_compute; reflexivity|]. discriminate. Qed.
