(** * C47 *)
From Verif Require Import Base Nom Ast Spec Stmt Front Fail Errors Foreign.

(** ** C47: characters above 255 are interchangeable

    [replaces f]: [f] leaves characters up to 255 and maps the others to others;
    [in_statement f] applies [f] to every name, literal and comment of a tree
    (Foreign.v).  [file_e] is [file] with the content of its error (Fail.v). *)
Theorem C47_replace : forall f s, replaces f ->
  (forall sts, file s = Ok [] sts -> file (map f s) = Ok [] (map (in_statement f) sts)) /\
  (forall r k, file_e s = EError r k -> file_e (map f s) = EError (map f r) k).
Proof.
  intros f s Hf. split.
  - intros sts H. pose proof (hom_file f Hf s) as E. rewrite H in E. exact E.
  - intros r k H. pose proof (file_e_g f Hf s) as E. rewrite H in E. exact E.
Qed.
Print Assumptions C47_replace.

(** Each character above 255 can be replaced on its own. *)
Definition alike (c d : char) : Prop := c = d \/ (256 <= c /\ 256 <= d)%N.
Definition erase (c : char) : char := if (c <? 256)%N then c else 256%N.
Lemma erase_replaces : replaces erase.
Proof.
  split; intros c H; unfold erase; destruct (N.ltb_spec c 256); lia.
Qed.
Lemma erase_alike s t : Forall2 alike s t -> map erase s = map erase t.
Proof.
  induction 1 as [|c d s t H _ IH]; [reflexivity|]. cbn [map]. rewrite IH. f_equal.
  destruct H as [->|[H1 H2]]; [reflexivity|]. unfold erase. destruct (N.ltb_spec c 256), (N.ltb_spec d 256); lia.
Qed.
Lemma reads_suffix s l r : reads s l r -> exists u, s = u ++ r.
Proof.
  induction 1 as [s st r H|s st b s' l r H _ _ _ (u & IH)].
  - apply (proj1 all_progress) in H as (u & _ & ->). eauto.
  - apply (proj1 all_progress) in H as (v & _ & ->). exists (v ++ b ++ u). rewrite IH, <- !app_assoc. reflexivity.
Qed.
Lemma error_suffix s r k : file_e s = EError r k -> exists u, s = u ++ r.
Proof.
  intros H. apply file_error in H as (b & s1 & -> & _ & _ & [(_ & -> & _)|(_ & _ & _ & l & b2 & H & _)]); [eauto|].
  apply reads_suffix in H as (u & ->). exists (b ++ u ++ b2). rewrite <- !app_assoc. reflexivity.
Qed.
Theorem C47_anywhere : forall s t, Forall2 alike s t ->
  (forall sts, file s = Ok [] sts ->
     exists sts', file t = Ok [] sts' /\ map (in_statement erase) sts = map (in_statement erase) sts') /\
  (forall r k, file_e s = EError r k -> exists r', file_e t = EError r' k /\ Forall2 alike r r').
Proof.
  intros s t H. pose proof (erase_alike s t H) as E.
  assert (Hboth : forall u, file_e (map erase u) = match file_e u with
    | EOk r l => EOk (map erase r) (map (in_statement erase) l)
    | EError r k => EError (map erase r) k
    | EAbort w => EAbort w
    end) by (intros u; apply file_e_g, erase_replaces).
  pose proof (Hboth s) as Hs. pose proof (Hboth t) as Ht. rewrite E, Ht in Hs. clear Hboth Ht. split.
  - intros sts Hf. apply file_ok in Hf. rewrite Hf in Hs.
    destruct (file_e t) as [r l|r k|w] eqn:Et; [|discriminate Hs|discriminate Hs].
    injection Hs as Hr Hl. destruct r; [|discriminate Hr]. exists l. split; [apply file_ok; exact Et|symmetry; exact Hl].
  - intros r k Hf. rewrite Hf in Hs. destruct (file_e t) as [r' l|r' k'|w] eqn:Et; [discriminate Hs| |discriminate Hs].
    injection Hs as Hr ->. exists r'. split; [reflexivity|].
    apply error_suffix in Hf as (a & Hf). apply error_suffix in Et as (b & Et). 
    assert (Hlen : length r' = length r) by (rewrite <- (map_length erase r'), Hr; apply map_length).
    subst s t. assert (Hab : length a = length b).
    { assert (Hl : forall x y, Forall2 alike x y -> length x = length y) by (induction 1; cbn; congruence).
      apply Hl in H. rewrite !app_length in H. lia. }
    clear -H Hab. revert b H Hab. induction a as [|c a IH]; intros [|d b] H Hab; try discriminate Hab; [exact H|].
    apply (IH b); [inversion H; assumption|]. cbn in Hab. lia.
Qed.
Print Assumptions C47_anywhere.
Example C47_instance :
  (* a text with three characters above 255, and one with three others *)
  file (L "a = """ ++ [26085; 26412]%N ++ L """ -- " ++ [35486%N]) =
    Ok [] [Function_ (mkFunc None (mkDef (L "a") [] (String_ [26085; 26412]%N))); Comment (L " " ++ [35486%N])] /\
  Forall2 alike (L "a = """ ++ [26085; 26412]%N ++ L """ -- " ++ [35486%N])
                (L "a = """ ++ [8212; 8212]%N ++ L """ -- " ++ [65279%N]) /\
  file (L "a = """ ++ [8212; 8212]%N ++ L """ -- " ++ [65279%N]) =
    Ok [] [Function_ (mkFunc None (mkDef (L "a") [] (String_ [8212; 8212]%N))); Comment (L " " ++ [65279%N])] /\
  file_e (L "a = " ++ [26085%N]) = EError (L "a = " ++ [26085%N]) KAlt.
Proof.
  split; [vm_compute; reflexivity|]. split; [|split; vm_compute; reflexivity].
  repeat (constructor; [first [left; reflexivity|right; split; apply N.leb_le; reflexivity]|]). constructor.
Qed.
Print Assumptions C47_instance.
