(** Header tokens, and the request built from header fields. *)
From Coq Require Import String.
From Verif.Model Require Import Common Http StrUtil H2Token H2Conn.
From Verif.Spec Require Import H2Spec.
From Verif.Proofs Require Import Tac HttpHeaders HttpDefaults.
Local Open Scope Z_scope.

Lemma at_last name n c : at_is name n c = true -> exists x, nth_error name n = Some x /\ [x] = bs c.
Proof. unfold at_is. destruct (nth_error name n) as [x|]; [|discriminate]. intros H. apply beqb_eq in H. eauto. Qed.
Lemma full name n p c : at_is name n c = true -> streq_l p name n = true -> List.length name = S n -> name = (bs p ++ bs c)%list.
Proof.
  intros A B L. apply at_last in A as (x & A & <-). unfold streq_l in B. apply beqb_eq in B. rewrite B. clear B.
  revert n L A. induction name as [|y name IH]; intros [|n] L A; cbn in *; try discriminate.
  - injection A as ->. injection L as L. destruct name; [reflexivity|discriminate].
  - f_equal. apply IH; [lia|exact A].
Qed.
Definition names : list (list Z * token) := map (fun e => (bs (fst e), snd e)) token_names.
Ltac branch :=
  match goal with
  | H : None = Some _ |- _ => discriminate H
  | H : Some _ = Some _, A : at_is ?n ?i ?c = true, B : streq_l ?p ?n ?i = true, E : List.length _ = _ |- _ =>
      injection H as <-; rewrite (full n i p c A B E); vm_compute; repeat (first [left; reflexivity|right])
  | H : (if at_is ?n ?i ?c then _ else _) = Some _ |- _ => destruct (at_is n i c) eqn:?; branch
  | H : (if streq_l ?p ?n ?i then _ else _) = Some _ |- _ => destruct (streq_l p n i) eqn:?; branch
  end.
Lemma lookup_sound name t : lookup_token name = Some t -> In (name, t) names.
Proof.
  unfold lookup_token. remember (List.length name) as L eqn:EL. symmetry in EL. intros H.
  do 21 (destruct L as [|L]; [lazy iota in H; branch|]). lazy iota in H. discriminate.
Qed.
Lemma lookup_complete name t : In (name, t) names -> lookup_token name = Some t.
Proof. intros H. cbn in H. repeat (destruct H as [H|H]; [injection H as <- <-; vm_compute; reflexivity|]). destruct H. Qed.
