From Verif.Model Require Import Common Decimal.
From Verif.Proofs Require Import Tac.
Open Scope Z_scope.

Lemma strtol_digits_app a : forall b acc, Forall (fun c => isdigit c = true) a ->
  strtol_digits acc (a ++ b) = strtol_digits (strtol_digits acc a) b.
Proof.
  induction a as [|c a IH]; intros b acc H; [reflexivity|]. inv H. cbn [app strtol_digits]. rewrite H2. now apply IH.
Qed.

Lemma isdigit_mod n : isdigit (48 + n mod 10) = true.
Proof. unfold isdigit. pose proof (Z.mod_pos_bound n 10). destruct (48 <=? 48 + n mod 10) eqn:A, (48 + n mod 10 <=? 57) eqn:B; b2p; auto; lia. Qed.

Lemma isdigit_small n : 0 <= n < 10 -> isdigit (48 + n) = true.
Proof. intro H. rewrite <- (Z.mod_small n 10) by lia. apply isdigit_mod. Qed.

Lemma udec_digits f : forall n, 0 <= n -> Forall (fun c => isdigit c = true) (udec_fuel f n).
Proof.
  induction f; intros n H; cbn [udec_fuel]; [constructor|]. destruct (n <? 10) eqn:E; b2p.
  - repeat constructor. apply isdigit_small. lia.
  - apply Forall_app. split; [apply IHf; apply Z.div_pos; lia|]. repeat constructor. apply isdigit_mod.
Qed.

Lemma udec_length f : forall n, (length (udec_fuel f n) <= f)%nat.
Proof.
  induction f; intros n; cbn [udec_fuel]; [simpl; lia|]. destruct (n <? 10); [simpl; lia|].
  rewrite app_length. simpl. specialize (IHf (n / 10)). lia.
Qed.

Lemma udec_val f : forall n, 0 <= n < 10 ^ Z.of_nat f -> strtol_digits 0 (udec_fuel f n) = n.
Proof.
  induction f; intros n H; cbn [udec_fuel]; [simpl in *; lia|].
  destruct (n <? 10) eqn:E; b2p.
  - cbn [strtol_digits]. rewrite isdigit_small by lia. lia.
  - replace (Z.of_nat (S f)) with (Z.of_nat f + 1) in H by lia.
    rewrite Z.pow_add_r, Z.pow_1_r in H by lia.
    rewrite strtol_digits_app by (apply udec_digits; apply Z.div_pos; lia).
    rewrite IHf by (split; [apply Z.div_pos; lia|apply Z.div_lt_upper_bound; lia]).
    cbn [strtol_digits]. rewrite isdigit_mod. pose proof (Z.div_mod n 10). lia.
Qed.

Lemma udec_nonempty n : udec n <> [].
Proof. unfold udec. cbn [udec_fuel]. destruct (n <? 10); [discriminate|]. intro H. apply app_eq_nil in H. destruct H. discriminate. Qed.

Lemma digit_not_minus c : isdigit c = true -> c <> 45.
Proof. unfold isdigit. intro H. b2p. lia. Qed.

Lemma strtol_udec n : 0 <= n < 2 ^ 63 -> strtol (udec n) = n.
Proof.
  intro H. assert (V : strtol_digits 0 (udec n) = n) by (apply udec_val; lia).
  assert (D := udec_digits 20 n ltac:(lia)). fold (udec n) in D. unfold strtol.
  destruct (udec n) as [|c l] eqn:E; [now apply udec_nonempty in E|].
  apply Forall_inv in D. assert (c <> 45) by now apply digit_not_minus.
  apply Z.eqb_neq in H0. rewrite H0, V. lia.
Qed.

Lemma strtol_sdec n : - 2 ^ 63 <= n < 2 ^ 63 -> strtol (sdec n) = n.
Proof.
  intro H. unfold sdec. destruct (n <? 0) eqn:E; b2p.
  - unfold strtol. change (45 =? 45) with true. cbv iota. change (udec (- n)) with (udec_fuel 20 (- n)). rewrite udec_val by lia. lia.
  - apply strtol_udec. lia.
Qed.

Definition numch (c : Z) : Prop := isdigit c = true \/ c = 45.
Lemma sdec_numch n : Forall numch (sdec n).
Proof.
  unfold sdec. destruct (n <? 0) eqn:E; b2p.
  - constructor; [right; reflexivity|]. eapply Forall_impl; [|apply udec_digits; lia]. now left.
  - eapply Forall_impl; [|apply udec_digits; lia]. now left.
Qed.
Lemma udec_numch n : 0 <= n -> Forall numch (udec n).
Proof. intro H. eapply Forall_impl; [|apply udec_digits; lia]. now left. Qed.
Lemma udec_length20 n : (length (udec n) <= 20)%nat.
Proof. apply udec_length. Qed.
Lemma sdec_length n : (length (sdec n) <= 21)%nat.
Proof.
  unfold sdec. pose proof (udec_length20 n). pose proof (udec_length20 (- n)). destruct (n <? 0); [|lia].
  change (S (length (udec (- n))) <= 21)%nat. lia.
Qed.
Lemma sdec_nonempty n : sdec n <> [].
Proof. unfold sdec. destruct (n <? 0); [discriminate|apply udec_nonempty]. Qed.
