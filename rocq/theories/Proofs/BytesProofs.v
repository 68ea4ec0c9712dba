From Verif.Model Require Import Common Bytes.
From Verif.Proofs Require Import Tac.
Open Scope Z_scope.

Lemma le_encode_length n : forall v, length (le_encode n v) = n.
Proof. induction n; intros; simpl; auto. Qed.

Lemma le_encode_bytes n : forall v, Forall is_byte (le_encode n v).
Proof. induction n; intros; simpl; constructor; auto. unfold is_byte. apply Z.mod_pos_bound. lia. Qed.

Lemma le_round n : forall v, 0 <= v < 256 ^ Z.of_nat n -> le_decode (le_encode n v) = v.
Proof.
  induction n; intros v H.
  - simpl in *. lia.
  - cbn [le_encode le_decode]. rewrite IHn.
    + pose proof (Z.div_mod v 256). lia.
    + replace (Z.of_nat (S n)) with (1 + Z.of_nat n) in H by lia.
      rewrite Z.pow_add_r in H by lia. rewrite Z.pow_1_r in H. split.
      * apply Z.div_pos; lia.
      * apply Z.div_lt_upper_bound; lia.
Qed.

Lemma le_decode_range l : Forall is_byte l -> 0 <= le_decode l < 256 ^ Z.of_nat (length l).
Proof.
  induction 1 as [|b l Hb Hl IH]; cbn [le_decode length].
  - simpl. lia.
  - replace (Z.of_nat (S (length l))) with (1 + Z.of_nat (length l)) by lia.
    rewrite Z.pow_add_r by lia. rewrite Z.pow_1_r. unfold is_byte in Hb. nia.
Qed.

Lemma le_decode_encode l : Forall is_byte l -> le_encode (length l) (le_decode l) = l.
Proof.
  induction 1 as [|b l Hb Hl IH]; cbn [le_decode length le_encode]; auto.
  unfold is_byte in Hb. rewrite (Z.mul_comm 256), Z.mod_add, Z.div_add by lia.
  rewrite Z.mod_small, Z.div_small by lia. rewrite Z.add_0_l, IH. reflexivity.
Qed.

Lemma be_round n v : 0 <= v < 256 ^ Z.of_nat n -> be_decode (be_encode n v) = v.
Proof. intro H. unfold be_decode, be_encode. rewrite rev_involutive. now apply le_round. Qed.

Lemma be_encode_length n v : length (be_encode n v) = n.
Proof. unfold be_encode. now rewrite rev_length, le_encode_length. Qed.

Lemma be_encode_bytes n v : Forall is_byte (be_encode n v).
Proof. unfold be_encode. apply Forall_rev. apply le_encode_bytes. Qed.

Lemma le_decode_nonneg l : Forall is_byte l -> 0 <= le_decode l.
Proof. intro H. now apply le_decode_range in H. Qed.
