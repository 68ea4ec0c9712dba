From Verif.Model Require Import Common Bytes ByteOrder.
From Verif.Proofs Require Import Tac BytesProofs.
Open Scope Z_scope.

Lemma byte_at_div x i : 0 <= i -> byte_at x i = x / 256 ^ i mod 256.
Proof.
  intro H. unfold byte_at. change 255 with (Z.ones 8). rewrite Z.land_ones by lia. rewrite Z.shiftr_div_pow2 by lia.
  rewrite Z.pow_mul_r by lia. reflexivity.
Qed.

Lemma bswap16_eq x : bswap16 x = be_decode (le_encode 2 x).
Proof.
  unfold bswap16. rewrite !byte_at_div by lia. rewrite !Z.shiftl_mul_pow2 by lia.
  unfold be_decode. cbn [le_encode rev app le_decode].
  change (256 ^ 0) with 1. rewrite Z.div_1_r. change (256 ^ 1) with 256. change (2 ^ 8) with 256. lia.
Qed.
Lemma div256 x k : 0 <= k -> x / 256 ^ k / 256 = x / 256 ^ (k + 1).
Proof. intro H. rewrite Z.div_div by (try lia; apply Z.pow_pos_nonneg; lia). rewrite Z.pow_add_r by lia. reflexivity. Qed.

Lemma bswap32_eq x : bswap32 x = be_decode (le_encode 4 x).
Proof.
  unfold bswap32. rewrite !byte_at_div by lia. rewrite !Z.shiftl_mul_pow2 by lia.
  unfold be_decode. cbn [le_encode rev app le_decode].
  change (256 ^ 0) with 1. rewrite Z.div_1_r.
  replace (x / 256 ^ 1) with (x / 256) by (now rewrite Z.pow_1_r).
  replace (x / 256 ^ 2) with (x / 256 / 256) by (rewrite Z.div_div by lia; reflexivity).
  replace (x / 256 ^ 3) with (x / 256 / 256 / 256) by (rewrite !Z.div_div by lia; reflexivity).
  change (2 ^ 24) with 16777216. change (2 ^ 16) with 65536. change (2 ^ 8) with 256. rewrite ?Z.pow_1_r. lia.
Qed.
Lemma bswap64_eq x : bswap64 x = be_decode (le_encode 8 x).
Proof.
  unfold bswap64. rewrite !byte_at_div by lia. rewrite !Z.shiftl_mul_pow2 by lia.
  unfold be_decode. cbn [le_encode rev app le_decode].
  change (256 ^ 0) with 1. rewrite Z.div_1_r.
  replace (x / 256 ^ 1) with (x / 256) by (now rewrite Z.pow_1_r).
  replace (x / 256 ^ 2) with (x / 256 / 256) by (rewrite !Z.div_div by lia; reflexivity).
  replace (x / 256 ^ 3) with (x / 256 / 256 / 256) by (rewrite !Z.div_div by lia; reflexivity).
  replace (x / 256 ^ 4) with (x / 256 / 256 / 256 / 256) by (rewrite !Z.div_div by lia; reflexivity).
  replace (x / 256 ^ 5) with (x / 256 / 256 / 256 / 256 / 256) by (rewrite !Z.div_div by lia; reflexivity).
  replace (x / 256 ^ 6) with (x / 256 / 256 / 256 / 256 / 256 / 256) by (rewrite !Z.div_div by lia; reflexivity).
  replace (x / 256 ^ 7) with (x / 256 / 256 / 256 / 256 / 256 / 256 / 256) by (rewrite !Z.div_div by lia; reflexivity).
  change (2 ^ 56) with 72057594037927936. change (2 ^ 48) with 281474976710656. change (2 ^ 40) with 1099511627776.
  change (2 ^ 32) with 4294967296.
  change (2 ^ 24) with 16777216. change (2 ^ 16) with 65536. change (2 ^ 8) with 256. ring.
Qed.

Lemma swap_mem n x : le_encode n (be_decode (le_encode n x)) = be_encode n x.
Proof.
  unfold be_decode, be_encode.
  rewrite <- (le_decode_encode (rev (le_encode n x))) at 2 by (apply Forall_rev, le_encode_bytes).
  now rewrite rev_length, le_encode_length.
Qed.
Lemma swap_swap n x : 0 <= x < 256 ^ Z.of_nat n -> be_decode (le_encode n (be_decode (le_encode n x))) = x.
Proof. intro H. rewrite swap_mem. now apply be_round. Qed.
Lemma swap_range n x : 0 <= be_decode (le_encode n x) < 256 ^ Z.of_nat n.
Proof.
  unfold be_decode. assert (A := le_decode_range (rev (le_encode n x)) (Forall_rev (le_encode_bytes n x))).
  now rewrite rev_length, le_encode_length in A.
Qed.
