(** Prefixes, orderings, socket addresses and literals of IP addresses. *)
From Verif.Model Require Import Common Bytes Decimal StrUtil IpAddress.
From Verif.Spec Require Import IpSpec.
From Verif.Proofs Require Import Tac.
Open Scope Z_scope.

Lemma byte_bits_high x j : is_byte x -> 8 <= j -> Z.testbit x j = false.
Proof.
  intros [A B] L. destruct (Z.eq_dec x 0) as [->|N]; [apply Z.bits_0|].
  apply Z.bits_above_log2; [lia|]. assert (Z.log2 x < 8); [|lia].
  apply Z.log2_lt_pow2; [lia|]. change (2 ^ 8) with 256. lia.
Qed.

Lemma byte_ext x y : is_byte x -> is_byte y -> (forall j, 0 <= j < 8 -> Z.testbit x j = Z.testbit y j) -> x = y.
Proof.
  intros A B E. apply Z.bits_inj'. intros j J. destruct (Z.lt_ge_cases j 8).
  - apply E. lia.
  - rewrite !byte_bits_high; auto.
Qed.

Lemma mask_bit r j : (0 < r < 8)%nat -> 0 <= j ->
  Z.testbit (Z.land (Z.shiftl 255 (8 - Z.of_nat r)) 255) j = (8 - Z.of_nat r <=? j) && (j <? 8).
Proof.
  intros R J. change 255 with (Z.ones 8). rewrite Z.land_spec, Z.shiftl_spec by lia.
  rewrite (Z.testbit_ones_nonneg 8 j) by lia.
  destruct (Z.leb_spec (8 - Z.of_nat r) j).
  - rewrite Z.testbit_ones_nonneg by lia. destruct (Z.ltb_spec j 8); rewrite ?andb_true_r, ?andb_false_r; auto.
    + apply Z.ltb_lt. lia.
  - rewrite Z.testbit_neg_r by lia. reflexivity.
Qed.

Lemma mask_eq x y r : is_byte x -> is_byte y -> (0 < r < 8)%nat ->
  (Z.land x (Z.land (Z.shiftl 255 (8 - Z.of_nat r)) 255) = Z.land y (Z.land (Z.shiftl 255 (8 - Z.of_nat r)) 255)) <->
  (forall j, 8 - Z.of_nat r <= j < 8 -> Z.testbit x j = Z.testbit y j).
Proof.
  intros X Y R. split.
  - intros E j J. assert (F := f_equal (fun z => Z.testbit z j) E). cbn beta in F.
    rewrite !Z.land_spec, <- !Z.land_spec in F. rewrite (Z.land_spec x), (Z.land_spec y), mask_bit in F by lia.
    replace (8 - Z.of_nat r <=? j) with true in F by (symmetry; apply Z.leb_le; lia).
    replace (j <? 8) with true in F by (symmetry; apply Z.ltb_lt; lia).
    now rewrite !andb_true_r in F.
  - intros E. apply Z.bits_inj'. intros j J. rewrite (Z.land_spec x), (Z.land_spec y), mask_bit by lia.
    destruct (Z.leb_spec (8 - Z.of_nat r) j), (Z.ltb_spec j 8); cbn; rewrite ?andb_false_r; auto.
    rewrite E by lia. reflexivity.
Qed.

Lemma rd_nth l i : (i < length l)%nat -> rd l i = Ok (nth i l 0).
Proof. intros H. unfold rd. rewrite (nth_error_nth' l 0 H). reflexivity. Qed.

Lemma nth_byte l i : Forall is_byte l -> is_byte (nth i l 0).
Proof.
  intros F. destruct (Nat.lt_ge_cases i (length l)).
  - rewrite Forall_forall in F. apply F. now apply nth_In.
  - rewrite nth_overflow by lia. unfold is_byte; lia.
Qed.

Lemma prefix_bytes_spec n : forall i a p, (i + n <= length a)%nat -> (i + n <= length p)%nat ->
  exists b, prefix_bytes n i a p = Ok b /\ (b = true <-> forall j, (i <= j < i + n)%nat -> nth j a 0 = nth j p 0).
Proof.
  induction n as [|n IH]; intros i a p A P.
  - exists true. split; [reflexivity|]. split; auto. intros _ j J. lia.
  - cbn [prefix_bytes]. rewrite !rd_nth by lia. cbn [obind].
    destruct (Z.eqb_spec (nth i a 0) (nth i p 0)) as [E|E].
    + destruct (IH (S i) a p) as (b & B & S); [lia|lia|]. exists b. split; [exact B|]. rewrite S. split.
      * intros H j J. destruct (Nat.eq_dec j i) as [->|]; [exact E|]. apply H. lia.
      * intros H j J. apply H. lia.
    + exists false. split; [reflexivity|]. split; [discriminate|]. intros H. elim E. apply H. lia.
Qed.

Lemma abit_at k j a : (j < 8)%nat -> abit a (8 * k + j) = Z.testbit (nth k a 0) (7 - Z.of_nat j).
Proof.
  intros J. unfold abit. 
  replace ((8 * k + j) / 8)%nat with k by (symmetry; rewrite Nat.mul_comm, Nat.div_add_l by lia; rewrite Nat.div_small by lia; lia).
  replace ((8 * k + j) mod 8)%nat with j; [reflexivity|].
  rewrite Nat.mul_comm, Nat.add_comm, Nat.mod_add by lia. symmetry. apply Nat.mod_small. lia.
Qed.

Lemma same_bits_split k r a p : Forall is_byte a -> Forall is_byte p -> (r < 8)%nat ->
  same_bits (8 * k + r) a p <->
  (forall j, (j < k)%nat -> nth j a 0 = nth j p 0) /\
  (forall j, 8 - Z.of_nat r <= j < 8 -> Z.testbit (nth k a 0) j = Z.testbit (nth k p 0) j).
Proof.
  intros A P R. split.
  - intros S. split.
    + intros j J. apply byte_ext; auto using nth_byte. intros b B.
      assert (E := S (8 * j + Z.to_nat (7 - b))%nat). rewrite !abit_at in E by lia.
      replace (7 - Z.of_nat (Z.to_nat (7 - b))) with b in E by lia. apply E. lia.
    + intros b B. assert (E := S (8 * k + Z.to_nat (7 - b))%nat). rewrite !abit_at in E by lia.
      replace (7 - Z.of_nat (Z.to_nat (7 - b))) with b in E by lia. apply E. lia.
  - intros [E1 E2] i I. pose proof (Nat.div_mod i 8 ltac:(lia)) as D.
    pose proof (Nat.mod_upper_bound i 8 ltac:(lia)) as M. rewrite D, !abit_at by lia.
    destruct (Nat.lt_ge_cases (i / 8) k).
    + now rewrite E1.
    + assert (i / 8 = k)%nat as -> by lia. apply E2. lia.
Qed.

Lemma prefix_check_spec a p n : Forall is_byte a -> Forall is_byte p -> (n <= 8 * length a)%nat -> (n <= 8 * length p)%nat ->
  exists b, IPAddressPrefixCheck a p n = Ok b /\ (b = true <-> same_bits n a p).
Proof.
  intros A P LA LP. unfold IPAddressPrefixCheck.
  pose proof (Nat.div_mod n 8 ltac:(lia)) as D. pose proof (Nat.mod_upper_bound n 8 ltac:(lia)) as M.
  set (k := (n / 8)%nat) in *. set (r := (n mod 8)%nat) in *.
  destruct (prefix_bytes_spec k 0 a p) as (b & -> & B); [lia|lia|]. cbn [obind]. cbv zeta.
  pose proof (same_bits_split k r a p A P M) as SB. clearbody k r. rewrite <- D in SB.
  destruct b.
  - destruct (Nat.eqb_spec r 0) as [Z0|NZ].
    + exists true. split; [reflexivity|]. rewrite SB. split; auto. intros _. split.
      * intros j J. apply B; auto. lia.
      * intros j J. lia.
    + rewrite !rd_nth by lia. cbn [obind]. eexists. split; [reflexivity|]. rewrite SB, Z.eqb_eq, mask_eq by (auto using nth_byte; lia).
      split.
      * intros E. split; [intros j J; apply B; auto; lia|exact E].
      * intros [_ E]. exact E.
  - exists false. split; [reflexivity|]. rewrite SB. split; [discriminate|]. intros [E _]. apply B. intros j J. apply E. lia.
Qed.

Lemma mapped_bytes a : Forall is_byte a -> Forall is_byte (mapped a).
Proof.
  intros F. unfold mapped. apply Forall_app; split.
  - apply bytes_dec. reflexivity.
  - apply Forall_app; split; auto. apply bytes_dec. reflexivity.
Qed.

Lemma mapped_len a : length (mapped a) = (12 + length a)%nat.
Proof. unfold mapped. rewrite !app_length, repeat_length. cbn. lia. Qed.

Lemma conv_mapped dbg a : ip4 a -> ConvertIPv4ToIPv4MappedIPv6 dbg a = Ok (mapped a).
Proof.
  intros [L F]. unfold ConvertIPv4ToIPv4MappedIPv6, IsIPv4. rewrite L. cbn [Nat.eqb]. unfold dcheck.
  rewrite andb_false_r, app_length, L. reflexivity.
Qed.

Lemma IsIPv4_true a : length a = 4%nat -> IsIPv4 a = true.
Proof. intros E. unfold IsIPv4. now rewrite E. Qed.
Lemma IsIPv6_true a : length a = 16%nat -> IsIPv6 a = true.
Proof. intros E. unfold IsIPv6. now rewrite E. Qed.
Lemma IsIPv4_false a : length a = 16%nat -> IsIPv4 a = false.
Proof. intros E. unfold IsIPv4. now rewrite E. Qed.

Lemma IsValid_true a : ip a -> IsValid a = true.
Proof. unfold IsValid. intros [[L _]|[L _]]; [rewrite IsIPv4_true|rewrite IsIPv6_true]; auto. apply orb_true_r. Qed.

Lemma matches_spec dbg a p n : ip a -> ip p -> (n <= 8 * length p)%nat ->
  exists b, IPAddressMatchesPrefix dbg a p n = Ok b /\ (b = true <-> in_block a p n).
Proof.
  intros VA VP L. unfold IPAddressMatchesPrefix, dcheck.
  rewrite !IsValid_true by auto. replace (n <=? length p * 8)%nat with true by (symmetry; apply Nat.leb_le; lia).
  rewrite andb_false_r. unfold in_block.
  destruct VA as [[LA FA]|[LA FA]], VP as [[LP FP]|[LP FP]]; rewrite ?LA, ?LP; cbn [Nat.eqb].
  - destruct (prefix_check_spec a p n) as (b & E & S); auto; try lia.
    exists b. split; [exact E|]. rewrite S. split; [auto|]. intros [[_ H]|[[_ [[X _] _]]|[[X _] _]]]; auto; congruence.
  - rewrite IsIPv4_true by auto. rewrite conv_mapped by (split; auto). cbn [obind].
    destruct (prefix_check_spec (mapped a) p n) as (b & E & S); auto using mapped_bytes; try (rewrite mapped_len); try lia.
    exists b. split; [exact E|]. rewrite S. split.
    + intros H. right; left. repeat split; auto.
    + intros [[X _]|[[_ [_ H]]|[[X _] _]]]; auto; congruence.
  - rewrite IsIPv4_false by auto. rewrite conv_mapped by (split; auto). cbn [obind].
    destruct (prefix_check_spec a (mapped p) (96 + n)) as (b & E & S); auto using mapped_bytes; try (rewrite mapped_len); try lia.
    exists b. split; [exact E|]. rewrite S. split.
    + intros H. right; right. repeat split; auto.
    + intros [[X _]|[[[X _] _]|[_ [_ H]]]]; auto; congruence.
  - destruct (prefix_check_spec a p n) as (b & E & S); auto; try lia.
    exists b. split; [exact E|]. rewrite S. split; [auto|]. intros [[_ H]|[[[X _] _]|[_ [[X _] _]]]]; auto; congruence.
Qed.

(** ** Common prefix length *)
Lemma lead_zeros_spec : forall x y, is_byte x -> is_byte y -> x <> y ->
  exists j, lead_zeros 8 0 (Z.lxor x y) = Some j /\ (j < 8)%nat /\
    (forall i, (i < j)%nat -> Z.testbit x (7 - Z.of_nat i) = Z.testbit y (7 - Z.of_nat i)) /\
    Z.testbit x (7 - Z.of_nat j) <> Z.testbit y (7 - Z.of_nat j).
Proof.
  intros x y X Y N.
  assert (G : forall r j, (r + j = 8)%nat -> (forall i, (i < j)%nat -> Z.testbit x (7 - Z.of_nat i) = Z.testbit y (7 - Z.of_nat i)) ->
     match lead_zeros r j (Z.shiftl (Z.lxor x y) (Z.of_nat j)) with
     | Some k => (k < 8)%nat /\ (forall i, (i < k)%nat -> Z.testbit x (7 - Z.of_nat i) = Z.testbit y (7 - Z.of_nat i)) /\
         Z.testbit x (7 - Z.of_nat k) <> Z.testbit y (7 - Z.of_nat k)
     | None => forall i, (i < 8)%nat -> Z.testbit x (7 - Z.of_nat i) = Z.testbit y (7 - Z.of_nat i)
     end).
  { induction r as [|r IH]; intros j J H.
    - cbn. intros i I. apply H. lia.
    - cbn [lead_zeros].
      assert (T : Z.land (Z.shiftl (Z.lxor x y) (Z.of_nat j)) 128 =? 0 = Bool.eqb (Z.testbit x (7 - Z.of_nat j)) (Z.testbit y (7 - Z.of_nat j))).
      { assert (B : Z.testbit (Z.shiftl (Z.lxor x y) (Z.of_nat j)) 7 = xorb (Z.testbit x (7 - Z.of_nat j)) (Z.testbit y (7 - Z.of_nat j))).
        { rewrite Z.shiftl_spec by lia. apply Z.lxor_spec. }
        set (d := Z.shiftl (Z.lxor x y) (Z.of_nat j)) in *.
        destruct (Z.eqb_spec (Z.land d 128) 0) as [E|E].
        - assert (F := f_equal (fun z => Z.testbit z 7) E). cbn beta in F. rewrite Z.land_spec, Z.bits_0 in F.
          change (Z.testbit 128 7) with true in F. rewrite andb_true_r, B in F.
          destruct (Z.testbit x (7 - Z.of_nat j)), (Z.testbit y (7 - Z.of_nat j)); cbn [xorb Bool.eqb] in *; congruence.
        - destruct (Z.testbit x (7 - Z.of_nat j)), (Z.testbit y (7 - Z.of_nat j)); cbn [xorb Bool.eqb] in *; try reflexivity; elim E; apply Z.bits_inj'; intros b Bn;
            rewrite Z.land_spec, Z.bits_0; change 128 with (2 ^ 7);
            rewrite Z.pow2_bits_eqb by lia; destruct (Z.eqb_spec 7 b) as [<-|]; rewrite ?B; auto; apply andb_false_r. }
      rewrite T. destruct (Bool.eqb _ _) eqn:E.
      + apply eqb_prop in E. rewrite Z.shiftl_shiftl by lia.
        replace (Z.of_nat j + 1) with (Z.of_nat (S j)) by lia. apply IH; [lia|].
        intros i I. destruct (Nat.eq_dec i j) as [->|]; [exact E|]. apply H. lia.
      + apply eqb_false_iff in E. split; [lia|]. split; auto. }
  specialize (G 8%nat 0%nat eq_refl). rewrite Z.shiftl_0_r in G.
  destruct (lead_zeros 8 0 (Z.lxor x y)) as [k|].
  - exists k. destruct G as (A & B & C); [intros; lia|]. auto.
  - elim N. apply byte_ext; auto. intros j J. specialize (G ltac:(intros; lia) (Z.to_nat (7 - j)) ltac:(lia)).
    now replace (7 - Z.of_nat (Z.to_nat (7 - j))) with j in G by lia.
Qed.

Lemma common_loop_spec n : forall i a b, Forall is_byte a -> Forall is_byte b ->
  (i + n = length a)%nat -> (i + n <= length b)%nat -> (forall j, (j < i)%nat -> nth j a 0 = nth j b 0) ->
  exists r, common_loop n i a b = Ok r /\
    match r with
    | Some m => (m < 8 * length a)%nat /\ same_bits m a b /\ abit a m <> abit b m
    | None => same_bits (8 * length a) a b
    end.
Proof.
  induction n as [|n IH]; intros i a b A B LA LB H.
  - exists None. split; [reflexivity|]. replace (8 * length a)%nat with (8 * i + 0)%nat by lia.
    apply same_bits_split; auto; [lia|]. split; auto. intros; lia.
  - cbn [common_loop]. rewrite !rd_nth by lia. cbn [obind]. cbv zeta.
    destruct (Z.eqb_spec (Z.lxor (nth i a 0) (nth i b 0)) 0) as [E|E].
    + apply Z.lxor_eq in E. apply IH; auto; try lia. intros j J. destruct (Nat.eq_dec j i) as [->|]; auto. apply H. lia.
    + assert (N : nth i a 0 <> nth i b 0) by (intros Q; apply E; rewrite Q; apply Z.lxor_nilpotent).
      destruct (lead_zeros_spec _ _ (nth_byte a i A) (nth_byte b i B) N) as (j & -> & J & P & D).
      eexists. split; [reflexivity|]. cbv beta iota. replace (i * 8 + j)%nat with (8 * i + j)%nat by lia.
      split; [lia|]. split.
      * apply same_bits_split; auto. split; auto. intros k K.
        specialize (P (Z.to_nat (7 - k)) ltac:(lia)). now replace (7 - Z.of_nat (Z.to_nat (7 - k))) with k in P by lia.
      * rewrite !abit_at by lia. exact D.
Qed.

Lemma common_spec dbg a b : Forall is_byte a -> Forall is_byte b -> (length a <= length b)%nat -> (dbg = true -> length a = length b) ->
  exists n, CommonPrefixLength dbg a b = Ok n /\ (n <= 8 * length a)%nat /\ same_bits n a b /\
    ((n < 8 * length a)%nat -> abit a n <> abit b n).
Proof.
  intros A B L D. unfold CommonPrefixLength, dcheck.
  replace (dbg && negb (length a =? length b)%nat) with false.
  - destruct (common_loop_spec (length a) 0 a b A B) as (r & -> & R); [lia|lia|intros; lia|]. cbn [obind].
    eexists. split; [reflexivity|]. destruct r as [m|].
    + destruct R as (R1 & R2 & R3). repeat split; auto; lia.
    + rewrite Nat.mul_comm. repeat split; auto; lia.
  - destruct dbg; cbn; auto. rewrite D by auto. now rewrite Nat.eqb_refl.
Qed.
