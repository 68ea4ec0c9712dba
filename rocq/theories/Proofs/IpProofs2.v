(** Numbers, ranges, orderings, socket addresses and literals of IP addresses. *)
From Verif.Model Require Import Common Bytes Decimal StrUtil IpAddress.
From Verif.Spec Require Import IpSpec StrSpec.
From Verif.Proofs Require Import Tac BytesProofs DecimalProofs StrProofs UrlProofs IpProofs.
Open Scope Z_scope.

Lemma byte_all (P : Z -> bool) : forallb P (map Z.of_nat (seq 0 256)) = true -> forall x, is_byte x -> P x = true.
Proof.
  intros F x [A B]. rewrite forallb_forall in F. apply F. replace x with (Z.of_nat (Z.to_nat x)) by lia.
  apply in_map. apply in_seq. lia.
Qed.

(** ** The number of an address *)
Lemma num_snoc a b : num (a ++ [b]) = 256 * num a + b.
Proof. unfold num. now rewrite fold_left_app. Qed.

Lemma num_acc a : forall v, fold_left (fun v b => 256 * v + b) a v = v * 256 ^ Z.of_nat (length a) + num a.
Proof.
  unfold num. induction a as [|x a IH]; intros v; cbn [fold_left length].
  - rewrite Z.pow_0_r. lia.
  - rewrite IH, (IH (256 * 0 + x)). rewrite Nat2Z.inj_succ, Z.pow_succ_r by lia. ring.
Qed.

Lemma num_cons x a : num (x :: a) = x * 256 ^ Z.of_nat (length a) + num a.
Proof. unfold num at 1. cbn [fold_left]. rewrite num_acc. f_equal. Qed.

Lemma num_bound a : Forall is_byte a -> 0 <= num a < 256 ^ Z.of_nat (length a).
Proof.
  induction 1 as [|x a X F IH]; [cbn; lia|]. rewrite num_cons. cbn [length]. rewrite Nat2Z.inj_succ, Z.pow_succ_r by lia.
  unfold is_byte in X. nia.
Qed.

Lemma lex_num a : forall b, Forall is_byte a -> Forall is_byte b -> length a = length b ->
  lex_lt a b = true <-> num a < num b.
Proof.
  induction a as [|x a IH]; intros [|y b] A B L; try discriminate; cbn [lex_lt].
  - split; [discriminate|]. cbn. lia.
  - inv A. inv B. injection L as L. rewrite !num_cons, L.
    pose proof (num_bound a ltac:(auto)) as NA. pose proof (num_bound b ltac:(auto)) as NB. rewrite L in NA.
    destruct (Z.ltb_spec x y); [split; auto; intros _; nia|].
    destruct (Z.ltb_spec y x); [split; [discriminate|]; intros; nia|].
    assert (x = y) as -> by lia. rewrite IH by auto. lia.
Qed.

Lemma num_inj a : forall b, Forall is_byte a -> Forall is_byte b -> length a = length b -> num a = num b -> a = b.
Proof.
  induction a as [|x a IH]; intros [|y b] A B L N; try discriminate; auto.
  inv A. inv B. injection L as L. rewrite !num_cons, L in N.
  pose proof (num_bound a ltac:(auto)) as NA. pose proof (num_bound b ltac:(auto)) as NB. rewrite L in NA.
  assert (x = y) by nia. subst. f_equal. apply IH; auto. lia.
Qed.

Lemma addr_lt_num a b : Forall is_byte a -> Forall is_byte b ->
  addr_lt a b = true <-> (length a < length b)%nat \/ (length a = length b /\ num a < num b).
Proof.
  intros A B. unfold addr_lt, bytes_lt. destruct (Nat.eqb_spec (length a) (length b)) as [E|E]; cbn [negb].
  - rewrite lex_num by auto. lia.
  - rewrite Nat.ltb_lt. lia.
Qed.

Lemma addr_eq_iff a b : addr_eq a b = true <-> a = b.
Proof.
  unfold addr_eq. rewrite andb_true_iff, Nat.eqb_eq, beq_eq. split; [intros [_ E]; exact E|intros ->; auto].
Qed.

(** ** Ranges *)
Lemma testbit_num a : Forall is_byte a -> forall i, (i < 8 * length a)%nat ->
  Z.testbit (num a) (Z.of_nat (8 * length a) - 1 - Z.of_nat i) = abit a i.
Proof.
  induction a as [|b a IH] using rev_ind; intros F i I; [cbn in I; lia|].
  apply Forall_app in F. destruct F as [F B]. inv B. rewrite app_length in I |- *. cbn [length] in I |- *.
  rewrite num_snoc. unfold abit.
  pose proof (Nat.div_mod i 8 ltac:(lia)) as D. pose proof (Nat.mod_upper_bound i 8 ltac:(lia)) as M.
  assert (T : forall j, 0 <= j -> Z.testbit (256 * num a + b) j = if j <? 8 then Z.testbit b j else Z.testbit (num a) (j - 8)).
  { intros j J. destruct (Z.ltb_spec j 8).
    - rewrite <- (Z.mod_pow2_bits_low (256 * num a + b) 8 j) by lia. f_equal. change (2 ^ 8) with 256.
      rewrite Z.add_comm, Z.mul_comm, Z_mod_plus_full. apply Z.mod_small. assumption.
    - replace j with ((j - 8) + 8) at 1 by lia. rewrite <- Z.div_pow2_bits by lia. f_equal. change (2 ^ 8) with 256.
      rewrite Z.mul_comm, Z.div_add_l by lia. rewrite Z.div_small by assumption. lia. }
  rewrite T by lia. destruct (Z.ltb_spec (Z.of_nat (8 * (length a + 1)) - 1 - Z.of_nat i) 8).
  - assert (i / 8 = length a)%nat as E by lia. rewrite E. rewrite app_nth2 by lia. rewrite Nat.sub_diag. cbn [nth].
    f_equal. lia.
  - assert (i / 8 < length a)%nat as E by lia. rewrite app_nth1 by lia.
    specialize (IH F i ltac:(lia)). unfold abit in IH. rewrite <- IH. f_equal. lia.
Qed.

Lemma same_bits_num a p n : Forall is_byte a -> Forall is_byte p -> length a = length p -> (n <= 8 * length a)%nat ->
  same_bits n a p <-> num a / 2 ^ Z.of_nat (8 * length a - n) = num p / 2 ^ Z.of_nat (8 * length a - n).
Proof.
  intros A P L N. rewrite <- !Z.shiftr_div_pow2 by lia. split.
  - intros S. apply Z.bits_inj'. intros j J. rewrite !Z.shiftr_spec by lia.
    destruct (Z.lt_ge_cases (j + Z.of_nat (8 * length a - n)) (Z.of_nat (8 * length a))) as [K|K].
    + specialize (S (Z.to_nat (Z.of_nat n - 1 - j)) ltac:(lia)).
      rewrite <- (testbit_num a A), <- (testbit_num p P) in S by lia. rewrite <- L in S.
      replace (j + Z.of_nat (8 * length a - n)) with (Z.of_nat (8 * length a) - 1 - Z.of_nat (Z.to_nat (Z.of_nat n - 1 - j))) by lia.
      exact S.
    + pose proof (num_bound a A) as BA. pose proof (num_bound p P) as BP. rewrite <- L in BP.
      assert (HH : forall v, 0 <= v < 256 ^ Z.of_nat (length a) -> Z.testbit v (j + Z.of_nat (8 * length a - n)) = false).
      { intros v V. replace (256 ^ Z.of_nat (length a)) with (2 ^ Z.of_nat (8 * length a)) in V.
        - destruct (Z.eq_dec v 0) as [->|]; [apply Z.bits_0|]. apply Z.bits_above_log2; [lia|].
          assert (Z.log2 v < Z.of_nat (8 * length a)); [|lia]. apply Z.log2_lt_pow2; lia.
        - change 256 with (2 ^ 8). rewrite <- Z.pow_mul_r by lia. f_equal. lia. }
      rewrite !HH; auto.
  - intros S i I. rewrite <- (testbit_num a A), <- (testbit_num p P) by lia. rewrite <- L.
    assert (F := f_equal (fun z => Z.testbit z (Z.of_nat n - 1 - Z.of_nat i)) S). cbn beta in F.
    rewrite !Z.shiftr_spec in F by lia.
    replace (Z.of_nat (8 * length a) - 1 - Z.of_nat i) with (Z.of_nat n - 1 - Z.of_nat i + Z.of_nat (8 * length a - n)) by lia.
    exact F.
Qed.

Lemma any_range_spec a rs : Forall is_byte a ->
  Forall (fun r => Forall is_byte (fst r) /\ (snd r <= 8 * length a)%nat /\ (snd r <= 8 * length (fst r))%nat) rs ->
  exists b, any_range a rs = Ok b /\ (b = true <-> Exists (fun r => same_bits (snd r) a (fst r)) rs).
Proof.
  intros A. induction 1 as [|[p n] rs (B & L1 & L2) F IH].
  - exists false. split; [reflexivity|]. split; [discriminate|]. intros E. inv E.
  - cbn [any_range]. cbn [fst snd] in *. destruct (prefix_check_spec a p n A B L1 L2) as (b & -> & S). cbn [obind].
    destruct b.
    + exists true. split; [reflexivity|]. split; auto. intros _. left. now apply S.
    + destruct IH as (b & -> & SB). exists b. split; [reflexivity|]. rewrite SB. split.
      * now right.
      * intros E. inv E; auto. cbn in H0. apply S in H0. discriminate.
Qed.

Lemma cidr4 a p n : ip4 a -> ip4 p -> (n <= 32)%nat -> same_bits n a p <-> in_cidr4 a p (Z.of_nat n).
Proof.
  intros [LA A] [LP P] N. rewrite same_bits_num by (auto; lia). unfold in_cidr4. rewrite LA.
  replace (Z.of_nat (8 * 4 - n)) with (32 - Z.of_nat n) by lia. reflexivity.
Qed.

Lemma public4 dbg a : ip4 a -> exists b, IsPubliclyRoutableIPv4 dbg a = Ok b /\ (b = true <-> ~ reserved4 a).
Proof.
  intros I. destruct I as [L A]. unfold IsPubliclyRoutableIPv4, dcheck. rewrite IsIPv4_true by auto. rewrite andb_false_r.
  destruct (any_range_spec a kReservedIPv4Ranges A) as (b & -> & S).
  { unfold kReservedIPv4Ranges. rewrite L. repeat constructor; cbn [fst snd length]; try lia; unfold is_byte; lia. }
  cbn [obind]. eexists. split; [reflexivity|].
  assert (E : reserved4 a <-> Exists (fun r => same_bits (snd r) a (fst r)) kReservedIPv4Ranges).
  { unfold kReservedIPv4Ranges, reserved4. rewrite !Exists_cons, Exists_nil. cbn [fst snd].
    rewrite !cidr4 by (try (split; [reflexivity|apply bytes_dec; reflexivity]); try (split; assumption); lia).
    assert (Q : in_cidr4 a [224; 0; 0; 0] (Z.of_nat 3) <-> 224 * 2 ^ 24 <= num a).
    { unfold in_cidr4. pose proof (num_bound a A) as B. rewrite L in B.
      change (256 ^ Z.of_nat 4) with 4294967296 in B. change (num [224; 0; 0; 0]) with 3758096384.
      change (2 ^ (32 - Z.of_nat 3)) with 536870912. change (224 * 2 ^ 24) with 3758096384.
      change (3758096384 / 536870912) with 7. Z.div_mod_to_equations. lia. }
    rewrite Q. change (Z.of_nat 8) with 8. change (Z.of_nat 10) with 10. change (Z.of_nat 16) with 16. change (Z.of_nat 12) with 12.
    change (Z.of_nat 24) with 24. change (Z.of_nat 15) with 15. tauto. }
  rewrite E, <- S. destruct b; cbn; intuition congruence.
Qed.

Lemma public6 dbg a : ip6 a -> IsIPv4MappedIPv6 a = false ->
  exists b, IsPubliclyRoutable dbg a = Ok b /\ (b = true <-> nth 0 a 0 / 32 = 1 \/ nth 0 a 0 = 255).
Proof.
  intros [L A] M. unfold IsPubliclyRoutable, IsPubliclyRoutableIPv6, dcheck. rewrite IsIPv4_false, IsIPv6_true by auto.
  rewrite andb_false_r, M. destruct a as [|x [|y a]]; try discriminate. inv A. cbn [nth].
  assert (K : any_range (x :: y :: a) kPublicIPv6Ranges = Ok ((x / 32 =? 1) || (x =? 255))).
  { unfold kPublicIPv6Ranges, any_range, IPAddressPrefixCheck. cbn [Nat.div Nat.modulo Nat.divmod fst snd Nat.sub prefix_bytes obind rd nth_error Nat.eqb].
    assert (T : Z.land x (Z.land (Z.shiftl 255 (8 - Z.of_nat 3)) 255) =? Z.land 32 (Z.land (Z.shiftl 255 (8 - Z.of_nat 3)) 255) = (x / 32 =? 1)).
    { apply eqb_prop. apply (byte_all (fun x => Bool.eqb (Z.land x (Z.land (Z.shiftl 255 (8 - Z.of_nat 3)) 255) =? Z.land 32 (Z.land (Z.shiftl 255 (8 - Z.of_nat 3)) 255)) (x / 32 =? 1))); [vm_compute; reflexivity|assumption]. }
    rewrite T. destruct (x / 32 =? 1); [reflexivity|]. cbn [orb]. destruct (x =? 255); reflexivity. }
  rewrite K. cbn [obind]. exists ((x / 32 =? 1) || (x =? 255)). split; [destruct ((x / 32 =? 1) || (x =? 255)); reflexivity|].
  rewrite orb_true_iff, !Z.eqb_eq. reflexivity.
Qed.

Lemma mapped_iff a : IsIPv4MappedIPv6 a = true <-> length a = 16%nat /\ exists b, a = mapped b.
Proof.
  unfold IsIPv4MappedIPv6, IsIPv6. rewrite andb_true_iff, Nat.eqb_eq, beq_eq. split.
  - intros [L E]. split; auto. exists (skipn 12 a). rewrite <- (firstn_skipn 12 a) at 1. rewrite E. reflexivity.
  - intros [L [b ->]]. split; auto.
Qed.
