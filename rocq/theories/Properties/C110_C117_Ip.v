(** C110-C117: IP addresses, blocks, endpoints. *)
From Verif.Model Require Import Common Bytes Decimal StrUtil IpAddress.
From Verif.Spec Require Import IpSpec StrSpec.
From Verif.Proofs Require Import Tac BytesProofs DecimalProofs StrProofs UrlProofs IpProofs IpProofs2 IpProofs3.
Open Scope Z_scope.

(** C110.  IPAddressMatchesPrefix(a, p, n) is true exactly if [a] lies in the block [p]/[n], for all
    valid addresses of either family and every prefix length, in every build. *)
Theorem C110_matches_prefix dbg a p n : ip a -> ip p -> (n <= 8 * length p)%nat ->
  exists b, IPAddressMatchesPrefix dbg a p n = Ok b /\ (b = true <-> in_block a p n).
Proof. exact (matches_spec dbg a p n). Qed.

(** For addresses of one family the block is an interval of numbers. *)
Theorem C110_block_is_interval a p n : Forall is_byte a -> Forall is_byte p -> length a = length p -> (n <= 8 * length a)%nat ->
  same_bits n a p <-> num a / 2 ^ Z.of_nat (8 * length a - n) = num p / 2 ^ Z.of_nat (8 * length a - n).
Proof. exact (same_bits_num a p n). Qed.

(** An IPv6 address lies in an IPv4 block only as the mapped form of an IPv4 address in it. *)
Theorem C110_mixed dbg a p n : ip6 a -> ip4 p -> (n <= 32)%nat ->
  IPAddressMatchesPrefix dbg a p n = Ok true <-> exists b, a = mapped b /\ ip4 b /\ same_bits n b p.
Proof.
  intros A P N. destruct (matches_spec dbg a p n) as (r & E & S); [right; auto|left; auto|destruct P; lia|].
  rewrite E. destruct A as [LA FA], P as [LP FP].
  assert (X : in_block a p n <-> same_bits (96 + n) a (mapped p)).
  { unfold in_block. split.
    - intros [[X _]|[[[X _] _]|[_ [_ X]]]]; auto; congruence.
    - intros X. right; right. repeat split; auto. }
  assert (D : forall i b, length b = 4%nat -> abit (mapped b) (96 + i) = abit b i).
  { intros i b L. unfold abit. replace (96 + i)%nat with (i + 12 * 8)%nat by lia.
    rewrite Nat.div_add, Nat.mod_add by lia. f_equal. unfold mapped. rewrite app_nth2 by (rewrite repeat_length; lia).
    rewrite repeat_length. rewrite app_nth2 by (cbn; lia). f_equal. cbn [length]. lia. }
  split.
  - intros Q. injection Q as ->. destruct (proj1 S eq_refl) as [?|?]; clear S; [destruct H; congruence|].
    assert (SB : same_bits (96 + n) a (mapped p)) by (apply X; right; auto).
    assert (S0 : same_bits (8 * 12 + 0) a (mapped p)) by (intros i I; apply SB; lia).
    apply same_bits_split in S0; auto using mapped_bytes; [|lia]. destruct S0 as [S0 _].
    assert (E12 : a = mapped (skipn 12 a)).
    { unfold mapped. rewrite app_assoc. rewrite <- (firstn_skipn 12 a) at 1. f_equal.
      apply nth_ext with (d := 0) (d' := 0); [rewrite firstn_length, LA; reflexivity|].
      intros i I. rewrite firstn_length, LA in I. cbn in I.
      transitivity (nth i a 0).
      - rewrite <- (firstn_skipn 12 a) at 2. rewrite app_nth1; auto. rewrite firstn_length, LA. cbn. lia.
      - rewrite S0 by lia. unfold mapped. rewrite app_assoc. rewrite app_nth1; auto. }
    exists (skipn 12 a). split; [exact E12|]. split.
    + split; [rewrite skipn_length, LA; reflexivity|]. rewrite <- (firstn_skipn 12 a) in FA. now apply Forall_app in FA.
    + intros i I. rewrite <- (D i p LP), <- (D i (skipn 12 a)) by (rewrite skipn_length, LA; reflexivity).
      rewrite <- E12. apply SB. lia.
  - intros (b & -> & [Lb Fb] & Sb). f_equal. apply S. apply X. intros i I.
    destruct (Nat.lt_ge_cases i 96) as [J|J].
    + unfold abit. assert (i / 8 < 12)%nat by (apply Nat.div_lt_upper_bound; lia). unfold mapped. rewrite !app_assoc.
      rewrite (app_nth1 (repeat 0 10 ++ [255; 255]) b), (app_nth1 (repeat 0 10 ++ [255; 255]) p) by (rewrite app_length, repeat_length; cbn [length]; lia). reflexivity.
    + replace i with (96 + (i - 96))%nat by lia. rewrite !D by auto. apply Sb. lia.
Qed.

Example C110_case : ip [10; 1; 2; 3] /\ ip [10; 0; 0; 0] /\
  IPAddressMatchesPrefix true [10; 1; 2; 3] [10; 0; 0; 0] 15 = Ok true /\
  IPAddressMatchesPrefix true [10; 1; 2; 3] [10; 0; 0; 0] 16 = Ok false /\
  IPAddressMatchesPrefix true (mapped [10; 1; 2; 3]) [10; 0; 0; 0] 8 = Ok true /\
  IPAddressMatchesPrefix true [10; 1; 2; 3] (mapped [10; 0; 0; 0]) 112 = Ok false.
Proof. repeat split; try reflexivity; left; (split; [reflexivity|apply bytes_dec; reflexivity]). Qed.

(** C111.  CommonPrefixLength: the number of leading bits the addresses share. *)
Theorem C111_common_prefix dbg a b : ip a -> ip b -> length a = length b ->
  exists n, CommonPrefixLength dbg a b = Ok n /\ (n <= 8 * length a)%nat /\ same_bits n a b /\
    ((n < 8 * length a)%nat -> abit a n <> abit b n).
Proof.
  intros A B L. apply common_spec; [destruct A as [[_ A]|[_ A]]; exact A|destruct B as [[_ B]|[_ B]]; exact B|lia|auto].
Qed.

(** "MaskPrefixLength(m) is the number of leading one bits of the mask", in every build. *)
Definition C111_mask_statement := forall dbg m, ip m ->
  exists n, MaskPrefixLength dbg m = Ok n /\ (n <= 8 * length m)%nat /\ (forall i, (i < n)%nat -> abit m i = true) /\
    ((n < 8 * length m)%nat -> abit m n = false).
(** False: in a build with DCHECKs it aborts on every IPv4 mask. *)
Theorem C111_mask_statement_refuted : ~ C111_mask_statement.
Proof.
  intros S. destruct (S true [255; 255; 0; 0]) as (n & E & _).
  - left. split; [reflexivity|apply bytes_dec; reflexivity].
  - discriminate E.
Qed.
Theorem C111_mask_v4_debug m : ip4 m -> MaskPrefixLength true m = CheckFail.
Proof. intros [L _]. unfold MaskPrefixLength, CommonPrefixLength, dcheck. rewrite L. reflexivity. Qed.

Lemma ones_bit i : (i < 128)%nat -> abit (repeat 255 16) i = true.
Proof.
  intros I. unfold abit. pose proof (Nat.mod_upper_bound i 8 ltac:(lia)) as M.
  assert (i / 8 < 16)%nat by (apply Nat.div_lt_upper_bound; lia).
  replace (nth (i / 8) (repeat 255 16) 0) with 255.
  - change 255 with (Z.ones 8). rewrite Z.testbit_ones_nonneg by lia. apply Z.ltb_lt. lia.
  - symmetry. rewrite nth_indep with (d' := 255) by (rewrite repeat_length; lia). apply nth_repeat.
Qed.
(** It holds for IPv6 masks, and for both families in builds without DCHECKs. *)
Theorem C111_mask_partial dbg m : ip m -> dbg = false \/ ip6 m ->
  exists n, MaskPrefixLength dbg m = Ok n /\ (n <= 8 * length m)%nat /\ (forall i, (i < n)%nat -> abit m i = true) /\
    ((n < 8 * length m)%nat -> abit m n = false).
Proof.
  intros M D. unfold MaskPrefixLength.
  assert (B : Forall is_byte (repeat 255 16)) by (apply bytes_dec; reflexivity).
  assert (F : Forall is_byte m) by (destruct M as [[_ M]|[_ M]]; exact M).
  assert (L : (length m <= 16)%nat) by (destruct M as [[E _]|[E _]]; lia).
  destruct (common_spec dbg m (repeat 255 16) F B) as (n & E & N & S & Df).
  - rewrite repeat_length. lia.
  - rewrite repeat_length. intros ->. destruct D as [D|[D _]]; [discriminate|exact D].
  - exists n. split; [exact E|]. split; [exact N|]. split.
    + intros i I. rewrite S by lia. apply ones_bit. lia.
    + intros X. specialize (Df X). rewrite ones_bit in Df by lia. now destruct (abit m n).
Qed.
Example C111_case : CommonPrefixLength true [10; 1; 2; 3] [10; 1; 3; 0] = Ok 23%nat /\
  MaskPrefixLength false [255; 255; 240; 0] = Ok 20%nat /\ ip6 (repeat 255 4 ++ repeat 0 12) /\
  MaskPrefixLength true (repeat 255 4 ++ repeat 0 12) = Ok 32%nat.
Proof. repeat split; try reflexivity. apply bytes_dec. reflexivity. Qed.

(** C112.  "Mapping an IPv4 address to IPv6 and converting back yields the address." *)
Definition C112_statement := forall dbg a, ip4 a ->
  obind (ConvertIPv4ToIPv4MappedIPv6 dbg a) (ConvertIPv4MappedIPv6ToIPv4 dbg) = Ok a.
(** False: the conversion back copies a range whose two ends lie in different arrays. *)
Theorem C112_statement_refuted : ~ C112_statement.
Proof.
  intros S. specialize (S false [1; 2; 3; 4]). discriminate S. split; [reflexivity|apply bytes_dec; reflexivity].
Qed.
Theorem C112_back_conversion_undefined dbg a : ip4 a ->
  obind (ConvertIPv4ToIPv4MappedIPv6 dbg a) (ConvertIPv4MappedIPv6ToIPv4 dbg) = UB.
Proof.
  intros I. rewrite conv_mapped by auto. cbn [obind]. unfold ConvertIPv4MappedIPv6ToIPv4, dcheck.
  replace (IsIPv4MappedIPv6 (mapped a)) with true.
  - now rewrite andb_false_r.
  - symmetry. apply mapped_iff. rewrite mapped_len. destruct I as [L _]. rewrite L. split; [reflexivity|]. now exists a.
Qed.
(** What holds: the mapping itself, and the recognition of mapped addresses. *)
Theorem C112_mapping_partial dbg a : ip4 a -> ConvertIPv4ToIPv4MappedIPv6 dbg a = Ok (mapped a) /\ ip6 (mapped a) /\
  IsIPv4MappedIPv6 (mapped a) = true.
Proof.
  intros I. split; [now apply conv_mapped|]. destruct I as [L F]. split.
  - split; [rewrite mapped_len; lia|now apply mapped_bytes].
  - apply mapped_iff. rewrite mapped_len. split; [lia|now exists a].
Qed.
Theorem C112_recognised_partial a : ip6 a -> (IsIPv4MappedIPv6 a = true <-> exists b, ip4 b /\ a = mapped b).
Proof.
  intros [L F]. rewrite mapped_iff. split.
  - intros [_ [b ->]]. exists b. rewrite mapped_len in L. repeat split; try lia.
    unfold mapped in F. apply Forall_app in F. destruct F as [_ F]. now apply Forall_app in F.
  - intros (b & _ & ->). split; auto. now exists b.
Qed.

(** C113.  "IsPubliclyRoutable: an IPv4 address is public iff in none of the reserved ranges; an IPv6
    address iff in 2000::/3 or ff00::/8, or the mapped form of a public IPv4 address." *)
Definition C113_statement := forall dbg a, ip a -> exists b, IsPubliclyRoutable dbg a = Ok b /\
  (b = true <-> (ip4 a /\ ~ reserved4 a) \/ (ip6 a /\ (nth 0 a 0 / 32 = 1 \/ nth 0 a 0 = 255)) \/
                (exists c, ip4 c /\ a = mapped c /\ ~ reserved4 c)).
(** False for every mapped address: undefined behaviour. *)
Theorem C113_mapped_undefined dbg a : ip4 a -> IsPubliclyRoutable dbg (mapped a) = UB.
Proof.
  intros I. destruct (C112_mapping_partial dbg a I) as (_ & [L F] & M).
  unfold IsPubliclyRoutable, IsPubliclyRoutableIPv6. rewrite IsIPv4_false, IsIPv6_true by auto.
  unfold dcheck at 1. rewrite andb_false_r, M. unfold ConvertIPv4MappedIPv6ToIPv4, dcheck. rewrite M, andb_false_r.
  reflexivity.
Qed.
Theorem C113_statement_refuted : ~ C113_statement.
Proof.
  intros S. assert (I : ip4 [1; 2; 3; 4]) by (split; [reflexivity|apply bytes_dec; reflexivity]).
  destruct (S false (mapped [1; 2; 3; 4])) as (b & E & _).
  - right. now apply (C112_mapping_partial false).
  - rewrite C113_mapped_undefined in E by auto. discriminate.
Qed.
Theorem C113_public_v4_partial dbg a : ip4 a -> exists b, IsPubliclyRoutable dbg a = Ok b /\ (b = true <-> ~ reserved4 a).
Proof. intros I. unfold IsPubliclyRoutable. rewrite IsIPv4_true by apply I. now apply public4. Qed.
Theorem C113_public_v6_partial dbg a : ip6 a -> IsIPv4MappedIPv6 a = false ->
  exists b, IsPubliclyRoutable dbg a = Ok b /\ (b = true <-> nth 0 a 0 / 32 = 1 \/ nth 0 a 0 = 255).
Proof. exact (public6 dbg a). Qed.

(** Loopback, link-local and the zero address, for every valid address. *)
Theorem C113_loopback_partial a : ip a -> (IsLoopback a = true <->
  (ip4 a /\ in_cidr4 a [127; 0; 0; 0] 8) \/ (ip6 a /\ num a = 1)).
Proof.
  intros [I|I].
  - unfold IsLoopback. rewrite IsIPv4_true by apply I. rewrite Z.eqb_eq.
    assert (X : nth 0 a 0 = 127 <-> in_cidr4 a [127; 0; 0; 0] 8).
    { rewrite <- (cidr4 a [127; 0; 0; 0] 8) by (first [assumption|lia|split; [reflexivity|apply bytes_dec; reflexivity]]).
      change 8%nat with (8 * 1 + 0)%nat. rewrite same_bits_split by (try apply I; try lia; apply bytes_dec; reflexivity). split.
      - intros E. split; [|intros; lia]. intros [|j] J; [exact E|lia].
      - intros [E _]. apply (E 0%nat). lia. }
    rewrite X. split; [auto|]. intros [[_ H]|[[H _] _]]; auto. destruct I. congruence.
  - pose proof I as [L F]. unfold IsLoopback. rewrite IsIPv4_false, IsIPv6_true by apply I.
    assert (X : forallb (fun x => x =? 0) (firstn 15 a) && (nth 15 a 0 =? 1) = true <-> num a = 1).
    { rewrite andb_true_iff, Z.eqb_eq, forallb_forall.
      assert (A15 : a = firstn 15 a ++ [nth 15 a 0]) by (clear F I; list16 a L; reflexivity). split.
      - intros [Z0 N]. rewrite N in A15.
        assert (Q : firstn 15 a = repeat 0 15).
        { assert (F0 : Forall (eq 0) (firstn 15 a)) by (apply Forall_forall; intros x X; symmetry; now apply Z.eqb_eq, Z0).
          apply Forall_eq_repeat in F0. rewrite F0, firstn_length, L. reflexivity. }
        rewrite A15, Q. reflexivity.
      - intros N.
        assert (E : num (repeat 0 15 ++ [1]) = 1) by reflexivity. rewrite <- E in N.
        apply num_inj in N; auto; [|apply bytes_dec; reflexivity]. rewrite N. split; [|reflexivity].
        intros x X. apply Z.eqb_eq. cbn in X. intuition. }
    rewrite X. split; [auto|]. intros [[[H _] _]|[_ H]]; auto. congruence.
Qed.
Theorem C113_link_local_partial a : ip a -> (IsLinkLocal a = true <->
  (ip4 a /\ nth 0 a 0 = 169 /\ nth 1 a 0 = 254) \/
  (ip6 a /\ nth 0 a 0 = 254 /\ 128 <= nth 1 a 0 <= 191) \/
  (exists c, ip4 c /\ a = mapped c /\ nth 0 c 0 = 169 /\ nth 1 c 0 = 254)).
Proof.
  intros [I|I].
  - unfold IsLinkLocal. rewrite IsIPv4_true by apply I. rewrite andb_true_iff, !Z.eqb_eq. split; [auto|].
    intros [[_ H]|[[[H _] _]|(c & [L _] & E & _)]]; auto; destruct I as [L' _]; try congruence.
    rewrite E, mapped_len, L in L'. discriminate.
  - unfold IsLinkLocal. rewrite IsIPv4_false, IsIPv6_true by apply I.
    destruct (IsIPv4MappedIPv6 a) eqn:M.
    + apply C112_recognised_partial in M; auto. destruct M as (c & C & ->).
      assert (N : forall i, nth (12 + i) (mapped c) 0 = nth i c 0) by (intros i; reflexivity).
      rewrite (N 0%nat : nth 12 _ _ = _), (N 1%nat : nth 13 _ _ = _).
      rewrite andb_true_iff, !Z.eqb_eq. split.
      * intros H. right; right. exists c. auto.
      * intros [[[H _] _]|[[_ [H _]]|(c' & _ & E & H)]].
        -- rewrite mapped_len in H. destruct C. lia.
        -- discriminate H.
        -- unfold mapped in E. injection E as ->. exact H.
    + rewrite andb_true_iff, Z.eqb_eq.
      assert (B : is_byte (nth 1 a 0)) by (apply nth_byte; apply I).
      assert (X : Z.land (nth 1 a 0) 192 =? 128 = ((128 <=? nth 1 a 0) && (nth 1 a 0 <=? 191))).
      { apply eqb_prop. apply (byte_all (fun x => Bool.eqb (Z.land x 192 =? 128) ((128 <=? x) && (x <=? 191)))); auto. }
      rewrite X, andb_true_iff, !Z.leb_le. split.
      * intros H. right; left. auto.
      * intros [[[H _] _]|[[_ H]|(c & C & E & _)]]; auto.
        -- destruct I. congruence.
        -- assert (IsIPv4MappedIPv6 a = true) by (apply C112_recognised_partial; auto; exists c; auto). congruence.
Qed.
Theorem C113_zero_partial a : ip a -> (IsZero a = true <-> num a = 0).
Proof.
  intros I. unfold IsZero. assert (L : (length a =? 0)%nat = false) by (destruct I as [[L _]|[L _]]; rewrite L; reflexivity).
  rewrite L. cbn [negb]. rewrite andb_true_r. assert (F : Forall is_byte a) by (destruct I as [[_ F]|[_ F]]; exact F).
  clear I L. induction F as [|x a X F IH]; [split; reflexivity|].
  cbn [forallb]. rewrite andb_true_iff, Z.eqb_eq, IH, num_cons. pose proof (num_bound a F). unfold is_byte in X. split.
  - intros [-> ->]. reflexivity.
  - intros E. nia.
Qed.
Example C113_case : IsPubliclyRoutable true [8; 8; 8; 8] = Ok true /\ IsPubliclyRoutable true [172; 31; 255; 255] = Ok false /\
  IsPubliclyRoutable true [172; 32; 0; 0] = Ok true /\ IsPubliclyRoutable true (32 :: 1 :: repeat 0 14) = Ok true /\
  IsIPv4MappedIPv6 (32 :: 1 :: repeat 0 14) = false /\ IsLinkLocal (254 :: 191 :: repeat 0 14) = true /\
  IsLoopback (repeat 0 15 ++ [1]) = true /\ IsLoopback [127; 9; 9; 9] = true.
Proof. repeat split; reflexivity. Qed.

(** C114.  Endpoint -> sockaddr -> endpoint is the identity, for every buffer large enough. *)
Theorem C114_sockaddr_roundtrip e mem len : ip (ep_addr e) -> port (ep_port e) -> (28 <= len <= length mem)%nat ->
  exists n m, ToSockAddr e mem len = Ok (n, m) /\ length m = length mem /\ FromSockAddr m n = Ok (Some e).
Proof.
  destruct e as [a p]. cbn [ep_addr ep_port]. intros [[L F]|[L F]] P N.
  - exists 16%nat. eexists. split; [apply to_v4; auto; lia|]. split.
    + rewrite app_length, sin_len, skipn_length by auto. lia.
    + unfold sockaddr_in. rewrite <- !app_assoc. apply from_v4; auto.
  - exists 28%nat. eexists. split; [apply to_v6; auto; lia|]. split.
    + rewrite app_length, sin6_len, skipn_length by auto. lia.
    + unfold sockaddr_in6. rewrite <- !app_assoc. apply from_v6; auto.
Qed.
(** A buffer announced as too small is left alone and 0 returned; no write goes past the announced size. *)
Theorem C114_small_buffer e mem len : ip (ep_addr e) -> (len < (if IsIPv4 (ep_addr e) then 16 else 28))%nat ->
  ToSockAddr e mem len = Ok (0%nat, mem).
Proof.
  destruct e as [a p]. cbn [ep_addr]. intros [[L F]|[L F]]; unfold ToSockAddr; cbn [ep_addr ep_port].
  - rewrite IsIPv4_true by auto. intros N. apply Nat.ltb_lt in N. now rewrite N.
  - rewrite IsIPv4_false, IsIPv6_true by auto. intros N. apply Nat.ltb_lt in N. now rewrite N.
Qed.
(** "The peer (local) endpoint of a socket is the one the kernel knows."  [real_addr e m]: the kernel's
    socket address of endpoint [e]. *)
Definition real_addr (e : IPEndPoint) (m : list Z) : Prop :=
  (ip4 (ep_addr e) /\ m = sockaddr_in (ep_addr e) (ep_port e)) \/
  (ip6 (ep_addr e) /\ exists flow scope, length flow = 4%nat /\ length scope = 4%nat /\ m = sockaddr_in6 flow (ep_addr e) (ep_port e) scope).
Definition C114_peer_statement := forall e m, port (ep_port e) -> real_addr e m -> GetEndpoint (Some m) = Ok (Some e).
(** False for every IPv6 endpoint: the buffer has room for an IPv4 socket address only, and the address
    is then read past its end. *)
Theorem C114_peer_v6_undefined e m : ip6 (ep_addr e) -> real_addr e m -> GetEndpoint (Some m) = UB.
Proof.
  intros [L F] [[[L' _] _]|[_ (fl & sc & F1 & F2 & ->)]]; [congruence|]. now apply get_v6.
Qed.
Theorem C114_peer_statement_refuted : ~ C114_peer_statement.
Proof.
  intros S.
  assert (I : ip6 (repeat 0 15 ++ [1])) by (split; [reflexivity|apply bytes_dec; reflexivity]).
  assert (R : real_addr (mkEP (repeat 0 15 ++ [1]) 80) (sockaddr_in6 (repeat 0 4) (repeat 0 15 ++ [1]) 80 (repeat 0 4))).
  { right. split; [exact I|]. exists (repeat 0 4), (repeat 0 4). repeat split. }
  assert (P : port 80) by (unfold port; lia). pose proof (S (mkEP (repeat 0 15 ++ [1]) 80) _ P R) as E. rewrite (C114_peer_v6_undefined (mkEP (repeat 0 15 ++ [1]) 80) _ I R) in E. discriminate.
Qed.
Theorem C114_peer_v4_partial e m : ip4 (ep_addr e) -> port (ep_port e) -> real_addr e m -> GetEndpoint (Some m) = Ok (Some e).
Proof.
  destruct e as [a p]. cbn [ep_addr ep_port]. intros [L F] P [[_ ->]|[[L' _] _]]; [now apply get_v4|cbn in L'; congruence].
Qed.
(** A socket connected to itself is recognised, for IPv4. *)
Theorem C114_self_connect_partial x y mx my : ip4 (ep_addr x) -> ip4 (ep_addr y) -> port (ep_port x) -> port (ep_port y) ->
  real_addr x mx -> real_addr y my -> exists r, IsSelfConnect (Some mx) (Some my) = Ok r /\ (r = true <-> x = y).
Proof.
  destruct x as [a p], y as [b q]. cbn [ep_addr ep_port]. intros [LA _] [LB _] P Q [[_ ->]|[[L' _] _]]; [|cbn in L'; congruence].
  intros [[_ ->]|[[L' _] _]]; [|cbn in L'; congruence]. cbn [ep_addr ep_port].
  destruct (self_v4 a p b q LA LB P Q) as (r & E & S). exists r. split; [exact E|]. rewrite S. split.
  - intros [-> ->]. reflexivity.
  - intros H. injection H. auto.
Qed.
Example C114_case : exists m, ToSockAddr (mkEP [10; 0; 0; 1] 8080) (repeat 7 128) 128 = Ok (16%nat, m) /\
  FromSockAddr m 16 = Ok (Some (mkEP [10; 0; 0; 1] 8080)) /\ firstn 8 m = [2; 0; 31; 144; 10; 0; 0; 1].
Proof. eexists. repeat split; reflexivity. Qed.

(** C115.  IP literals.  The C library's IPv6 reader is a parameter: it yields 16 bytes, and rejects any
    text with a closing bracket in it. *)
Section Literals.
Variable pton6 : list Z -> option (list Z).
Hypothesis pton6_bytes : forall s a, pton6 s = Some a -> ip6 a.
Hypothesis pton6_bracket : forall s, In 93 s -> pton6 s = None.
Local Notation Assign := (AssignFromIPLiteral pton6).

(** "AssignFromIPLiteral accepts exactly the characters of the piece it is given." *)
Definition C115_piece_statement := forall p a b c d, is_byte a -> is_byte b -> is_byte c -> is_byte d ->
  chars p = dotted a b c d -> Assign p = Ok (true, [a; b; c; d]).
(** False: it reads on past the end of the piece, up to a NUL: "127.0.0.1" as part of "127.0.0.1:80"
    is rejected. *)
Theorem C115_piece_statement_refuted : ~ C115_piece_statement.
Proof.
  intros S. assert (H := S (mkPiece (dotted 127 0 0 1 ++ [58; 56; 48; 0]) 9) 127 0 0 1).
  assert (E : Ok (false, []) = Ok (true, [127; 0; 0; 1])) by (apply H; unfold is_byte; try lia; reflexivity).
  discriminate.
Qed.
(** ... and its outcome depends on memory outside the piece altogether. *)
Theorem C115_reads_outside : exists m1 m2, firstn 7 m1 = firstn 7 m2 /\
  Assign (mkPiece m1 7) = Ok (true, [1; 2; 3; 4]) /\ Assign (mkPiece m2 7) = Ok (true, [1; 2; 3; 45]).
Proof. exists (dotted 1 2 3 4 ++ [0]), (dotted 1 2 3 45 ++ [0]). repeat split. Qed.

(** For whole strings without NUL: a text without ':' is accepted exactly if it is a dotted quad, and
    yields its bytes; the address is emptied on failure. *)
Theorem C115_ipv4_literal_partial s : ~ In 0 s -> ~ In 58 s ->
  (forall r, Assign (piece_of s) = Ok (true, r) <->
     exists a b c d, is_byte a /\ is_byte b /\ is_byte c /\ is_byte d /\ r = [a; b; c; d] /\ s = dotted a b c d) /\
  ((forall r, Assign (piece_of s) <> Ok (true, r)) -> Assign (piece_of s) = Ok (false, [])).
Proof.
  intros N C. unfold AssignFromIPLiteral, piece_of, chars. cbn [pc_mem pc_len].
  rewrite firstn_app, firstn_all, Nat.sub_diag. cbn [firstn]. rewrite app_nil_r.
  destruct (existsb (Z.eqb 58) s) eqn:X; [apply has_colon in X; tauto|]. rewrite cstr_app by auto. cbn [obind].
  split.
  - intros r. rewrite <- pton4_iff. destruct (inet_pton4 s); split; intros H; inv H; reflexivity.
  - intros H. destruct (inet_pton4 s) as [r|]; [elim (H r); reflexivity|reflexivity].
Qed.
(** A text with ':' is left to the IPv6 reader. *)
Theorem C115_ipv6_literal_partial s : ~ In 0 s -> In 58 s ->
  Assign (piece_of s) = Ok (match pton6 s with Some a => (true, a) | None => (false, []) end).
Proof.
  intros N C. unfold AssignFromIPLiteral, piece_of, chars. cbn [pc_mem pc_len].
  rewrite firstn_app, firstn_all, Nat.sub_diag. cbn [firstn]. rewrite app_nil_r.
  apply has_colon in C. rewrite C, cstr_app by auto. reflexivity.
Qed.

(** "ParseURLHostnameToAddress accepts [v6-literal] exactly if the IPv6 reader accepts the literal." *)
Definition C115_hostname_statement := forall s a, ~ In 0 s -> In 58 s -> pton6 s = Some a ->
  ParseURLHostnameToAddress pton6 (piece_of (91 :: s ++ [93])) = Ok (true, a).
Lemma bracket_rejected s : ~ In 0 s -> ParseURLHostnameToAddress pton6 (piece_of (91 :: s ++ [93])) = Ok (false, []).
Proof.
  intros N. unfold ParseURLHostnameToAddress.
  assert (Ch : chars (piece_of (91 :: s ++ [93])) = 91 :: s ++ [93]).
  { unfold chars, piece_of. cbn [pc_mem pc_len]. rewrite firstn_app, firstn_all, Nat.sub_diag. cbn [firstn]. apply app_nil_r. }
  rewrite Ch. cbn [length]. rewrite app_length. cbn [length].
  replace (nth (S (length s + 1) - 1) (91 :: s ++ [93]) 0) with 93.
  2:{ replace (S (length s + 1) - 1)%nat with (S (length s)) by lia. cbn [nth]. rewrite app_nth2 by lia. now rewrite Nat.sub_diag. }
  replace (2 <=? S (length s + 1))%nat with true by (symmetry; apply Nat.leb_le; lia). cbn [nth andb Z.eqb Pos.eqb].
  assert (Cs : cstr (pc_mem (psub (piece_of (91 :: s ++ [93])) 1 (pc_len (piece_of (91 :: s ++ [93])) - 2))) = Ok (s ++ [93])).
  { unfold psub, piece_of. cbn [pc_mem]. cbn [app skipn]. rewrite <- app_assoc.
    change ([93] ++ [0]) with (93 :: 0 :: []). replace (s ++ 93 :: [0]) with ((s ++ [93]) ++ 0 :: []) by (rewrite <- app_assoc; reflexivity).
    apply cstr_app. rewrite in_app_iff. cbn. intuition discriminate. }
  unfold AssignFromIPLiteral. rewrite Cs. cbn [obind].
  assert (B : In 93 (s ++ [93])) by (apply in_app_iff; right; now left).
  rewrite (pton6_bracket _ B).
  assert (P4 : inet_pton4 (s ++ [93]) = None).
  { destruct (inet_pton4 (s ++ [93])) as [r|] eqn:E; auto. apply pton4_iff in E.
    destruct E as (a & b & c & d & A & Bb & Cc & D & _ & E). pose proof (dotted_chars a b c d A Bb Cc D) as F.
    rewrite <- E in F. rewrite Forall_forall in F. specialize (F 93 B). cbn in F. lia. }
  rewrite P4. destruct (existsb _ _); reflexivity.
Qed.
(** False of every literal the reader accepts: the closing bracket is passed on to it. *)
Theorem C115_bracketed_always_rejected s : ~ In 0 s ->
  ParseURLHostnameToAddress pton6 (piece_of (91 :: s ++ [93])) = Ok (false, []).
Proof. exact (bracket_rejected s). Qed.
Theorem C115_hostname_statement_refuted : (exists s a, ~ In 0 s /\ In 58 s /\ pton6 s = Some a) -> ~ C115_hostname_statement.
Proof.
  intros (s & a & N & C & P) S. specialize (S s a N C P). rewrite bracket_rejected in S by auto. discriminate.
Qed.
(** IPv4 host names work. *)
Theorem C115_hostname_v4_partial s r : ~ In 0 s -> ~ In 58 s ->
  ParseURLHostnameToAddress pton6 (piece_of s) = Ok (true, r) <->
     exists a b c d, is_byte a /\ is_byte b /\ is_byte c /\ is_byte d /\ r = [a; b; c; d] /\ s = dotted a b c d.
Proof.
  intros N C.
  assert (Ch : chars (piece_of s) = s).
  { unfold chars, piece_of. cbn [pc_mem pc_len]. rewrite firstn_app, firstn_all, Nat.sub_diag. cbn [firstn]. apply app_nil_r. }
  destruct ((2 <=? length s)%nat && (nth 0 s 0 =? 91) && (nth (length s - 1) s 0 =? 93)) eqn:B.
  - apply andb_true_iff in B. destruct B as [B H1]. apply andb_true_iff in B. destruct B as [H2 H0].
    apply Nat.leb_le in H2. apply Z.eqb_eq in H0, H1. destruct s as [|x s]; [cbn in *; lia|]. cbn [nth] in H0. subst x.
    assert (exists t, s = t ++ [93]) as (t & ->).
    { destruct (exists_last (l := s)) as (t & y & ->); [intros ->; cbn in *; lia|]. exists t.
      cbn [length] in H1. rewrite app_length in H1. replace (S (length t + length [y]) - 1)%nat with (S (length t)) in H1 by (cbn; lia).
      cbn [nth] in H1. rewrite app_nth2, Nat.sub_diag in H1 by lia. cbn in H1. now subst. }
    rewrite bracket_rejected; [|intros I; apply N; right; apply in_app_iff; now left]. split; [discriminate|].
    intros (a & b & c & d & A & Bb & Cc & D & _ & E). pose proof (dotted_chars a b c d A Bb Cc D) as F.
    rewrite <- E in F. inv F. lia.
  - unfold ParseURLHostnameToAddress. rewrite Ch, B.
    destruct (C115_ipv4_literal_partial s N C) as [P1 P2]. rewrite <- P1.
    destruct (Assign (piece_of s)) as [[f t]| |] eqn:E; cbn [obind fst snd]; try (split; discriminate).
    destruct f; [|cbn; split; intros H; inv H].
    destruct (proj1 (P1 t) eq_refl) as (a & b & c & d & _ & _ & _ & _ & -> & _).
    cbn. split; intros H; inv H; reflexivity.
Qed.

(** "ParseCIDRBlock accepts every text literal/n with n a numeral not greater than the address width." *)
Definition C115_cidr_statement := forall a b c d n ns a0 n0, is_byte a -> is_byte b -> is_byte c -> is_byte d ->
  numeral ns n -> n <= 32 ->
  ParseCIDRBlock pton6 (dotted a b c d ++ [47] ++ ns) a0 n0 = Ok (true, [a; b; c; d], Z.to_nat n).
Lemma cidr_fields s t a0 n0 : ~ In 47 s -> ~ In 47 t -> ~ In 0 s -> ~ In 58 s ->
  ParseCIDRBlock pton6 (s ++ [47] ++ t) a0 n0 =
  match inet_pton4 s with
  | Some r => let (good, v) := ParseTo 32 t 0 in
      if negb good then Ok (false, r, n0)
      else if Z.of_nat (length r) * 8 <? v then Ok (false, r, n0) else Ok (true, r, Z.to_nat v)
  | None => Ok (false, [], n0)
  end.
Proof.
  intros S T N C. unfold ParseCIDRBlock. rewrite (split_fields 47 (s ++ [47] ++ t) [s; t]).
  2:{ split; [discriminate|]. split; [repeat constructor; auto|]. reflexivity. }
  unfold AssignFromIPLiteral, piece_of, chars. cbn [pc_mem pc_len].
  rewrite firstn_app, firstn_all, Nat.sub_diag. cbn [firstn]. rewrite app_nil_r.
  destruct (existsb (Z.eqb 58) s) eqn:X; [apply has_colon in X; tauto|]. rewrite cstr_app by auto. cbn [obind].
  destruct (inet_pton4 s); reflexivity.
Qed.
Lemma dotted_not a b c d x : is_byte a -> is_byte b -> is_byte c -> is_byte d -> x <> 46 -> ~ (48 <= x <= 57) -> ~ In x (dotted a b c d).
Proof.
  intros A B C D X Y I. pose proof (dotted_chars a b c d A B C D) as F. rewrite Forall_forall in F. specialize (F x I). cbn in F. lia.
Qed.
(** False of every well-formed block: the number of bits is reported as unreadable. *)
Theorem C115_cidr_always_rejected a b c d n ns a0 n0 : is_byte a -> is_byte b -> is_byte c -> is_byte d -> numeral ns n ->
  exists r, ParseCIDRBlock pton6 (dotted a b c d ++ [47] ++ ns) a0 n0 = Ok (false, r, n0).
Proof.
  intros A B C D Nm. exists [a; b; c; d]. rewrite cidr_fields; try (apply dotted_not; auto; lia).
  - rewrite (proj2 (pton4_iff (dotted a b c d) [a; b; c; d])) by (exists a, b, c, d; repeat split; auto; apply A || apply B || apply C || apply D).
    pose proof (extract_numeral 32 ns n [] Nm) as E. rewrite app_nil_r in E.
    unfold ParseTo. rewrite E by discriminate. cbn zeta.
    destruct (n <? 2 ^ 32); reflexivity.
  - eapply numeral_not; eauto. lia.
Qed.
Theorem C115_cidr_statement_refuted : ~ C115_cidr_statement.
Proof.
  intros S. assert (Nm : numeral [56] 8) by (split; [discriminate|]; split; [repeat constructor; unfold digit; lia|reflexivity]).
  destruct (C115_cidr_always_rejected 10 0 0 0 8 [56] [] 0) as (r & E); auto; try (unfold is_byte; lia).
  rewrite (S 10 0 0 0 8 [56] [] 0%nat) in E; auto; try (unfold is_byte; lia). discriminate.
Qed.
(** ... while blocks with trailing junk are accepted. *)
Theorem C115_cidr_junk_accepted a b c d n ns x j a0 n0 : is_byte a -> is_byte b -> is_byte c -> is_byte d -> numeral ns n -> n <= 32 ->
  ~ digit x -> x <> 47 -> ~ In 47 j ->
  ParseCIDRBlock pton6 (dotted a b c d ++ [47] ++ ns ++ x :: j) a0 n0 = Ok (true, [a; b; c; d], Z.to_nat n).
Proof.
  intros A B C D Nm Le X X47 J. rewrite cidr_fields; try (apply dotted_not; auto; lia).
  - rewrite (proj2 (pton4_iff (dotted a b c d) [a; b; c; d])) by (exists a, b, c, d; repeat split; auto; apply A || apply B || apply C || apply D).
    unfold ParseTo. rewrite (extract_numeral 32 ns n (x :: j) Nm) by (intros ? ? H; injection H as <- <-; exact X).
    assert (2 ^ 32 = 4294967296) as -> by reflexivity. replace (n <? 4294967296) with true by (symmetry; apply Z.ltb_lt; lia).
    cbn [ex_fail ex_eof ex_val negb andb length]. replace (Z.of_nat 4 * 8 <? n) with false by (symmetry; apply Z.ltb_ge; lia).
    reflexivity.
  - rewrite in_app_iff. intros [H|[H|H]]; auto. revert H. eapply numeral_not; eauto. lia.
Qed.
(** What remains: an accepted block names an IPv4 literal and a width that fits. *)
Theorem C115_cidr_accepted_partial s t a0 n0 r n : ~ In 47 s -> ~ In 47 t -> ~ In 0 s -> ~ In 58 s ->
  ParseCIDRBlock pton6 (s ++ [47] ++ t) a0 n0 = Ok (true, r, n) ->
  (n <= 32)%nat /\ exists a b c d, is_byte a /\ is_byte b /\ is_byte c /\ is_byte d /\ r = [a; b; c; d] /\ s = dotted a b c d.
Proof.
  intros S T N C E. rewrite cidr_fields in E by auto. destruct (inet_pton4 s) as [q|] eqn:P; [|discriminate].
  destruct (ParseTo 32 t 0) as [g v]. destruct g; [|discriminate]. cbn [negb] in E.
  destruct (Z.ltb_spec (Z.of_nat (length q) * 8) v); [discriminate|]. inv E. apply pton4_iff in P.
  destruct P as (a & b & c & d & A & B & Cc & D & -> & ->). cbn in H. split; [lia|]. exists a, b, c, d. auto 10.
Qed.
End Literals.

Example C115_case : ParseURLHostnameToAddress (fun _ => None) (piece_of (dotted 10 0 0 255)) = Ok (true, [10; 0; 0; 255]) /\
  ParseCIDRBlock (fun _ => None) (dotted 10 0 0 0 ++ [47; 56]) [] 0 = Ok (false, [10; 0; 0; 0], 0%nat) /\
  ParseCIDRBlock (fun _ => None) (dotted 10 0 0 0 ++ [47; 56; 120]) [] 0 = Ok (true, [10; 0; 0; 0], 8%nat).
Proof. repeat split; reflexivity. Qed.

(** C116.  "ToString is the canonical text of the address, and empty for an invalid one." *)
Section Text.
Variable ntop6 : list Z -> list Z.
Hypothesis ntop6_text : forall a, length a = 16%nat -> ~ In 0 (ntop6 a) /\ (1 <= length (ntop6 a) <= 45)%nat.
Variable pton6 : list Z -> option (list Z).

Definition C116_statement := forall a b c d rest, is_byte a -> is_byte b -> is_byte c -> is_byte d ->
  ToString ntop6 [a; b; c; d] rest = dotted a b c d.
Definition C116_empty_statement := forall a rest, IsValid a = false -> length (a ++ rest) = 16%nat -> ToString ntop6 a rest = [].
(** Both false: the string keeps the maximal length, padded with NULs; and an empty address prints as
    some IPv6 address. *)
Theorem C116_statement_refuted : ~ C116_statement.
Proof.
  intros S. assert (E : ToString ntop6 [1; 2; 3; 4] (repeat 0 12) = dotted 1 2 3 4) by (apply S; unfold is_byte; lia).
  discriminate E.
Qed.
Theorem C116_empty_statement_refuted : ~ C116_empty_statement.
Proof.
  intros S. specialize (S [] (repeat 0 16) eq_refl eq_refl).
  destruct (ntop6_text (repeat 0 16) eq_refl) as [_ [L _]]. apply (f_equal (@length Z)) in S. revert S.
  unfold ToString. rewrite app_length. cbn [app]. change (firstn 16 (repeat 0 16)) with (repeat 0 16).
  change (IsIPv4 []) with false. cbv iota beta. cbn [length]. lia.
Qed.
Lemma dotted_len a b c d : is_byte a -> is_byte b -> is_byte c -> is_byte d -> (7 <= length (dotted a b c d) <= 15)%nat.
Proof.
  intros A B C D.
  assert (U : forall n, is_byte n -> (1 <= length (udec n) <= 3)%nat).
  { intros n N. assert (Q := byte_all (fun n => (1 <=? length (udec n))%nat && (length (udec n) <=? 3)%nat) ltac:(vm_compute; reflexivity) n N).
    cbn beta in Q. b2p. lia. }
  pose proof (U a A). pose proof (U b B). pose proof (U c C). pose proof (U d D).
  unfold dotted. rewrite !app_length. cbn [length]. lia.
Qed.
Lemma c_str_app s n : ~ In 0 s -> c_str (s ++ repeat 0 n) = s.
Proof.
  induction s as [|x s IH]; intros N; cbn [app c_str].
  - destruct n; reflexivity.
  - destruct (Z.eqb_spec x 0) as [->|]; [elim N; now left|]. rewrite IH; auto. intros I; apply N; now right.
Qed.
(** What holds: the text is right up to its first NUL, its length is always 15 (45 for IPv6). *)
Theorem C116_text_partial a b c d rest : is_byte a -> is_byte b -> is_byte c -> is_byte d ->
  c_str (ToString ntop6 [a; b; c; d] rest) = dotted a b c d /\ length (ToString ntop6 [a; b; c; d] rest) = 15%nat.
Proof.
  intros A B C D. unfold ToString. change (IsIPv4 [a; b; c; d]) with true. cbv iota. cbv zeta.
  change (inet_ntop4 [a; b; c; d]) with (dotted a b c d). split.
  - apply c_str_app. apply dotted_not; auto; lia.
  - rewrite app_length, repeat_length. pose proof (dotted_len a b c d A B C D). lia.
Qed.
Theorem C116_text_v6_partial a rest : length a = 16%nat ->
  c_str (ToString ntop6 a rest) = ntop6 a /\ length (ToString ntop6 a rest) = 45%nat.
Proof.
  intros L. unfold ToString. rewrite IsIPv4_false by auto. cbv zeta.
  rewrite firstn_app, L, Nat.sub_diag, firstn_O, app_nil_r, (firstn_all2 a) by lia.
  destruct (ntop6_text a L) as [N B]. split; [now apply c_str_app|]. rewrite app_length, repeat_length. lia.
Qed.
(** With a port the text is right: "a.b.c.d:p". *)
Theorem C116_with_port_partial a b c d rest p : is_byte a -> is_byte b -> is_byte c -> is_byte d ->
  IPAddressToStringWithPort ntop6 [a; b; c; d] rest p = dotted a b c d ++ [58] ++ udec p.
Proof.
  intros A B C D. destruct (C116_text_partial a b c d rest A B C D) as [E L]. unfold IPAddressToStringWithPort. cbv zeta.
  destruct (ToString ntop6 [a; b; c; d] rest) as [|x t] eqn:T; [discriminate L|].
  change (IsIPv6 [a; b; c; d]) with false. cbv iota. now rewrite E.
Qed.
Theorem C116_with_port_v6_partial a rest p : length a = 16%nat ->
  IPAddressToStringWithPort ntop6 a rest p = [91] ++ ntop6 a ++ [93; 58] ++ udec p.
Proof.
  intros L. destruct (C116_text_v6_partial a rest L) as [E Ln]. unfold IPAddressToStringWithPort. cbv zeta.
  destruct (ToString ntop6 a rest) as [|x t] eqn:T; [discriminate Ln|]. rewrite IsIPv6_true by auto. now rewrite E.
Qed.
(** Parsing the text gives the address back. *)
Theorem C116_roundtrip_partial a b c d rest : is_byte a -> is_byte b -> is_byte c -> is_byte d ->
  AssignFromIPLiteral pton6 (piece_of (ToString ntop6 [a; b; c; d] rest)) = Ok (true, [a; b; c; d]).
Proof.
  intros A B C D. unfold ToString. change (IsIPv4 [a; b; c; d]) with true. cbv iota. cbv zeta.
  change (inet_ntop4 [a; b; c; d]) with (dotted a b c d). set (n := (15 - length (dotted a b c d))%nat).
  unfold AssignFromIPLiteral, piece_of, chars. cbn [pc_mem pc_len].
  rewrite firstn_app, firstn_all, Nat.sub_diag. cbn [firstn]. rewrite app_nil_r.
  destruct (existsb (Z.eqb 58) (dotted a b c d ++ repeat 0 n)) eqn:X.
  - apply has_colon, in_app_iff in X. destruct X as [X|X].
    + exfalso. revert X. apply dotted_not; auto; lia.
    + apply repeat_spec in X. discriminate.
  - assert (K : exists tl, (dotted a b c d ++ repeat 0 n) ++ [0] = dotted a b c d ++ 0 :: tl).
    { rewrite <- app_assoc. destruct n; [exists []; reflexivity|]. cbn. eexists. reflexivity. }
    destruct K as (tl & ->). rewrite cstr_app by (apply dotted_not; auto; lia). cbn [obind].
    rewrite (proj2 (pton4_iff (dotted a b c d) [a; b; c; d])); [reflexivity|].
    exists a, b, c, d. auto 10.
Qed.
End Text.

(** C117.  The orderings: by family, then by number; endpoints then by port. *)
Theorem C117_address_order a b : ip a -> ip b ->
  (addr_lt a b = true <-> (length a < length b)%nat \/ (length a = length b /\ num a < num b)).
Proof.
  intros A B. apply addr_lt_num; [destruct A as [[_ A]|[_ A]]; exact A|destruct B as [[_ B]|[_ B]]; exact B].
Qed.
Theorem C117_address_equal a b : addr_eq a b = true <-> a = b.
Proof. exact (addr_eq_iff a b). Qed.
Theorem C117_address_strict_total a b c : ip a -> ip b -> ip c ->
  addr_lt a a = false /\ (addr_lt a b = true -> addr_lt b c = true -> addr_lt a c = true) /\
  (addr_lt a b = true \/ addr_eq a b = true \/ addr_lt b a = true) /\
  (addr_lt a b = true -> addr_eq a b = false /\ addr_lt b a = false).
Proof.
  intros A B C.
  assert (BA : Forall is_byte a) by (destruct A as [[_ A]|[_ A]]; exact A).
  assert (BB : Forall is_byte b) by (destruct B as [[_ B]|[_ B]]; exact B).
  split; [|split; [|split]].
  - destruct (addr_lt a a) eqn:E; auto. apply C117_address_order in E; auto. lia.
  - rewrite !C117_address_order by auto. lia.
  - rewrite !C117_address_order, addr_eq_iff by auto.
    destruct (Nat.lt_trichotomy (length a) (length b)) as [L|[L|L]]; auto.
    destruct (Z.lt_trichotomy (num a) (num b)) as [N|[N|N]]; auto.
    right; left. now apply num_inj.
  - intros E. apply C117_address_order in E; auto. split.
    + destruct (addr_eq a b) eqn:Q; auto. apply addr_eq_iff in Q. subst. lia.
    + destruct (addr_lt b a) eqn:Q; auto. apply C117_address_order in Q; auto. lia.
Qed.
Theorem C117_endpoint_order x y : ip (ep_addr x) -> ip (ep_addr y) ->
  (ep_lt x y = true <-> addr_lt (ep_addr x) (ep_addr y) = true \/ (ep_addr x = ep_addr y /\ ep_port x < ep_port y)).
Proof.
  destruct x as [a p], y as [b q]. cbn [ep_addr ep_port]. intros A B. unfold ep_lt. cbn [ep_addr ep_port].
  destruct (C117_address_strict_total a b a A B A) as (_ & _ & T & D).
  destruct (Nat.eqb_spec (length a) (length b)) as [L|L]; cbn [negb].
  - destruct (addr_lt a b) eqn:E1; [split; auto|]. destruct (addr_lt b a) eqn:E2.
    + split; [discriminate|]. intros [H|[-> _]]; [discriminate|].
      destruct (C117_address_strict_total b b b B B B) as (Q & _). congruence.
    + rewrite Z.ltb_lt. destruct T as [T|[T|T]]; try discriminate. apply addr_eq_iff in T. subst. split; auto.
      intros [H|[_ H]]; [discriminate|exact H].
  - rewrite Nat.ltb_lt, C117_address_order by auto. split; auto. intros [[H|[H _]]|[-> _]]; auto; congruence.
Qed.
Theorem C117_endpoint_equal x y : ep_eq x y = true <-> x = y.
Proof.
  destruct x as [a p], y as [b q]. unfold ep_eq. cbn [ep_addr ep_port]. rewrite andb_true_iff, addr_eq_iff, Z.eqb_eq. split.
  - intros [-> ->]. reflexivity.
  - intros H. injection H. auto.
Qed.
Theorem C117_endpoint_strict_total x y z : ip (ep_addr x) -> ip (ep_addr y) -> ip (ep_addr z) ->
  ep_lt x x = false /\ (ep_lt x y = true -> ep_lt y z = true -> ep_lt x z = true) /\
  (ep_lt x y = true \/ ep_eq x y = true \/ ep_lt y x = true).
Proof.
  intros X Y Z0. destruct (C117_address_strict_total (ep_addr x) (ep_addr y) (ep_addr z) X Y Z0) as (I & Tr & To & Di).
  split; [|split].
  - destruct (ep_lt x x) eqn:E; auto. apply C117_endpoint_order in E; auto. destruct E as [E|[_ E]]; [congruence|lia].
  - rewrite !C117_endpoint_order by auto. intros [H1|[E1 H1]] [H2|[E2 H2]]; auto.
    + left. now rewrite <- E2.
    + left. now rewrite E1.
    + right. rewrite E1. split; [exact E2|lia].
  - rewrite !C117_endpoint_order, C117_endpoint_equal by auto. rewrite addr_eq_iff in To.
    destruct To as [To|[To|To]]; auto.
    destruct (Z.lt_trichotomy (ep_port x) (ep_port y)) as [N|[N|N]]; auto.
    right; left. destruct x, y; cbn in *; subst; reflexivity.
Qed.
Example C117_case : ep_lt (mkEP [10; 0; 0; 2] 80) (mkEP [10; 0; 0; 2] 81) = true /\
  ep_lt (mkEP [255; 0; 0; 2] 80) (mkEP (repeat 0 16) 1) = true /\ addr_lt [10; 0; 0; 9] [10; 0; 1; 0] = true.
Proof. repeat split; reflexivity. Qed.

Print Assumptions C110_matches_prefix.
Print Assumptions C110_block_is_interval.
Print Assumptions C110_mixed.
Print Assumptions C111_common_prefix.
Print Assumptions C111_mask_statement_refuted.
Print Assumptions C111_mask_v4_debug.
Print Assumptions C111_mask_partial.
Print Assumptions C112_statement_refuted.
Print Assumptions C112_back_conversion_undefined.
Print Assumptions C112_mapping_partial.
Print Assumptions C112_recognised_partial.
Print Assumptions C113_mapped_undefined.
Print Assumptions C113_statement_refuted.
Print Assumptions C113_public_v4_partial.
Print Assumptions C113_public_v6_partial.
Print Assumptions C113_loopback_partial.
Print Assumptions C113_link_local_partial.
Print Assumptions C113_zero_partial.
Print Assumptions C114_sockaddr_roundtrip.
Print Assumptions C114_small_buffer.
Print Assumptions C114_peer_v6_undefined.
Print Assumptions C114_peer_statement_refuted.
Print Assumptions C114_peer_v4_partial.
Print Assumptions C114_self_connect_partial.
Print Assumptions C115_piece_statement_refuted.
Print Assumptions C115_reads_outside.
Print Assumptions C115_ipv4_literal_partial.
Print Assumptions C115_ipv6_literal_partial.
Print Assumptions C115_bracketed_always_rejected.
Print Assumptions C115_hostname_statement_refuted.
Print Assumptions C115_hostname_v4_partial.
Print Assumptions C115_cidr_always_rejected.
Print Assumptions C115_cidr_statement_refuted.
Print Assumptions C115_cidr_junk_accepted.
Print Assumptions C115_cidr_accepted_partial.
Print Assumptions C116_statement_refuted.
Print Assumptions C116_empty_statement_refuted.
Print Assumptions C116_text_partial.
Print Assumptions C116_text_v6_partial.
Print Assumptions C116_with_port_partial.
Print Assumptions C116_with_port_v6_partial.
Print Assumptions C116_roundtrip_partial.
Print Assumptions C117_address_order.
Print Assumptions C117_address_equal.
Print Assumptions C117_address_strict_total.
Print Assumptions C117_endpoint_order.
Print Assumptions C117_endpoint_equal.
Print Assumptions C117_endpoint_strict_total.
