From Verif.Model Require Import Common Bytes Base64.
From Verif.Spec Require Import Base64Spec.
From Verif.Proofs Require Import Tac BytesProofs.
Open Scope Z_scope.

(** Finite checks by enumeration. *)
Definition zrange (n : nat) : list Z := map Z.of_nat (seq 0 n).
Lemma zrange_in n x : 0 <= x < Z.of_nat n -> In x (zrange n).
Proof. intro H. unfold zrange. apply in_map_iff. exists (Z.to_nat x). split; [lia|]. apply in_seq. lia. Qed.
Lemma by_enum n (P : Z -> bool) : forallb P (zrange n) = true -> forall x, 0 <= x < Z.of_nat n -> P x = true.
Proof. intros H x Hx. rewrite forallb_forall in H. apply H. now apply zrange_in. Qed.

Lemma byte_ops x : is_byte x ->
  Z.shiftr (Z.land x 0xfc) 2 = x / 4 /\ Z.shiftl (Z.land x 0x03) 4 = x mod 4 * 16 /\
  Z.shiftr (Z.land x 0xf0) 4 = x / 16 /\ Z.shiftr (Z.land x 0xc0) 6 = x / 64 /\
  Z.shiftl (Z.land x 0x0f) 2 = x mod 16 * 4 /\ Z.land x 0x3f = x mod 64.
Proof.
  intro H.
  assert (A := by_enum 256 (fun x => (Z.shiftr (Z.land x 0xfc) 2 =? x / 4) && (Z.shiftl (Z.land x 0x03) 4 =? x mod 4 * 16)
     && (Z.shiftr (Z.land x 0xf0) 4 =? x / 16) && (Z.shiftr (Z.land x 0xc0) 6 =? x / 64)
     && (Z.shiftl (Z.land x 0x0f) 2 =? x mod 16 * 4) && (Z.land x 0x3f =? x mod 64)) ltac:(vm_compute; reflexivity) x H).
  cbv beta in A. b2p. repeat split; assumption.
Qed.

Lemma sext_ops x : 0 <= x < 64 ->
  Z.shiftl x 2 = x * 4 /\ Z.shiftr (Z.land x 0x30) 4 = x / 16 /\ Z.shiftl (Z.land x 0xf) 4 = x mod 16 * 16 /\
  Z.shiftr (Z.land x 0x3c) 2 = x / 4 /\ Z.shiftl (Z.land x 0x3) 6 = x mod 4 * 64.
Proof.
  intro H.
  assert (A := by_enum 64 (fun x => (Z.shiftl x 2 =? x * 4) && (Z.shiftr (Z.land x 0x30) 4 =? x / 16)
     && (Z.shiftl (Z.land x 0xf) 4 =? x mod 16 * 16) && (Z.shiftr (Z.land x 0x3c) 2 =? x / 4)
     && (Z.shiftl (Z.land x 0x3) 6 =? x mod 4 * 64)) ltac:(vm_compute; reflexivity) x H).
  cbv beta in A. b2p. repeat split; assumption.
Qed.

Lemma inv_tab_spec c : is_byte c -> inv_tab c = match sextet c with Some v => v | None => -1 end.
Proof.
  intro H.
  assert (A := by_enum 256 (fun c => inv_tab c =? match sextet c with Some v => v | None => -1 end) ltac:(vm_compute; reflexivity) c H).
  cbv beta in A. now b2p.
Qed.

Lemma tab_spec x : 0 <= x < 64 -> sextet (tab x) = Some x /\ is_byte (tab x) /\ tab x <> 61.
Proof.
  intro H.
  assert (A := by_enum 64 (fun x => match sextet (tab x) with Some v => v =? x | None => false end && is_byteb (tab x)
     && negb (tab x =? 61)) ltac:(vm_compute; reflexivity) x H).
  cbv beta in A. b2p. unfold is_byteb in *. b2p. destruct (sextet (tab x)); [|discriminate]. b2p. subst. repeat split; auto; lia.
Qed.

Lemma sextet_range c v : sextet c = Some v -> 0 <= v < 64.
Proof. unfold sextet. dmatch; intro H; inv H; b2p; lia. Qed.

Lemma sextets_range l : Forall (fun v => 0 <= v < 64) (sextets l).
Proof.
  induction l as [|c l IH]; cbn [sextets]; [constructor|]. destruct (sextet c) eqn:E; constructor; auto.
  now apply sextet_range in E.
Qed.

Fixpoint groups (q : list Z) : list Z :=
  match q with
  | a :: b :: c :: d :: q => c3 [a; b; c; d] ++ groups q
  | q => firstn (length q - 1) (c3 q)
  end.

Lemma decode_groups l : Forall is_byte l -> forall c4, (length c4 < 4)%nat -> decode_loop c4 l = groups (c4 ++ sextets l).
Proof.
  assert (B : forall c4, (length c4 < 4)%nat -> firstn (length c4 - 1) (c3 c4) = groups c4).
  { intros [|a [|b [|c [|d l']]]] H; try reflexivity. cbn in H. lia. }
  induction 1 as [|ch l Hch Hl IH]; intros c4 H4; cbn [decode_loop sextets].
  - rewrite app_nil_r. now apply B.
  - destruct (ch =? 61) eqn:E; b2p.
    + subst ch. change (sextet 61) with (@None Z). rewrite app_nil_r. now apply B.
    + rewrite (inv_tab_spec ch Hch). destruct (sextet ch) as [v|] eqn:Es.
      * pose proof (sextet_range _ _ Es). destruct (v =? -1) eqn:E1; b2p; [lia|].
        destruct (length (c4 ++ [v]) =? 4)%nat eqn:E4; b2p.
        -- rewrite IH by (cbn; lia). rewrite app_length in E4. cbn in E4.
           destruct c4 as [|a [|b [|c [|d l']]]]; cbn in E4; try lia. reflexivity.
        -- rewrite IH. now rewrite <- app_assoc. rewrite app_length in *. cbn in *. lia.
      * change (-1 =? -1) with true. cbv iota. rewrite app_nil_r. now apply B.
Qed.

(** Numbers. *)
Lemma value64_acc q : forall acc, value64 acc q = acc * 64 ^ Z.of_nat (length q) + value64 0 q.
Proof.
  induction q as [|v q IH]; intro acc; cbn [value64 length].
  - simpl. lia.
  - rewrite IH, (IH (64 * 0 + v)). replace (Z.of_nat (S (length q))) with (Z.of_nat (length q) + 1) by lia.
    rewrite Z.pow_add_r, Z.pow_1_r by lia. ring.
Qed.

Lemma value64_range q : Forall (fun v => 0 <= v < 64) q -> 0 <= value64 0 q < 64 ^ Z.of_nat (length q).
Proof.
  induction 1 as [|v q Hv Hq IH]; cbn [value64 length]; [simpl; lia|].
  rewrite value64_acc. replace (Z.of_nat (S (length q))) with (Z.of_nat (length q) + 1) by lia.
  rewrite Z.pow_add_r, Z.pow_1_r by lia. nia.
Qed.

Lemma le_encode_app n m a b : 0 <= b < 256 ^ Z.of_nat m ->
  le_encode (m + n) (a * 256 ^ Z.of_nat m + b) = le_encode m b ++ le_encode n a.
Proof.
  revert b. induction m as [|m IH]; intros b Hb; cbn [Nat.add le_encode app].
  - change (256 ^ Z.of_nat 0) with 1 in *. replace (a * 1 + b) with a by lia. reflexivity.
  - replace (Z.of_nat (S m)) with (Z.of_nat m + 1) in * by lia. rewrite Z.pow_add_r, Z.pow_1_r in * by lia.
    replace (a * (256 ^ Z.of_nat m * 256) + b) with (b + a * 256 ^ Z.of_nat m * 256) by ring.
    rewrite Z.mod_add, Z.div_add by lia. f_equal. rewrite Z.add_comm. apply IH.
    split; [apply Z.div_pos; lia|apply Z.div_lt_upper_bound; lia].
Qed.

Lemma be_encode_app n m a b : 0 <= b < 256 ^ Z.of_nat m ->
  be_encode (n + m) (a * 256 ^ Z.of_nat m + b) = be_encode n a ++ be_encode m b.
Proof.
  intro H. unfold be_encode. rewrite <- rev_app_distr, Nat.add_comm. now rewrite le_encode_app.
Qed.

Lemma octets_step a b c d q : 0 <= a < 64 -> 0 <= b < 64 -> 0 <= c < 64 -> 0 <= d < 64 -> Forall (fun v => 0 <= v < 64) q ->
  octets (a :: b :: c :: d :: q) = be_encode 3 (((a * 64 + b) * 64 + c) * 64 + d) ++ octets q.
Proof.
  intros Ha Hb Hc Hd Hq. unfold octets. cbn [length].
  set (m := length q). set (v4 := ((a * 64 + b) * 64 + c) * 64 + d).
  replace (6 * S (S (S (S m))))%nat with (6 * m + 3 * 8)%nat by lia.
  rewrite Nat.div_add, Nat.mod_add by lia. rewrite (Nat.add_comm (6 * m / 8) 3).
  assert (V : value64 0 (a :: b :: c :: d :: q) = v4 * 64 ^ Z.of_nat m + value64 0 q).
  { cbn [value64]. rewrite value64_acc. unfold v4, m. ring. }
  rewrite V. pose proof (value64_range q Hq) as R. fold m in R.
  set (k := (6 * m / 8)%nat). set (r := (6 * m mod 8)%nat).
  assert (E6 : (6 * m = 8 * k + r)%nat) by (unfold k, r; apply Nat.div_mod; lia).
  assert (P : 64 ^ Z.of_nat m = 256 ^ Z.of_nat k * 2 ^ Z.of_nat r).
  { change 64 with (2 ^ 6). change 256 with (2 ^ 8). rewrite <- !Z.pow_mul_r by lia. rewrite <- Z.pow_add_r by lia. f_equal. lia. }
  rewrite P. rewrite Z.mul_assoc, (Z.add_comm _ (value64 0 q)), Z.div_add by (apply Z.pow_nonzero; lia).
  rewrite Z.add_comm. apply be_encode_app. rewrite P in R. split.
  - apply Z.div_pos; [lia|apply Z.pow_pos_nonneg; lia].
  - apply Z.div_lt_upper_bound; [apply Z.pow_pos_nonneg; lia|]. lia.
Qed.

Lemma c3_4 a b c d : 0 <= a < 64 -> 0 <= b < 64 -> 0 <= c < 64 -> 0 <= d < 64 ->
  c3 [a; b; c; d] = [a * 4 + b / 16; b mod 16 * 16 + c / 4; c mod 4 * 64 + d].
Proof.
  intros Ha Hb Hc Hd. unfold c3, u8. cbn [nth].
  destruct (sext_ops a Ha) as (-> & _). destruct (sext_ops b Hb) as (_ & -> & -> & _).
  destruct (sext_ops c Hc) as (_ & _ & _ & -> & ->).
  pose proof (Z.div_mod b 16). pose proof (Z.mod_pos_bound b 16). pose proof (Z.div_mod c 4). pose proof (Z.mod_pos_bound c 4).
  assert (0 <= b / 16 < 4) by lia. assert (0 <= c / 4 < 16) by lia.
  rewrite (Z.mod_small (a * 4 + b / 16)), (Z.mod_small (b mod 16 * 16 + c / 4)), (Z.mod_small (c mod 4 * 64 + d)) by lia. reflexivity.
Qed.

Lemma be3 n x y z : 0 <= x < 256 -> 0 <= y < 256 -> 0 <= z < 256 -> n = (x * 256 + y) * 256 + z -> be_encode 3 n = [x; y; z].
Proof.
  intros Hx Hy Hz ->. unfold be_encode. cbn [le_encode rev app].
  replace ((x * 256 + y) * 256 + z) with (z + (x * 256 + y) * 256) by ring.
  rewrite !Z.mod_add, !Z.div_add by lia. rewrite (Z.div_small z), (Z.mod_small z) by lia.
  replace (0 + (x * 256 + y)) with (y + x * 256) by ring. rewrite !Z.mod_add, !Z.div_add by lia.
  rewrite (Z.div_small y), (Z.mod_small y) by lia. replace (0 + x) with x by ring. now rewrite Z.mod_small by lia.
Qed.

Lemma groups_octets n : forall q, (length q <= n)%nat -> Forall (fun v => 0 <= v < 64) q -> groups q = octets q.
Proof.
  induction n as [|n IH]; intros q Hn Hq.
  - destruct q; [reflexivity|cbn in Hn; lia].
  - destruct q as [|a [|b [|c [|d q]]]].
    + reflexivity.
    + reflexivity.
    + inv Hq. inv H2. cbn [groups length Nat.sub]. unfold octets. cbn [length].
      change (6 * 2 / 8)%nat with 1%nat. change (6 * 2 mod 8)%nat with 4%nat. change (2 ^ Z.of_nat 4) with 16.
      cbn [value64]. unfold c3, u8. cbn [nth firstn]. destruct (sext_ops a H1) as (-> & _). destruct (sext_ops b H3) as (_ & -> & _).
      unfold be_encode. cbn [le_encode rev app]. f_equal. f_equal.
      replace (64 * (64 * 0 + a) + b) with (b + (a * 4) * 16) by ring. rewrite Z.div_add by lia. ring.
    + inv Hq. inv H2. inv H4. cbn [groups length Nat.sub]. unfold octets. cbn [length].
      change (6 * 3 / 8)%nat with 2%nat. change (6 * 3 mod 8)%nat with 2%nat. change (2 ^ Z.of_nat 2) with 4.
      cbn [value64]. unfold c3, u8. cbn [nth firstn]. destruct (sext_ops a H1) as (-> & _).
      destruct (sext_ops b H3) as (_ & -> & -> & _). destruct (sext_ops c H2) as (_ & _ & _ & -> & _).
      pose proof (Z.div_mod b 16). pose proof (Z.mod_pos_bound b 16). pose proof (Z.div_mod c 4). pose proof (Z.mod_pos_bound c 4).
      assert (0 <= b / 16 < 4) by lia. assert (0 <= c / 4 < 16) by lia.
      unfold be_encode. cbn [le_encode rev app].
      replace ((64 * (64 * (64 * 0 + a) + b) + c) / 4) with (b mod 16 * 16 + c / 4 + (a * 4 + b / 16) * 256).
      2:{ replace (64 * (64 * (64 * 0 + a) + b) + c) with (c + (a * 1024 + b * 16) * 4) by ring. rewrite Z.div_add by lia. lia. }
      rewrite Z.mod_add, Z.div_add by lia. rewrite (Z.div_small (b mod 16 * 16 + c / 4)) by lia. reflexivity.
    + inv Hq. inv H2. inv H4. inv H5. cbn [groups]. rewrite octets_step by auto. f_equal.
      * rewrite c3_4 by auto.
        pose proof (Z.div_mod b 16). pose proof (Z.mod_pos_bound b 16). pose proof (Z.div_mod c 4). pose proof (Z.mod_pos_bound c 4).
        assert (0 <= b / 16 < 4) by lia. assert (0 <= c / 4 < 16) by lia.
        symmetry. apply be3; lia.
      * apply IH; auto. cbn in Hn. lia.
Qed.

Lemma decode_is_octets l : Forall is_byte l -> decode_loop [] l = octets (sextets l).
Proof.
  intro H. rewrite decode_groups by (auto; cbn; lia). cbn [app]. eapply groups_octets; [reflexivity|apply sextets_range].
Qed.

Lemma octets_length q : length (octets q) = (6 * length q / 8)%nat.
Proof. unfold octets. apply be_encode_length. Qed.

Lemma sextets_length l : (length (sextets l) <= length l)%nat.
Proof. induction l as [|c l IH]; cbn [sextets length]; [lia|]. destruct (sextet c); cbn [length]; lia. Qed.

Lemma decode_in_bounds l : Forall is_byte l -> (length l mod 4 = 0)%nat -> base64_decode l = Ok (octets (sextets l)).
Proof.
  intros H Hm. unfold base64_decode. rewrite decode_is_octets by auto. rewrite octets_length. unfold decoded_size.
  pose proof (sextets_length l) as L. pose proof (Nat.div_mod (length l) 4).
  destruct (6 * length (sextets l) / 8 <=? length l / 4 * 3)%nat eqn:E; b2p; [reflexivity|]. exfalso.
  assert (6 * length (sextets l) / 8 <= 6 * length l / 8)%nat by (apply Nat.div_le_mono; lia).
  replace (6 * length l)%nat with ((length l / 4 * 3) * 8)%nat in H1 by lia. rewrite Nat.div_mul in H1 by lia. lia.
Qed.

(** Round trip. *)
Lemma list_ind3 (P : list Z -> Prop) : P [] -> (forall a, P [a]) -> (forall a b, P [a; b]) ->
  (forall a b c l, P l -> P (a :: b :: c :: l)) -> forall l, P l.
Proof. intros H0 H1 H2 H3. fix IH 1. intros [|a [|b [|c l]]]; [exact H0|apply H1|apply H2|apply H3, IH]. Qed.

Lemma encode_bytes l : Forall is_byte l -> Forall is_byte (encode l).
Proof.
  induction l as [|a|a b|a b c l IH] using list_ind3; intro H; cbn [encode].
  - constructor.
  - inv H. destruct (byte_ops a H2) as (-> & -> & _). unfold is_byte in *. pose proof (Z.mod_pos_bound a 4).
    assert (0 <= a / 4 < 64) by (split; [apply Z.div_pos; lia|apply Z.div_lt_upper_bound; lia]).
    repeat constructor; try apply tab_spec; lia.
  - inv H. inv H3. destruct (byte_ops a H2) as (-> & -> & _). destruct (byte_ops b H1) as (_ & _ & -> & _ & -> & _).
    unfold is_byte in *. pose proof (Z.mod_pos_bound a 4). pose proof (Z.mod_pos_bound b 16).
    assert (0 <= a / 4 < 64) by (split; [apply Z.div_pos; lia|apply Z.div_lt_upper_bound; lia]).
    assert (0 <= b / 16 < 16) by (split; [apply Z.div_pos; lia|apply Z.div_lt_upper_bound; lia]).
    repeat constructor; try apply tab_spec; lia.
  - inv H. inv H3. inv H4. destruct (byte_ops a H2) as (-> & -> & _). destruct (byte_ops b H1) as (_ & _ & -> & _ & -> & _).
    destruct (byte_ops c H3) as (_ & _ & _ & -> & _ & ->).
    unfold is_byte in *. pose proof (Z.mod_pos_bound a 4). pose proof (Z.mod_pos_bound b 16). pose proof (Z.mod_pos_bound c 64).
    assert (0 <= a / 4 < 64) by (split; [apply Z.div_pos; lia|apply Z.div_lt_upper_bound; lia]).
    assert (0 <= b / 16 < 16) by (split; [apply Z.div_pos; lia|apply Z.div_lt_upper_bound; lia]).
    assert (0 <= c / 64 < 4) by (split; [apply Z.div_pos; lia|apply Z.div_lt_upper_bound; lia]).
    repeat (constructor; [apply tab_spec; lia|]). apply IH. assumption.
Qed.

Lemma encode_length l : length (encode l) = encoded_size (length l).
Proof.
  unfold encoded_size. induction l as [|a|a b|a b c l IH] using list_ind3; try reflexivity. cbn [encode length]. rewrite IH.
  replace (S (S (S (length l))) + 2)%nat with (length l + 2 + 1 * 3)%nat by lia. rewrite Nat.div_add by lia. lia.
Qed.

(** Shape: sextet characters, then at most two '='. *)
Lemma encode_shape l : Forall is_byte l ->
  exists q pad, encode l = map tab q ++ repeat 61 pad /\ Forall (fun v => 0 <= v < 64) q /\ (pad <= 2)%nat /\
    ((length l mod 3 = 0 -> pad = 0) /\ (length l mod 3 = 1 -> pad = 2) /\ (length l mod 3 = 2 -> pad = 1))%nat.
Proof.
  induction l as [|a|a b|a b c l IH] using list_ind3; intro H; cbn [encode].
  - exists [], 0%nat. repeat split; auto; intros; discriminate.
  - inv H. destruct (byte_ops a H2) as (-> & -> & _). unfold is_byte in *. pose proof (Z.mod_pos_bound a 4).
    assert (0 <= a / 4 < 64) by (split; [apply Z.div_pos; lia|apply Z.div_lt_upper_bound; lia]).
    exists [a / 4; a mod 4 * 16], 2%nat. repeat split; auto; try (intros; discriminate). repeat constructor; lia.
  - inv H. inv H3. destruct (byte_ops a H2) as (-> & -> & _). destruct (byte_ops b H1) as (_ & _ & -> & _ & -> & _).
    unfold is_byte in *. pose proof (Z.mod_pos_bound a 4). pose proof (Z.mod_pos_bound b 16).
    assert (0 <= a / 4 < 64) by (split; [apply Z.div_pos; lia|apply Z.div_lt_upper_bound; lia]).
    assert (0 <= b / 16 < 16) by (split; [apply Z.div_pos; lia|apply Z.div_lt_upper_bound; lia]).
    exists [a / 4; a mod 4 * 16 + b / 16; b mod 16 * 4], 1%nat. repeat split; auto; try (intros; discriminate). repeat constructor; lia.
  - inv H. inv H3. inv H4. destruct (IH H5) as (q & pad & E & Hq & Hp & Hm).
    destruct (byte_ops a H2) as (-> & -> & _). destruct (byte_ops b H1) as (_ & _ & -> & _ & -> & _).
    destruct (byte_ops c H3) as (_ & _ & _ & -> & _ & ->).
    unfold is_byte in *. pose proof (Z.mod_pos_bound a 4). pose proof (Z.mod_pos_bound b 16). pose proof (Z.mod_pos_bound c 64).
    assert (0 <= a / 4 < 64) by (split; [apply Z.div_pos; lia|apply Z.div_lt_upper_bound; lia]).
    assert (0 <= b / 16 < 16) by (split; [apply Z.div_pos; lia|apply Z.div_lt_upper_bound; lia]).
    assert (0 <= c / 64 < 4) by (split; [apply Z.div_pos; lia|apply Z.div_lt_upper_bound; lia]).
    exists (a / 4 :: a mod 4 * 16 + b / 16 :: c / 64 + b mod 16 * 4 :: c mod 64 :: q), pad.
    split; [cbn [map app]; now rewrite E|]. split; [repeat (constructor; [lia|]); assumption|]. split; [assumption|].
    change (length (a :: b :: c :: l)) with (3 + length l)%nat. replace (3 + length l)%nat with (length l + 1 * 3)%nat by lia.
    rewrite Nat.mod_add by lia. exact Hm.
Qed.

Lemma sextets_encoded q pad : Forall (fun v => 0 <= v < 64) q -> sextets (map tab q ++ repeat 61 pad) = q.
Proof.
  induction 1 as [|v q Hv Hq IH]; cbn [map app sextets].
  - destruct pad; reflexivity.
  - destruct (tab_spec v Hv) as (-> & _). now rewrite IH.
Qed.

Lemma loop4 a b c d l : 0 <= a < 64 -> 0 <= b < 64 -> 0 <= c < 64 -> 0 <= d < 64 ->
  decode_loop [] (tab a :: tab b :: tab c :: tab d :: l) = c3 [a; b; c; d] ++ decode_loop [] l.
Proof.
  intros Ha Hb Hc Hd. cbn [decode_loop].
  repeat match goal with
  | H : 0 <= ?x < 64 |- context [tab ?x =? 61] =>
      let S := fresh in let B := fresh in let N := fresh in
      destruct (tab_spec x H) as (S & B & N); apply Z.eqb_neq in N; rewrite N, (inv_tab_spec _ B), S;
      let E := fresh in assert (E : (x =? -1) = false) by (apply Z.eqb_neq; lia); rewrite E; cbn [app length Nat.eqb]
  end. reflexivity.
Qed.

Lemma decode_encode l : Forall is_byte l -> decode_loop [] (encode l) = l.
Proof.
  induction l as [|a|a b|a b c l IH] using list_ind3; intro H; cbn [encode].
  - reflexivity.
  - inv H. destruct (byte_ops a H2) as (-> & -> & _). unfold is_byte in *. pose proof (Z.mod_pos_bound a 4). pose proof (Z.div_mod a 4).
    assert (0 <= a / 4 < 64) by lia.
    assert (E : Forall is_byte [tab (a / 4); tab (a mod 4 * 16); 61; 61]).
    { repeat constructor; try apply tab_spec; lia. }
    rewrite (decode_is_octets _ E). change [tab (a / 4); tab (a mod 4 * 16); 61; 61] with (map tab [a / 4; a mod 4 * 16] ++ repeat 61 2).
    rewrite sextets_encoded by (repeat constructor; lia).
    rewrite <- (groups_octets 2) by (try (repeat constructor; lia); cbn; lia).
    cbn [groups length Nat.sub]. unfold c3, u8. cbn [nth firstn].
    destruct (sext_ops (a / 4)) as (-> & _); [lia|]. destruct (sext_ops (a mod 4 * 16)) as (_ & -> & _); [lia|].
    rewrite Z.div_mul by lia. rewrite Z.mod_small by lia. f_equal. lia.
  - inv H. inv H3. destruct (byte_ops a H2) as (-> & -> & _). destruct (byte_ops b H1) as (_ & _ & -> & _ & -> & _).
    unfold is_byte in *. pose proof (Z.mod_pos_bound a 4). pose proof (Z.mod_pos_bound b 16).
    pose proof (Z.div_mod a 4). pose proof (Z.div_mod b 16).
    assert (0 <= a / 4 < 64) by lia. assert (0 <= b / 16 < 16) by lia.
    set (x := a mod 4 * 16 + b / 16). set (y := b mod 16 * 4).
    assert (E : Forall is_byte [tab (a / 4); tab x; tab y; 61]).
    { repeat constructor; try apply tab_spec; lia. }
    rewrite (decode_is_octets _ E). change [tab (a / 4); tab x; tab y; 61] with (map tab [a / 4; x; y] ++ repeat 61 1).
    rewrite sextets_encoded by (repeat constructor; lia).
    rewrite <- (groups_octets 3) by (try (repeat constructor; lia); cbn; lia).
    cbn [groups length Nat.sub]. unfold c3, u8. cbn [nth firstn].
    destruct (sext_ops (a / 4)) as (-> & _); [lia|]. destruct (sext_ops x) as (_ & -> & -> & _); [lia|].
    destruct (sext_ops y) as (_ & _ & _ & -> & _); [lia|]. unfold x, y.
    replace (a mod 4 * 16 + b / 16) with (b / 16 + a mod 4 * 16) by ring. rewrite Z.div_add, Z.mod_add by lia.
    rewrite (Z.div_small (b / 16)), (Z.mod_small (b / 16)), Z.div_mul by lia.
    rewrite (Z.mod_small (a / 4 * 4 + _)), (Z.mod_small (b / 16 * 16 + _)) by lia. f_equal; [lia|f_equal; lia].
  - inv H. inv H3. inv H4. 
    destruct (byte_ops a H2) as (-> & -> & _). destruct (byte_ops b H1) as (_ & _ & -> & _ & -> & _).
    destruct (byte_ops c H3) as (_ & _ & _ & -> & _ & ->).
    unfold is_byte in *. pose proof (Z.mod_pos_bound a 4). pose proof (Z.mod_pos_bound b 16). pose proof (Z.mod_pos_bound c 64).
    pose proof (Z.div_mod a 4). pose proof (Z.div_mod b 16). pose proof (Z.div_mod c 64).
    assert (0 <= a / 4 < 64) by lia. assert (0 <= b / 16 < 16) by lia. assert (0 <= c / 64 < 4) by lia.
    rewrite loop4 by lia. rewrite (IH H5), c3_4 by lia. cbn [app].
    replace (a mod 4 * 16 + b / 16) with (b / 16 + a mod 4 * 16) by ring. rewrite Z.div_add, Z.mod_add by lia.
    rewrite (Z.div_small (b / 16)), (Z.mod_small (b / 16)) by lia.
    rewrite Z.div_add, Z.mod_add by lia. rewrite (Z.div_small (c / 64)), (Z.mod_small (c / 64)) by lia.
    f_equal; [lia|f_equal; [lia|f_equal; lia]].
Qed.

Lemma round_trip s : Forall is_byte s -> exists e, base64_encode s = Ok e /\ base64_decode e = Ok s.
Proof.
  intro H. exists (encode s). unfold base64_encode, base64_decode. rewrite encode_length, Nat.leb_refl. split; [reflexivity|].
  rewrite decode_encode by auto. unfold decoded_size, encoded_size. rewrite (Nat.mul_comm 4), Nat.div_mul by lia.
  assert (length s <= (length s + 2) / 3 * 3)%nat.
  { pose proof (Nat.div_mod (length s + 2) 3). pose proof (Nat.mod_upper_bound (length s + 2) 3). lia. }
  destruct (length s <=? (length s + 2) / 3 * 3)%nat eqn:E; b2p; [reflexivity|lia].
Qed.
