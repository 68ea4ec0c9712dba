(** Proofs about the Maglev ring generation. *)
From Coq Require Import List Arith ZArith Bool Lia Znumtheory.
From Verif.Model Require Import Common LoadBalance.
From Verif.Proofs Require Import Tac.
Import ListNotations.
Local Open Scope Z_scope.

Definition cnt (f : Z -> bool) (l : list Z) : Z := Z.of_nat (length (filter f l)).

Lemma put_length n v : forall l, length (put n v l) = length l.
Proof. induction n; intros [|x l]; cbn; auto. Qed.
Lemma put_same n v : forall l, (n < length l)%nat -> nth n (put n v l) (-1) = v.
Proof. induction n; intros [|x l] L; cbn in *; try lia; auto. apply IHn. lia. Qed.
Lemma put_other n v m : forall l, n <> m -> nth m (put n v l) (-1) = nth m l (-1).
Proof. revert m. induction n; intros [|m] [|x l] N; cbn; auto; try lia. Qed.
Lemma put_cnt f n v : forall l, (n < length l)%nat ->
  cnt f (put n v l) = cnt f l - (if f (nth n l (-1)) then 1 else 0) + (if f v then 1 else 0).
Proof.
  unfold cnt. induction n; intros [|x l] L; cbn in *; try lia.
  - destruct (f x), (f v); cbn [length]; lia.
  - specialize (IHn l ltac:(lia)). destruct (f x); cbn [length]; lia.
Qed.
Lemma cnt_le f l : 0 <= cnt f l <= Z.of_nat (length l).
Proof. unfold cnt. induction l; cbn; [lia|]. destruct (f a); cbn [length]; lia. Qed.
Lemma cnt_free f l : cnt f l < Z.of_nat (length l) -> exists n, (n < length l)%nat /\ f (nth n l (-1)) = false.
Proof.
  unfold cnt. induction l as [|x l IH]; cbn [length filter]; [lia|]. intro L.
  destruct (f x) eqn:E.
  - cbn [length] in L. destruct IH as (n & A & B); [lia|]. exists (S n). cbn. split; [lia|auto].
  - exists 0%nat. cbn. split; [lia|auto].
Qed.
Lemma cnt_full f l : cnt f l = Z.of_nat (length l) -> forall x, In x l -> f x = true.
Proof.
  unfold cnt. induction l as [|y l IH]; cbn [length filter]; [intros _ ? []|]. intros L x I.
  destruct (f y) eqn:E.
  - cbn [length] in L. destruct I as [->|I]; auto. apply IH; [lia|auto].
  - exfalso. pose proof (cnt_le f l). unfold cnt in H. lia.
Qed.
Lemma put_in n v x : forall l, In x (put n v l) -> x = v \/ In x l.
Proof.
  induction n; intros [|y l] I; cbn in *; auto.
  - destruct I; auto.
  - destruct I as [->|I]; auto. apply IHn in I as [I|I]; auto.
Qed.

Definition isnum (x : Z) : Z -> bool := Z.eqb x.
Definition isset : Z -> bool := Z.leb 0.

Section M.
Variables (p W : Z) (fuel : nat).
Hypotheses (P1 : 1 <= p) (P32 : p <= 2 ^ 32) (FU : 2 ^ 32 <= Z.of_nat fuel) (WP : 0 < W) (W31 : W < 2 ^ 31).

Definition filled (res : list Z) (i : Z) : Prop := 0 <= slot res i.

(** the endpoint's probe sequence meets every slot *)
Definition surj (off skip : Z) : Prop :=
  forall i, 0 <= i < p -> exists n, 0 <= n < 2 ^ 32 /\ cur_of p off skip n = i.

Definition stat (e : epst) : Prop := 0 <= es_num e /\ 0 < es_weight e <= W /\ surj (es_off e) (es_skip e).
Definition dyn (t : Z) (res : list Z) (e : epst) : Prop :=
  0 <= es_next e < 2 ^ 32 /\
  (forall m, 0 <= m < es_next e -> filled res (cur_of p (es_off e) (es_skip e) m)) /\
  0 <= es_cum e < W /\
  W * cnt (isnum (es_num e)) res + es_cum e = t * es_weight e.

Lemma cur_range off skip n : 0 <= cur_of p off skip n < p.
Proof. apply Z.mod_pos_bound. lia. Qed.

Lemma probe_spec off skip res : forall f next,
  0 <= next < 2 ^ 32 ->
  (exists n, next <= n < 2 ^ 32 /\ ~ filled res (cur_of p off skip n) /\ n - next < Z.of_nat f) ->
  exists n, probe f p off skip next res = Some (n, cur_of p off skip n) /\ next <= n < 2 ^ 32 /\
    ~ filled res (cur_of p off skip n) /\ (forall m, next <= m < n -> filled res (cur_of p off skip m)).
Proof.
  induction f as [|f IH]; intros next R (n & RN & NF & L); [lia|]. cbn [probe].
  destruct (Z.leb_spec 0 (slot res (cur_of p off skip next))) as [F|F].
  - assert (n <> next) by (intros ->; apply NF; exact F).
    assert (E1 : w32 (next + 1) = next + 1) by (apply Z.mod_small; lia).
    rewrite E1. destruct (IH (next + 1)) as (n' & E & RN' & NF' & FI); [lia|exists n; split; [lia|split; [auto|lia]]|].
    exists n'. split; auto. split; [lia|]. split; auto. intros m M.
    destruct (Z.eq_dec m next) as [->|]; [exact F|]. apply FI. lia.
  - exists next. split; auto. split; [lia|]. split; [unfold filled; lia|]. intros; lia.
Qed.

Lemma filled_put res n v i : 0 <= v -> (n < length res)%nat -> filled res i -> filled (put n v res) i.
Proof.
  unfold filled, slot. intros V L F. destruct (Nat.eq_dec n (Z.to_nat i)) as [<-|N].
  - rewrite put_same by auto. auto.
  - rewrite put_other; auto.
Qed.

(** A pass over the endpoints. *)
Lemma pass_spec t es : forall res runs,
  NoDup (map es_num es) -> Forall stat es -> Forall (dyn t res) es ->
  Z.of_nat (length res) = p -> runs = cnt isset res -> runs < p ->
  exists es' res' runs' b, pass fuel p W es res runs = Some (es', res', runs', b) /\
    map es_num es' = map es_num es /\ map es_weight es' = map es_weight es /\ Forall stat es' /\
    Z.of_nat (length res') = p /\ runs' = cnt isset res' /\
    (forall i, filled res i -> filled res' i) /\
    (forall x, In x res' -> In x res \/ In x (map es_num es)) /\
    (forall x, 0 <= x -> ~ In x (map es_num es) -> cnt (isnum x) res' = cnt (isnum x) res) /\
    runs <= runs' /\
    (b = false -> runs' < p /\ Forall (dyn (t + 1) res') es' /\ (In W (map es_weight es) -> runs < runs')) /\
    (b = true -> runs' = p /\
       forall e', In e' es' -> 0 <= es_cum e' < W /\
         exists d, t <= d <= t + 1 /\ W * cnt (isnum (es_num e')) res' + es_cum e' = d * es_weight e').
Proof.
  induction es as [|e es IH]; intros res runs ND ST DY LR RU RP; cbn [pass].
  - eexists _, _, _, _. split; [reflexivity|]. repeat split; auto; try tauto; try lia; try discriminate; try (intros []).
  - cbn [map] in ND. inversion_clear ND as [|? ? H1 H2]. inversion_clear ST as [|? ? H3 H4]. inversion_clear DY as [|? ? H5 H6].
    destruct H3 as (N0 & (WL0 & WL1) & SJ). destruct H5 as (NX & PF & (C0 & C1) & EQ).
    assert (EC : w32 (es_cum e + es_weight e) = es_cum e + es_weight e) by (apply Z.mod_small; lia).
    rewrite EC.
    destruct (Z.leb_spec W (es_cum e + es_weight e)) as [TK|NT].
    + (* takes a slot *)
      destruct (cnt_free isset res) as (k & KL & KF); [lia|].
      assert (SL : slot res (Z.of_nat k) < 0).
      { unfold slot. rewrite Nat2Z.id. unfold isset in KF. apply Z.leb_gt in KF. exact KF. }
      destruct (SJ (Z.of_nat k)) as (n0 & NR0 & CN0); [lia|].
      assert (NX0 : es_next e <= n0).
      { destruct (Z.le_gt_cases (es_next e) n0); auto. exfalso.
        specialize (PF n0 ltac:(lia)). unfold filled in PF. rewrite CN0 in PF. lia. }
      destruct (probe_spec (es_off e) (es_skip e) res fuel (es_next e)) as (n & PE & NR & NF & FI); [lia| |].
      { exists n0. split; [lia|]. split; [unfold filled; rewrite CN0; lia|lia]. }
      rewrite PE. set (cur := cur_of p (es_off e) (es_skip e) n) in *.
      pose proof (cur_range (es_off e) (es_skip e) n) as CR. fold cur in CR.
      set (k' := Z.to_nat cur). assert (KL' : (k' < length res)%nat) by (subst k'; lia).
      assert (NEG : nth k' res (-1) < 0).
      { unfold filled, slot in NF. fold k' in NF. lia. }
      set (res1 := put k' (es_num e) res).
      set (e1 := mkes (es_num e) (es_weight e) (es_off e) (es_skip e) (w32 (n + 1)) (es_cum e + es_weight e - W)).
      assert (L1 : Z.of_nat (length res1) = p) by (unfold res1; rewrite put_length; auto).
      assert (R1 : runs + 1 = cnt isset res1).
      { unfold res1. rewrite put_cnt by auto. unfold isset at 2 3. destruct (Z.leb_spec 0 (nth k' res (-1))); [lia|].
        destruct (Z.leb_spec 0 (es_num e)); lia. }
      assert (CO : forall x, 0 <= x -> x <> es_num e -> cnt (isnum x) res1 = cnt (isnum x) res).
      { intros x X0 XN. unfold res1. rewrite put_cnt by auto. unfold isnum at 2 3.
        destruct (Z.eqb_spec x (nth k' res (-1))); [lia|]. destruct (Z.eqb_spec x (es_num e)); [congruence|lia]. }
      assert (CS : cnt (isnum (es_num e)) res1 = cnt (isnum (es_num e)) res + 1).
      { unfold res1. rewrite put_cnt by auto. unfold isnum at 2 3.
        destruct (Z.eqb_spec (es_num e) (nth k' res (-1))); [lia|]. rewrite Z.eqb_refl. lia. }
      assert (MONO : forall i, filled res i -> filled res1 i) by (intros; apply filled_put; auto).
      assert (ST1 : stat e1) by (split; [exact N0|split; [split; auto|exact SJ]]).
      assert (DY1 : dyn (t + 1) res1 e1).
      { unfold dyn, e1. cbn [es_next es_off es_skip es_cum es_num es_weight]. split; [apply Z.mod_pos_bound; lia|]. split.
        - intros m M. destruct (Z.eq_dec (n + 1) (2 ^ 32)) as [Q|Q].
          + rewrite Q in M. unfold w32 in M. rewrite Z_mod_same_full in M. lia.
          + unfold w32 in M. rewrite Z.mod_small in M by lia.
            destruct (Z.eq_dec m n) as [->|].
            * fold cur. unfold filled, slot. fold k'. unfold res1. rewrite put_same by auto. auto.
            * apply MONO. destruct (Z.lt_ge_cases m (es_next e)); [apply PF; lia|apply FI; lia].
        - split; [lia|]. rewrite CS. lia. }
      assert (DYS : Forall (dyn t res1) es).
      { rewrite Forall_forall in H6 |- *. intros x I. destruct (H6 x I) as (A & B & C & D).
        split; auto. split; [intros; apply MONO; auto|]. split; auto. rewrite CO; auto.
        - rewrite Forall_forall in H4. apply H4; auto.
        - intro Q. apply H1. rewrite <- Q. now apply in_map. }
      destruct (Z.eqb_spec (runs + 1) p) as [FIN|NFIN].
      * eexists _, _, _, _. split; [reflexivity|]. split; [reflexivity|]. split; [reflexivity|].
        split; [constructor; auto|]. split; [auto|]. split; [auto|]. split; [auto|].
        split. { intros x I. apply put_in in I as [->|I]; cbn; auto. }
        split. { intros x X0 NI. apply CO; auto. intros ->. apply NI. left; auto. }
        split; [lia|]. split; [discriminate|]. intros _. split; [auto|].
        intros e' [<-|I].
        { destruct DY1 as (_ & _ & A & B). split; auto. exists (t + 1). split; [lia|auto]. }
        { rewrite Forall_forall in DYS. destruct (DYS e' I) as (_ & _ & A & B). split; auto. exists t. split; [lia|auto]. }
      * destruct (IH res1 (runs + 1) H2 H4 DYS L1 R1) as (es2 & res2 & runs2 & b & PE2 & NU & WE & ST2 & L2 & R2 & MO2 & IN2 & CO2 & RL & BF & BT); [lia|].
        rewrite PE2. exists (e1 :: es2), res2, runs2, b. split; [reflexivity|].
        split; [cbn; now rewrite NU|]. split; [cbn; now rewrite WE|]. split; [constructor; auto|].
        split; [auto|]. split; [auto|]. split; [auto|].
        split. { intros x I. apply IN2 in I as [I|I]; [apply put_in in I as [->|I]|]; cbn; auto. }
        split. { intros x X0 NI. rewrite CO2, CO; auto; [intros ->; apply NI; left; auto|intro; apply NI; right; auto]. }
        split; [lia|].
        assert (E1K : dyn (t + 1) res2 e1).
        { destruct DY1 as (A & B & C & D). split; auto. split; [intros; apply MO2; auto|]. split; auto.
          rewrite CO2; auto. }
        split.
        { intro Bb. destruct (BF Bb) as (X & Y & Z0). split; auto. split; [constructor; auto|]. intros _. lia. }
        { intro Bb. destruct (BT Bb) as (X & Y). split; auto. intros e' [<-|I]; auto.
          destruct E1K as (_ & _ & A & B). split; auto. exists (t + 1). split; [lia|auto]. }
    + (* waits *)
      set (e1 := mkes (es_num e) (es_weight e) (es_off e) (es_skip e) (es_next e) (es_cum e + es_weight e)).
      destruct (IH res runs H2 H4 H6 LR RU RP) as (es2 & res2 & runs2 & b & PE2 & NU & WE & ST2 & L2 & R2 & MO2 & IN2 & CO2 & RL & BF & BT).
      rewrite PE2. exists (e1 :: es2), res2, runs2, b. split; [reflexivity|].
      split; [cbn; now rewrite NU|]. split; [cbn; now rewrite WE|].
      split; [constructor; auto; split; [exact N0|split; [split; auto|exact SJ]]|].
      split; [auto|]. split; [auto|]. split; [auto|].
      split. { intros x I. apply IN2 in I as [I|I]; cbn; auto. }
      split. { intros x X0 NI. rewrite CO2; auto. intro; apply NI; right; auto. }
      split; [lia|].
      assert (E1K : dyn (t + 1) res2 e1).
      { unfold dyn, e1. cbn [es_next es_off es_skip es_cum es_num es_weight]. split; auto. split; [intros; apply MO2; auto|]. split; [lia|].
        rewrite CO2; auto. lia. }
      split.
      { intro Bb. destruct (BF Bb) as (X & Y & Z0). split; auto. split; [constructor; auto|].
        cbn [map In]. intros [Q|Q]; auto. lia. }
      { intro Bb. destruct (BT Bb) as (X & Y). split; auto. intros e' [<-|I]; auto.
        destruct E1K as (_ & _ & A & B). split; auto. exists (t + 1). split; [lia|auto]. }
Qed.

Definition done (res : list Z) (nums weights : list Z) : Prop :=
  Z.of_nat (length res) = p /\ (forall x, In x res -> In x nums) /\
  exists t, 0 <= t /\ forall x w, In (x, w) (combine nums weights) ->
    exists d cum, t <= d <= t + 1 /\ 0 <= cum < W /\ W * cnt (isnum x) res + cum = d * w.

Lemma combine_in es x w : In (x, w) (combine (map es_num es) (map es_weight es)) -> exists e, In e es /\ es_num e = x /\ es_weight e = w.
Proof.
  induction es as [|e es IH]; cbn; [tauto|]. intros [E|I]; [inv E; eauto|]. apply IH in I as (e' & A & B). eauto.
Qed.

Lemma passes_spec n : forall t es res runs,
  0 <= t -> NoDup (map es_num es) -> Forall stat es -> Forall (dyn t res) es -> In W (map es_weight es) ->
  Z.of_nat (length res) = p -> runs = cnt isset res -> runs < p -> p - runs <= Z.of_nat n ->
  (forall x, In x res -> x = -1 \/ In x (map es_num es)) ->
  exists res', passes n fuel p W es res runs = Some res' /\ done res' (map es_num es) (map es_weight es).
Proof.
  induction n as [|n IH]; intros t es res runs T0 ND ST DY IW LR RU RP LN VA; [lia|]. cbn [passes].
  destruct (pass_spec t es res runs ND ST DY LR RU RP) as (es' & res' & runs' & b & E & NU & WE & ST' & L' & R' & MO & IN & CO & RL & BF & BT).
  rewrite E.
  assert (VA' : forall x, In x res' -> x = -1 \/ In x (map es_num es)).
  { intros x I. apply IN in I as [I|I]; auto. }
  destruct b.
  - eexists. split; [reflexivity|]. destruct (BT eq_refl) as (FULL & CT). split; auto. split.
    + intros x I. destruct (VA' x I) as [->|]; auto. exfalso.
      assert (X : cnt isset res' = Z.of_nat (length res')) by lia. pose proof (cnt_full _ _ X _ I) as Y. discriminate.
    + exists t. split; auto. intros x w I. rewrite <- NU, <- WE in I. apply combine_in in I as (e' & J & <- & <-).
      destruct (CT e' J) as (A & d & B & C). exists d, (es_cum e'). auto.
  - destruct (BF eq_refl) as (A & B & C). specialize (C IW). rewrite <- NU, <- WE.
    apply (IH (t + 1)); auto; try lia.
    + now rewrite NU.
    + now rewrite WE.
    + now rewrite NU.
Qed.
End M.

(** * Which (offset, skip) pairs meet every slot *)
Lemma inv_mod a m : 1 < m -> rel_prime a m -> exists b, 0 <= b < m /\ (a * b) mod m = 1.
Proof.
  intros M R. destruct (rel_prime_bezout _ _ R) as [u v E].
  exists (u mod m). split; [apply Z.mod_pos_bound; lia|].
  rewrite Z.mul_mod_idemp_r by lia.
  replace (a * u) with (1 + (- v) * m) by lia. rewrite Z_mod_plus_full. apply Z.mod_small. lia.
Qed.

Lemma surj_no_wrap p off skip : 1 < p -> p * p <= 2 ^ 32 -> 0 <= off < p -> 0 < skip < p -> rel_prime skip p -> surj p off skip.
Proof.
  intros P PP O S R i I. destruct (inv_mod skip p P R) as (b & B & E).
  set (n := ((i - off) * b) mod p).
  assert (N : 0 <= n < p) by (apply Z.mod_pos_bound; lia).
  exists n. split; [nia|]. unfold cur_of, w32.
  assert (0 <= n * skip <= (p - 1) * (p - 1)) by nia.
  rewrite (Z.mod_small (n * skip)) by nia. rewrite (Z.mod_small (off + n * skip)) by nia.
  unfold n. rewrite <- Zplus_mod_idemp_r, Z.mul_mod_idemp_l by lia.
  replace ((i - off) * b * skip) with ((i - off) * (skip * b)) by ring.
  rewrite <- Z.mul_mod_idemp_r, E, Z.mul_1_r by lia. rewrite Zplus_mod_idemp_r.
  replace (off + (i - off)) with i by ring. apply Z.mod_small. lia.
Qed.

Lemma odd_part s : 0 < s -> exists j m, 0 <= j /\ s = 2 ^ j * m /\ Z.odd m = true /\ 0 < m.
Proof.
  destruct s as [|q|q]; try lia. intros _. induction q as [q IH|q IH|].
  - exists 0, (Zpos q~1). repeat split; auto; lia.
  - destruct IH as (j & m & A & B & C & D). exists (j + 1), m. split; [lia|]. split; [|auto].
    rewrite Z.pow_add_r by lia. rewrite (Pos2Z.inj_xO q), B. ring.
  - exists 0, 1. repeat split; auto; lia.
Qed.
Lemma rel_prime_odd_pow2 m k : 0 <= k -> Z.odd m = true -> rel_prime m (2 ^ k).
Proof.
  intros K O. apply rel_prime_sym. 
  assert (G : forall k, 0 <= k -> rel_prime (2 ^ k) m).
  { apply natlike_ind.
    - apply rel_prime_sym, rel_prime_1 || (apply rel_prime_sym; apply rel_prime_sym; apply rel_prime_1).
    - intros x X H. rewrite Z.pow_succ_r by lia. apply rel_prime_sym, rel_prime_mult; [|apply rel_prime_sym; auto].
      apply rel_prime_sym. apply prime_rel_prime; [apply prime_2|]. intros [c E]. rewrite E in O.
      rewrite Z.odd_mul in O. now rewrite andb_false_r in O. }
  auto.
Qed.

(** the default ring size: every skip but 65536 *)
Lemma surj_65537 off skip : 0 <= off < 65537 -> 0 < skip < 65536 -> surj 65537 off skip.
Proof.
  intros O S i I. destruct (odd_part skip) as (j & m & J & ES & OD & MP); [lia|].
  assert (J15 : j <= 15).
  { destruct (Z.le_gt_cases j 15); auto. exfalso.
    assert (2 ^ 16 <= 2 ^ j) by (apply Z.pow_le_mono_r; lia). change (2 ^ 16) with 65536 in *. nia. }
  assert (PJ : 1 <= 2 ^ j <= 32768).
  { split; [apply (Z.pow_le_mono_r 2 0 j); lia|]. change 32768 with (2 ^ 15). apply Z.pow_le_mono_r; lia. }
  (* k * 2^j hits i - off modulo 65537 *)
  destruct (inv_mod (2 ^ j) 65537) as (b & B & E); [lia|apply rel_prime_sym, rel_prime_odd_pow2; [lia|reflexivity]|].
  set (k := ((i - off) * b) mod 65537). assert (KR : 0 <= k < 65537) by (apply Z.mod_pos_bound; lia).
  (* and a multiple of skip is k * 2^j modulo 2^32 *)
  set (M := 2 ^ (32 - j)).
  assert (ME : 2 ^ 32 = 2 ^ j * M) by (unfold M; rewrite <- Z.pow_add_r by lia; f_equal; lia).
  assert (M1 : 1 < M). { unfold M. change 1 with (2 ^ 0). apply Z.pow_lt_mono_r; lia. }
  destruct (inv_mod m M M1) as (c & C & EC); [apply rel_prime_odd_pow2; [lia|auto]|].
  set (n := (k * c) mod M). assert (NR : 0 <= n < M) by (apply Z.mod_pos_bound; lia).
  assert (PR : (n * skip) mod 2 ^ 32 = k * 2 ^ j).
  { rewrite ES, ME. replace (n * (2 ^ j * m)) with (2 ^ j * (n * m)) by ring.
    rewrite Z.mul_mod_distr_l by lia. rewrite (Z.mul_comm k). f_equal.
    unfold n. rewrite Z.mul_mod_idemp_l by lia. replace (k * c * m) with (k * (m * c)) by ring.
    rewrite <- Z.mul_mod_idemp_r, EC, Z.mul_1_r by lia. apply Z.mod_small. split; [lia|].
    assert (65537 * 2 ^ j <= 65537 * 32768) by nia.
    assert (65537 * 2 ^ j < 2 ^ j * M).
    { rewrite <- ME. lia. }
    nia. }
  exists n. split.
  { split; [lia|]. assert (M <= 2 ^ 32). { rewrite ME. nia. } lia. }
  unfold cur_of, w32. rewrite PR.
  rewrite (Z.mod_small (off + k * 2 ^ j)) by nia.
  rewrite <- Zplus_mod_idemp_r. unfold k. rewrite Z.mul_mod_idemp_l by lia.
  replace ((i - off) * b * 2 ^ j) with ((i - off) * (2 ^ j * b)) by ring.
  rewrite <- Z.mul_mod_idemp_r, E, Z.mul_1_r by lia. rewrite Zplus_mod_idemp_r.
  replace (off + (i - off)) with i by ring. apply Z.mod_small. lia.
Qed.

(** and that one never meets the slot after its offset *)
Lemma cur_65536 n : cur_of 65537 0 65536 n <> 1.
Proof.
  unfold cur_of, w32. rewrite Z.add_0_l, Z.mod_mod by lia.
  change (2 ^ 32) with (65536 * 65536). rewrite Z.mul_mod_distr_r by lia.
  set (k := n mod 65536). assert (K : 0 <= k < 65536) by (apply Z.mod_pos_bound; lia).
  intro E. pose proof (Z.div_mod (k * 65536) 65537 ltac:(lia)). rewrite E in H.
  set (q := k * 65536 / 65537) in *. assert (65537 * (k - q) = k + 1) by lia. lia.
Qed.

Lemma probe_cur f p off skip res : forall next n cur, probe f p off skip next res = Some (n, cur) ->
  exists m, cur = cur_of p off skip m /\ slot res cur < 0.
Proof.
  induction f as [|f IH]; intros next n cur E; cbn in E; [discriminate|].
  destruct (Z.leb_spec 0 (slot res (cur_of p off skip next))); [eauto|]. inv E. eauto.
Qed.

(** Endpoints that all have offset 0 and skip 65536 never fill slot 1. *)
Definition stuck_ep (e : epst) : Prop := es_off e = 0 /\ es_skip e = 65536 /\ 0 <= es_num e.
Definition stuck_tab (res : list Z) (runs : Z) : Prop :=
  Z.of_nat (length res) = 65537 /\ slot res 1 < 0 /\ runs = cnt isset res.

Lemma stuck_small res runs : stuck_tab res runs -> runs < 65537.
Proof.
  intros (L & S & ->). destruct (Z.lt_ge_cases (cnt isset res) 65537) as [|G]; auto. exfalso.
  pose proof (cnt_le isset res). assert (E : cnt isset res = Z.of_nat (length res)) by lia.
  pose proof (cnt_full _ _ E (nth 1 res (-1))) as X. unfold slot in S. change (Z.to_nat 1) with 1%nat in S.
  assert (In (nth 1 res (-1)) res) by (apply nth_In; lia). apply X in H0. unfold isset in H0. apply Z.leb_le in H0. lia.
Qed.

Lemma stuck_pass fuel W es : forall res runs, Forall stuck_ep es -> stuck_tab res runs ->
  match pass fuel 65537 W es res runs with
  | None => True
  | Some (es', res', runs', b) => b = false /\ Forall stuck_ep es' /\ stuck_tab res' runs'
  end.
Proof.
  induction es as [|e es IH]; intros res runs ST TB; cbn [pass]; auto.
  inversion_clear ST as [|? ? (O & S & N) ST'].
  destruct (W <=? w32 (es_cum e + es_weight e)).
  - rewrite O, S. destruct (probe fuel 65537 0 65536 (es_next e) res) as [[n cur]|] eqn:E; auto.
    apply probe_cur in E as (m & -> & NEG).
    pose proof (cur_65536 m) as N1. assert (CR : 0 <= cur_of 65537 0 65536 m < 65537) by (apply Z.mod_pos_bound; lia).
    set (cur := cur_of 65537 0 65536 m) in *. destruct TB as (L & S1 & RU).
    assert (TB1 : stuck_tab (put (Z.to_nat cur) (es_num e) res) (runs + 1)).
    { split; [now rewrite put_length|]. split.
      - unfold slot. rewrite put_other; [exact S1|]. lia.
      - rewrite put_cnt by lia. unfold isset at 2 3. unfold slot in NEG.
        destruct (Z.leb_spec 0 (nth (Z.to_nat cur) res (-1))); [lia|]. destruct (Z.leb_spec 0 (es_num e)); lia. }
    pose proof (stuck_small _ _ TB1). destruct (Z.eqb_spec (runs + 1) 65537); [lia|].
    specialize (IH _ _ ST' TB1). destruct (pass fuel 65537 W es _ (runs + 1)) as [[[[es2 res2] runs2] b]|]; auto.
    destruct IH as (A & B & C). split; auto. split; auto. constructor; auto. repeat split; auto.
  - specialize (IH _ _ ST' TB). destruct (pass fuel 65537 W es res runs) as [[[[es2 res2] runs2] b]|]; auto.
    destruct IH as (A & B & C). split; auto. split; auto. constructor; auto. repeat split; auto.
Qed.
Lemma stuck_passes fuel W n : forall es res runs, Forall stuck_ep es -> stuck_tab res runs ->
  passes n fuel 65537 W es res runs = None.
Proof.
  induction n as [|n IH]; intros es res runs ST TB; cbn [passes]; auto.
  pose proof (stuck_pass fuel W es res runs ST TB) as H.
  destruct (pass fuel 65537 W es res runs) as [[[[es2 res2] runs2] b]|]; auto. destruct H as (-> & B & C). auto.
Qed.

(** 65537 is prime. *)
Fixpoint coprime_upto (fuel : nat) (n p : Z) : bool :=
  match fuel with O => false | S f => if n =? 0 then true else if Z.gcd n p =? 1 then coprime_upto f (n - 1) p else false end.
Lemma coprime_upto_spec f p : forall n, coprime_upto f n p = true -> forall k, 1 <= k <= n -> Z.gcd k p = 1.
Proof.
  induction f as [|f IH]; intros n E k K; cbn in E; [discriminate|].
  destruct (Z.eqb_spec n 0); [lia|]. destruct (Z.eqb_spec (Z.gcd n p) 1); [|discriminate].
  destruct (Z.eq_dec k n) as [->|]; auto. eapply IH; eauto. lia.
Qed.
Lemma prime_65537 : prime 65537.
Proof.
  assert (E : coprime_upto (Z.to_nat 70000) 65536 65537 = true) by (vm_compute; reflexivity).
  constructor; [lia|]. intros n N. apply Zgcd_1_rel_prime. eapply coprime_upto_spec; eauto. lia.
Qed.

Lemma max_weight_acc eps : forall m, let r := fold_left (fun m e => if m <? ep_weight e then ep_weight e else m) eps m in
  m <= r /\ (forall e, In e eps -> ep_weight e <= r) /\ (r = m \/ exists e, In e eps /\ ep_weight e = r).
Proof.
  induction eps as [|e eps IH]; intro m; cbn.
  - split; [lia|]. split; [tauto|auto].
  - specialize (IH (if m <? ep_weight e then ep_weight e else m)). cbn in IH. destruct IH as (A & B & C).
    destruct (Z.ltb_spec m (ep_weight e)).
    + split; [lia|]. split; [intros x [->|I]; auto|]. right. destruct C as [C|(x & I & C)]; [exists e|exists x]; auto.
    + split; [lia|]. split; [intros x [->|I]; [lia|auto]|]. destruct C as [C|(x & I & C)]; [auto|right; exists x; auto].
Qed.
