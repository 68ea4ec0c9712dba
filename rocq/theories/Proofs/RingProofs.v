(** Proofs about the consistent hash ring and round robin. *)
From Coq Require Import List Arith ZArith Bool Lia Sorting Permutation.
From Verif.Model Require Import Common LoadBalance.
From Verif.Spec Require Import RingSpec.
From Verif.Proofs Require Import Tac.
Import ListNotations.
Local Open Scope Z_scope.

Section R.
Context {T : Type} (hasher : T -> Z).
Hypothesis HR : forall v, 0 <= hasher v < 2 ^ 32.

Definition below (a b : Z * T) : Prop := fst a < fst b.
Record ringok (m : @ring_map T) : Prop := {
  rk_sorted : StronglySorted below m;
  rk_hash : forall q, In q m -> fst q = hasher (snd q)
}.
Lemma ringok_nil : ringok []. Proof. split; [constructor|intros ? []]. Qed.

Lemma sorted_hash_inj m a b : StronglySorted below m -> In a m -> In b m -> fst a = fst b -> a = b.
Proof.
  induction 1 as [|x m S IH F]; cbn; [tauto|]. rewrite Forall_forall in F. unfold below in F.
  intros [->|A] [->|B] E; auto.
  - apply F in B. lia.
  - apply F in A. lia.
Qed.

Lemma map_insert_in h v m q : StronglySorted below m ->
  (In q (map_insert h v m) <-> In q m \/ (q = (h, v) /\ forall q', In q' m -> fst q' <> h)).
Proof.
  induction 1 as [|x m S IH F]; cbn.
  - split.
    + intros [<-|[]]. right. split; [auto|intros ? []].
    + intros [[]|[-> _]]. auto.
  - destruct x as [h' v']. rewrite Forall_forall in F. unfold below in F. cbn in F.
    destruct (Z.ltb_spec h h'); [|destruct (Z.eqb_spec h h') as [->|N]].
    + cbn. split.
      * intros [<-|[<-|I]]; auto. right. split; auto. intros q' [<-|J]; cbn; [lia|]. apply F in J. lia.
      * intros [[<-|I]|[-> _]]; auto.
    + cbn. split; [tauto|]. intros [I|[-> NE]]; auto. exfalso. apply (NE (h', v')); auto.
    + cbn. rewrite IH. split.
      * intros [<-|[I|[-> NE]]]; auto. right. split; auto. intros q' [<-|J]; cbn; auto.
      * intros [[<-|I]|[-> NE]]; auto. right. right. split; auto.
Qed.
Lemma map_insert_sorted h v m : StronglySorted below m -> StronglySorted below (map_insert h v m).
Proof.
  induction 1 as [|x m S IH F]; cbn.
  - repeat constructor.
  - destruct x as [h' v']. pose proof F as F0. rewrite Forall_forall in F. unfold below in F. cbn in F.
    destruct (Z.ltb_spec h h'); [|destruct (Z.eqb_spec h h') as [->|N]].
    + constructor; [constructor; auto|]. constructor; [exact H|]. apply Forall_forall. intros q J. apply F in J. unfold below. cbn. lia.
    + constructor; auto.
    + constructor; auto. apply Forall_forall. intros q J. apply map_insert_in in J as [J|[-> _]]; auto.
      * apply F in J. exact J.
      * unfold below. cbn. lia.
Qed.
Lemma ring_insert_ok v m : ringok m -> ringok (ring_insert hasher v m).
Proof.
  intros [S H]. split; [now apply map_insert_sorted|]. intros q I. apply map_insert_in in I as [I|[-> _]]; auto.
Qed.
Lemma ring_insert_in v m q : ringok m -> (In q (ring_insert hasher v m) <->
  In q m \/ (q = (hasher v, v) /\ forall q', In q' m -> fst q' <> hasher v)).
Proof. intros [S _]. now apply map_insert_in. Qed.
Lemma filter_sorted f m : StronglySorted below m -> StronglySorted below (filter f m).
Proof.
  induction 1 as [|x m S IH F]; cbn; [constructor|]. destruct (f x); auto. constructor; auto.
  rewrite Forall_forall in *. intros y I. apply filter_In in I as [I _]. auto.
Qed.
Lemma ring_erase_ok v m : ringok m -> ringok (ring_erase hasher v m).
Proof.
  intros [S H]. split; [now apply filter_sorted|]. intros q I. apply filter_In in I as [I _]. auto.
Qed.
Lemma ring_erase_in v m q : In q (ring_erase hasher v m) <-> In q m /\ fst q <> hasher v.
Proof. unfold ring_erase. rewrite filter_In, negb_true_iff, Z.eqb_neq. tauto. Qed.

Lemma range m q : ringok m -> In q m -> 0 <= fst q < 2 ^ 32.
Proof. intros [_ H] I. rewrite (H q I). apply HR. Qed.

Lemma lower_bound_some k m q : StronglySorted below m -> lower_bound k m = Some q ->
  In q m /\ k <= fst q /\ forall q', In q' m -> k <= fst q' -> fst q <= fst q'.
Proof.
  induction 1 as [|x m S IH F]; cbn; [discriminate|]. destruct x as [h v]. rewrite Forall_forall in F. unfold below in F. cbn in F.
  destruct (Z.leb_spec k h).
  - intro E. inv E. cbn. split; auto. split; auto. intros q' [<-|I] K; cbn; [lia|]. apply F in I. lia.
  - intro E. destruct (IH E) as (A & B & C). split; auto. split; auto. intros q' [<-|I] K; cbn in *; [lia|auto].
Qed.
Lemma lower_bound_none k (m : @ring_map T) : lower_bound k m = None -> forall q, In q m -> fst q < k.
Proof.
  induction m as [|[h v] m IH]; cbn; [tauto|]. destruct (Z.leb_spec k h); [discriminate|].
  intros E q [<-|I]; cbn; auto.
Qed.

Lemma clockwise_ge k h : 0 <= k < 2 ^ 32 -> 0 <= h < 2 ^ 32 -> clockwise k h = if k <=? h then h - k else h - k + 2 ^ 32.
Proof.
  intros K H. unfold clockwise. destruct (Z.leb_spec k h).
  - apply Z.mod_small. lia.
  - rewrite <- (Z_mod_plus_full (h - k) 1). apply Z.mod_small. lia.
Qed.

Lemma ring_find_owner k m : ringok m -> 0 <= k < 2 ^ 32 -> m <> [] ->
  exists q, ring_find k m = Some q /\ owner k m q.
Proof.
  intros OK K NE. pose proof OK as [S _]. destruct m as [|p m']; [congruence|]. set (m := p :: m') in *.
  unfold ring_find. fold m. destruct (lower_bound k m) as [q|] eqn:E.
  - exists q. split; auto. destruct (lower_bound_some k m q S E) as (A & B & C). split; auto. intros q' I.
    rewrite !clockwise_ge by (auto; eapply range; eauto).
    destruct (Z.leb_spec k (fst q)); [|lia]. pose proof (range m q OK A). pose proof (range m q' OK I).
    destruct (Z.leb_spec k (fst q')); [specialize (C q' I H2); lia|lia].
  - exists p. split; auto. split; [left; auto|]. intros q' I.
    pose proof (lower_bound_none k m E) as L.
    rewrite !clockwise_ge by (auto; eapply range; eauto; left; auto).
    pose proof (L p (or_introl eq_refl)). pose proof (L q' I).
    destruct (Z.leb_spec k (fst p)); [lia|]. destruct (Z.leb_spec k (fst q')); [lia|].
    destruct I as [<-|I]; [lia|]. inversion_clear S as [|? ? ? F]. rewrite Forall_forall in F. apply F in I. unfold below in I. lia.
Qed.
Lemma owner_unique k m a b : ringok m -> 0 <= k < 2 ^ 32 -> owner k m a -> owner k m b -> a = b.
Proof.
  intros OK K [A1 A2] [B1 B2]. pose proof (A2 b B1). pose proof (B2 a A1).
  assert (E : clockwise k (fst a) = clockwise k (fst b)) by lia.
  rewrite !clockwise_ge in E by (auto; eapply range; eauto).
  pose proof (range m a OK A1). pose proof (range m b OK B1).
  apply (sorted_hash_inj m); auto; [apply OK|]. destruct (Z.leb_spec k (fst a)), (Z.leb_spec k (fst b)); lia.
Qed.
Lemma ring_find_iff k m q : ringok m -> 0 <= k < 2 ^ 32 -> (ring_find k m = Some q <-> owner k m q).
Proof.
  intros OK K. split.
  - intro E. assert (NE : m <> []) by (intros ->; discriminate).
    destruct (ring_find_owner k m OK K NE) as (q' & E' & O). congruence.
  - intro O. assert (NE : m <> []) by (intros ->; destruct O as [[] _]).
    destruct (ring_find_owner k m OK K NE) as (q' & E' & O'). rewrite E'. f_equal. eapply owner_unique; eauto.
Qed.
Lemma ring_find_none k (m : @ring_map T) : ring_find k m = None <-> m = [].
Proof. destruct m; cbn; split; auto; try discriminate. destruct p. destruct (k <=? z); [discriminate|]. destruct (lower_bound k m); discriminate. Qed.

(** the ring as a set decides *)
Lemma ring_find_ext k m m' : ringok m -> ringok m' -> 0 <= k < 2 ^ 32 ->
  (forall q, In q m <-> In q m') -> ring_find k m = ring_find k m'.
Proof.
  intros OK OK' K E. destruct (ring_find k m) as [q|] eqn:F.
  - apply ring_find_iff in F as [A B]; auto. symmetry. apply ring_find_iff; auto. split; [now apply E|].
    intros q' I. apply B. now apply E.
  - apply ring_find_none in F. subst. symmetry. apply ring_find_none. destruct m' as [|p m']; auto.
    exfalso. apply (E p). left; auto.
Qed.
End R.

(** * Round robin *)
Definition pick_at (c : Z) (n : nat) (i : nat) : nat := Z.to_nat ((c + Z.of_nat i) mod Z.of_nat n).

Lemma rr_picks_spec n : (0 < n)%nat -> forall k c, 0 <= c < 2 ^ 32 ->
  (c + Z.of_nat k <= 2 ^ 32 \/ (Z.of_nat n | 2 ^ 32)) ->
  exists c', rr_picks k c n = Ok (c', map (pick_at c n) (seq 0 k)).
Proof.
  intro N. induction k as [|k IH]; intros c C D; cbn [rr_picks].
  - eexists. reflexivity.
  - unfold rr_pick. destruct (Nat.eqb_spec n 0); [lia|]. cbn [obind fst snd].
    assert (W : 0 <= w32 (c + 1) < 2 ^ 32) by (apply Z.mod_pos_bound; lia).
    destruct (Z.eq_dec (c + 1) (2 ^ 32)) as [Q|Q].
    + assert (W0 : w32 (c + 1) = 0) by (rewrite Q; apply Z_mod_same_full).
      destruct k as [|k].
      * cbn [rr_picks obind fst snd seq map]. eexists. unfold pick_at. now rewrite Z.add_0_r.
      * destruct D as [D|D]; [lia|]. destruct (IH (w32 (c + 1)) W (or_intror D)) as (c' & E). rewrite E. cbn [obind fst snd].
        eexists. f_equal. f_equal. cbn [seq map]. unfold pick_at at 3. rewrite Z.add_0_r. f_equal.
        rewrite <- (seq_shift _ 1), <- seq_shift, !map_map.
        assert (X : forall i, pick_at (w32 (c + 1)) n i = pick_at c n (S i)).
        { intro i. unfold pick_at. rewrite W0. f_equal. replace (c + Z.of_nat (S i)) with ((0 + Z.of_nat i) + (c + 1)) by lia.
          rewrite Q. destruct D as [z D]. rewrite D, Z_mod_plus_full. reflexivity. }
        rewrite <- (X 0%nat). f_equal. apply map_ext. intro i. apply X.
    + assert (W0 : w32 (c + 1) = c + 1) by (apply Z.mod_small; lia).
      rewrite W0 in *. destruct (IH (c + 1) W) as (c' & E); [destruct D; [left; lia|auto]|]. rewrite E. cbn [obind fst snd].
      eexists. f_equal. f_equal. cbn [seq map]. unfold pick_at at 2. rewrite Z.add_0_r. f_equal.
      rewrite <- seq_shift, map_map. apply map_ext. intro i. unfold pick_at. f_equal. f_equal. lia.
Qed.

Lemma pick_at_lt c n i : (0 < n)%nat -> (pick_at c n i < n)%nat.
Proof. intro N. unfold pick_at. pose proof (Z.mod_pos_bound (c + Z.of_nat i) (Z.of_nat n)). lia. Qed.
Lemma pick_at_inj c n i j : (0 < n)%nat -> (i < n)%nat -> (j < n)%nat -> pick_at c n i = pick_at c n j -> i = j.
Proof.
  intros N I J E. unfold pick_at in E.
  pose proof (Z.mod_pos_bound (c + Z.of_nat i) (Z.of_nat n)). pose proof (Z.mod_pos_bound (c + Z.of_nat j) (Z.of_nat n)).
  assert (M : (c + Z.of_nat i) mod Z.of_nat n = (c + Z.of_nat j) mod Z.of_nat n) by lia.
  pose proof (Z.div_mod (c + Z.of_nat i) (Z.of_nat n) ltac:(lia)) as D1. pose proof (Z.div_mod (c + Z.of_nat j) (Z.of_nat n) ltac:(lia)) as D2.
  rewrite M in D1. set (q := (c + Z.of_nat i) / Z.of_nat n) in *. set (q' := (c + Z.of_nat j) / Z.of_nat n) in *.
  assert (Z.of_nat i - Z.of_nat j = Z.of_nat n * (q - q')) as Q by (rewrite Z.mul_sub_distr_l; lia).
  clearbody q q'. clear - I J Q. destruct (Z.lt_trichotomy (q - q') 0) as [X|[X|X]]; [nia| |nia]. rewrite X in Q. lia.
Qed.
Lemma picks_nodup c n k : (0 < n)%nat -> (k <= n)%nat -> NoDup (map (pick_at c n) (seq 0 k)).
Proof.
  intros N K. assert (G : forall l, NoDup l -> (forall x, In x l -> (x < n)%nat) -> NoDup (map (pick_at c n) l)).
  { induction 1 as [|x l NI ND IH]; intro L; cbn; constructor.
    - intro I. apply in_map_iff in I as (y & E & I). apply pick_at_inj in E; auto.
      + now subst.
      + apply L; right; auto.
      + apply L; left; auto.
    - apply IH. intros; apply L; right; auto. }
  apply G; [apply seq_NoDup|]. intros x I. apply in_seq in I. lia.
Qed.
Lemma picks_perm c n : (0 < n)%nat -> Permutation (map (pick_at c n) (seq 0 n)) (seq 0 n).
Proof.
  intro N. apply NoDup_Permutation_bis.
  - apply picks_nodup; auto.
  - rewrite map_length. lia.
  - intros x I. apply in_map_iff in I as (i & <- & _). apply in_seq. pose proof (pick_at_lt c n i N). lia.
Qed.

Lemma rr_picks_app n a : forall b c, rr_picks (a + b) c n =
  obind (rr_picks a c n) (fun p => obind (rr_picks b (fst p) n) (fun q => Ok (fst q, snd p ++ snd q))).
Proof.
  induction a as [|a IH]; intros b c; cbn [rr_picks Nat.add obind fst snd app].
  - destruct (rr_picks b c n) as [[]| |]; reflexivity.
  - destruct (rr_pick c n) as [[c1 x]| |]; cbn [obind fst snd]; auto. rewrite IH.
    destruct (rr_picks a c1 n) as [[c2 l]| |]; cbn [obind fst snd]; auto.
    destruct (rr_picks b c2 n) as [[c3 l']| |]; cbn [obind fst snd]; auto.
Qed.
Lemma rr_counter n k : forall c c' l, 0 <= c < 2 ^ 32 -> rr_picks k c n = Ok (c', l) -> c' = w32 (c + Z.of_nat k).
Proof.
  induction k as [|k IH]; intros c c' l C E; cbn [rr_picks] in E.
  - inv E. unfold w32. rewrite Z.add_0_r, Z.mod_small; auto.
  - unfold rr_pick in E. destruct (Nat.eqb_spec n 0); [discriminate|]. cbn [obind fst snd] in E.
    destruct (rr_picks k (w32 (c + 1)) n) as [[c2 l2]| |] eqn:E2; try discriminate. cbn [obind fst snd] in E. inv E.
    apply IH in E2; [|apply Z.mod_pos_bound; lia]. rewrite E2. unfold w32. rewrite Zplus_mod_idemp_l. f_equal. lia.
Qed.
