From Verif.Model Require Import Common Numerics.
From Verif.Spec Require Import NumSpec.
From Verif.Proofs Require Import Tac NumProofs.
Local Open Scope Z_scope.

Lemma BigEnough_ok l r : snd (BigEnough l r) = true -> TypeInRange (fst (BigEnough l r)) l && TypeInRange (fst (BigEnough l r)) r = true.
Proof. tys; vm_compute; auto. Qed.
Lemma SafeCompare_ok C f l r x y : (forall l r x y, fits l x -> fits r y -> C l r x y = f x y) -> fits l x -> fits r y ->
  SafeCompare C l r x y = f x y.
Proof.
  intros H X Y. unfold SafeCompare. destruct (BigEnough l r) as [b c] eqn:E. destruct c; [|auto].
  assert (B := BigEnough_ok l r). rewrite E in B. cbn [fst snd] in B. specialize (B eq_refl). b2p.
  rewrite (cast_id l x), (cast_id r y) by auto. assert (fits b x) by now apply in_type with l. assert (fits b y) by now apply in_type with r.
  rewrite !cast_id by auto. auto.
Qed.
Lemma IsMaxInRange_ok dst src : IsMaxInRange dst src = (hi src <=? hi dst).
Proof. unfold IsMaxInRange. apply IsGreaterOrEqual_ok; apply hi_fits. Qed.
Lemma IsMinInRange_ok dst src : IsMinInRange dst src = (lo dst <=? lo src).
Proof. unfold IsMinInRange. apply IsLessOrEqual_ok; apply lo_fits. Qed.
Lemma CommonMax_ok dst src : CommonMax dst src = Z.min (hi dst) (hi src).
Proof.
  assert (D := lo_hi dst). assert (S := lo_hi src). unfold CommonMax. rewrite IsMaxInRange_ok. destruct (Z.leb_spec (hi src) (hi dst)); cbn [negb]; [|lia]. rewrite cast_id; [lia|unfold fits; lia].
Qed.
Lemma CommonMin_ok dst src : CommonMin dst src = Z.max (lo dst) (lo src).
Proof.
  assert (D := lo_hi dst). assert (S := lo_hi src). unfold CommonMin. rewrite IsMinInRange_ok. destruct (Z.leb_spec (lo dst) (lo src)); cbn [negb]; [|lia]. rewrite cast_id; [lia|unfold fits; lia].
Qed.
Lemma Common_same t b : CommonMaxOrMin t t b = if b then lo t else hi t.
Proof. unfold CommonMaxOrMin. rewrite CommonMax_ok, CommonMin_ok. destruct b; lia. Qed.
Lemma uns_facts t : lo (uns t) = 0 /\ hi (uns t) = 2 * half t - 1 /\ 2 ^ bits (uns t) = 2 * half t /\ half t = half (uns t) /\ bits (uns t) = bits t.
Proof. split; [reflexivity|]. destruct (range (uns t)) as [(A & _)|(_ & _ & ->)]; [discriminate|]. split; [reflexivity|]. split; [|split; reflexivity]. apply (proj1 (halves (uns t))). Qed.
Lemma sgn_lo t : sgn t = (lo t <? 0).
Proof. allty. Qed.
Lemma IsValueNegative_ok t v : fits t v -> IsValueNegative t v = (v <? 0).
Proof. intro F. unfold IsValueNegative. rewrite sgn_lo. unfold fits in F. destruct (Z.ltb_spec (lo t) 0); lia. Qed.
Lemma cast_uns t v : fits t v -> cast (uns t) v = if v <? 0 then v + 2 * half t else v.
Proof.
  intro F. destruct (uns_facts t) as (L & U & B & _ & _). assert (H := halves t). unfold fits in F.
  destruct (Z.ltb_spec v 0).
  - apply cast_unique with 1; [|rewrite B; lia]. unfold fits. rewrite L, U. destruct (range t) as [(_ & X & Y)|(_ & X & Y)]; lia.
  - apply cast_id. unfold fits. rewrite L, U. destruct (range t) as [(_ & X & Y)|(_ & X & Y)]; lia.
Qed.
Lemma common_refl_uns t : TypeInRange (common (uns t) (uns t)) (uns t) = true.  Proof. allty. Qed.
Lemma common_ss a b : sgn a = true -> sgn b = true -> TypeInRange (common a b) a && TypeInRange (common a b) b = true.
Proof. intros A B. apply common_same. congruence. Qed.
Lemma narrow_ss dst src : sgn dst = true -> sgn src = true -> TypeInRange dst src = false -> lo src <= lo dst /\ hi dst <= hi src.
Proof. rewrite TypeInRange_ok. tys; intros; try discriminate; vm_compute; split; congruence. Qed.
Lemma IsValueInRange_ok dst src v : fits src v -> IsValueInRange dst src v = (lo dst <=? v) && (v <=? hi dst).
Proof.
  intro F. unfold IsValueInRange. destruct (sgn dst) eqn:SD, (sgn src) eqn:SS, (TypeInRange dst src) eqn:T; cbn [andb negb];
    try (rewrite DstRange_ok by auto; unfold IsValid_; cbn [fst snd]; lia).
  - unfold eq_. assert (C := common_ss src dst SS SD). b2p.
    rewrite (cast_id (common src dst) v) by now apply in_type with src.
    rewrite (cast_id (common src dst)) by (apply in_type with dst; auto using cast_fits).
    assert (G := cast_fits dst v). destruct (Z.eqb_spec v (cast dst v)) as [E|E].
    + unfold fits in G. lia.
    + destruct (Z.leb_spec (lo dst) v), (Z.leb_spec v (hi dst)); cbn [andb]; auto. exfalso. apply E. symmetry. apply cast_id. unfold fits. lia.
  - unfold le_. rewrite !(cast_id (common _ _)); try (apply in_type with (uns src); auto using cast_fits, common_refl_uns).
    rewrite CommonMax_ok. assert (D := lo_hi dst). assert (S := lo_hi src).
    rewrite !cast_uns; [| |auto]; [|unfold fits; lia]. rewrite (uns_lo dst SD). assert (H := halves src).
    destruct (Z.ltb_spec (Z.min (hi src) (hi dst)) 0); [lia|]. unfold fits in F.
    destruct (range src) as [(_ & X & Y)|(X & _)]; [|congruence].
    destruct (Z.ltb_spec v 0); lia.
Qed.
Lemma in_rangeb t z : (lo t <=? z) && (z <=? hi t) = true <-> fits t z.
Proof. unfold fits. lia. Qed.
Lemma checked_cast_ok dst src v : fits src v -> checked_cast dst src v = if (lo dst <=? v) && (v <=? hi dst) then Ok v else CheckFail.
Proof.
  intro F. unfold checked_cast. rewrite IsValueInRange_ok by auto. destruct ((lo dst <=? v) && (v <=? hi dst)) eqn:E; auto.
  rewrite cast_id; auto. now apply in_rangeb.
Qed.
Lemma saturated_cast_ok const dst src v : fits src v -> saturated_cast const dst src v = clampZ dst v.
Proof.
  intro F. assert (D := lo_hi dst). assert (S := lo_hi src). unfold saturated_cast, clampZ. destruct const; cbn [negb].
  - unfold saturated_cast_impl. cbn zeta. rewrite DstRange_ok by auto. cbn [fst snd].
    destruct (Z.ltb_spec (hi dst) v), (Z.ltb_spec v (lo dst)); cbn [negb]; try lia. rewrite cast_id; [lia|unfold fits; lia].
  - unfold SaturateFastOp. cbn zeta. rewrite IsValueInRange_ok, IsMaxInRange_ok, IsMinInRange_ok, IsValueNegative_ok by auto. unfold CommonMaxOrMin. rewrite CommonMax_ok, CommonMin_ok.
    destruct ((lo dst <=? v) && (v <=? hi dst)) eqn:E.
    + rewrite cast_id by now apply in_rangeb. lia.
    + unfold fits in F. destruct (Z.leb_spec (hi src) (hi dst)), (Z.leb_spec (lo dst) (lo src)), (Z.ltb_spec v 0); cbn [negb andb orb]; lia.
Qed.
