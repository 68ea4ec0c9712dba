From Verif.Model Require Import Common Numerics.
From Verif.Spec Require Import NumSpec.
From Verif.Proofs Require Import Tac.
Local Open Scope Z_scope.

Ltac tys := repeat match goal with t : ity |- _ => destruct t as [[] []] end.
(** Facts about types only are checked for all pairs of types. *)
Ltac allty := tys; vm_compute; reflexivity.

Definition half (t : ity) : Z := 2 ^ (bits t - 1).
Lemma halves t : 2 ^ bits t = 2 * half t /\ 128 <= half t.
Proof. tys; vm_compute; split; congruence. Qed.
Lemma range t : (sgn t = true /\ lo t = - half t /\ hi t = half t - 1) \/ (sgn t = false /\ lo t = 0 /\ hi t = 2 * half t - 1).
Proof. unfold lo, hi. destruct (halves t) as [-> _]. fold (half t). destruct (sgn t); auto. Qed.
Lemma cast_id t z : fits t z -> cast t z = z.
Proof.
  unfold fits, cast. fold (half t). destruct (halves t) as [E H]. rewrite E. intro F.
  destruct (range t) as [(-> & L & U)|(-> & L & U)]; rewrite L, U in F; cbn [andb].
  - destruct (Z.leb_spec 0 z).
    + rewrite Z.mod_small by lia. destruct (Z.leb_spec (half t) z); lia.
    + rewrite <- (Z.mod_unique z (2 * half t) (-1) (z + 2 * half t)) by lia. destruct (Z.leb_spec (half t) (z + 2 * half t)); lia.
  - apply Z.mod_small. lia.
Qed.
Lemma cast_fits t z : fits t (cast t z).
Proof.
  unfold fits, cast. fold (half t). destruct (halves t) as [E H]. rewrite E. assert (B := Z.mod_pos_bound z (2 * half t) ltac:(lia)).
  destruct (range t) as [(-> & -> & ->)|(-> & -> & ->)]; cbn [andb]; [destruct (Z.leb_spec (half t) (z mod (2 * half t)))|]; lia.
Qed.
(** [cast] changes a value by a multiple of 2^bits. *)
Lemma cast_shift t z : exists k, cast t z = z + k * 2 ^ bits t.
Proof.
  unfold cast. assert (P : 2 ^ bits t <> 0) by (destruct (halves t); lia).
  assert (D := Z.div_mod z (2 ^ bits t) P). destruct (sgn t && _).
  - exists (- (z / 2 ^ bits t) - 1). lia.
  - exists (- (z / 2 ^ bits t)). lia.
Qed.
Lemma cast_unique t z w k : fits t w -> w = z + k * 2 ^ bits t -> cast t z = w.
Proof.
  intros F E. destruct (cast_shift t z) as (j & J). assert (C := cast_fits t z). destruct (halves t) as [B H]. rewrite B in *.
  assert (k = j); [|subst; lia].
  unfold fits in *. destruct (range t) as [(_ & L & U)|(_ & L & U)]; rewrite L, U in *; destruct (Z.lt_trichotomy k j) as [X|[X|X]]; auto; exfalso; nia.
Qed.
Lemma n_max_hi dst src : n_max dst src = hi dst.  Proof. allty. Qed.
Lemma n_lowest_lo dst src : n_lowest dst src = lo dst.  Proof. allty. Qed.
Lemma lo_hi t : lo t <= 0 < hi t.  Proof. tys; vm_compute; split; congruence. Qed.
Lemma lo_fits t : fits t (lo t).  Proof. assert (A := lo_hi t). unfold fits. lia. Qed.
Lemma hi_fits t : fits t (hi t).  Proof. assert (A := lo_hi t). unfold fits. lia. Qed.
Lemma zero_fits t : fits t 0.  Proof. assert (A := lo_hi t). unfold fits. lia. Qed.
Lemma TypeInRange_ok dst src : TypeInRange dst src = (lo dst <=? lo src) && (hi src <=? hi dst).
Proof. allty. Qed.
Lemma in_type dst src v : TypeInRange dst src = true -> fits src v -> fits dst v.
Proof. rewrite TypeInRange_ok. unfold fits. lia. Qed.
Lemma in_refl t : TypeInRange t t = true.  Proof. allty. Qed.
Lemma common_same a b : sgn a = sgn b -> TypeInRange (common a b) a && TypeInRange (common a b) b = true.
Proof. tys; intro; try discriminate; vm_compute; reflexivity. Qed.
Lemma common_sym a b : common a b = common b a.  Proof. allty. Qed.
Lemma common_uns s d : sgn s = false -> TypeInRange (common s d) s && (hi d <=? hi (common s d)) = true.
Proof. tys; intro; try discriminate; vm_compute; reflexivity. Qed.
Lemma common_sig s d : sgn s = true -> ((hi s <=? hi d) || TypeInRange (common s d) s) && (hi d <=? hi (common s d)) && (hi s <=? hi (common s d)) = true.
Proof. tys; intro; try discriminate; vm_compute; reflexivity. Qed.
Lemma uns_lo t : sgn t = false -> lo t = 0.  Proof. unfold lo. now intros ->. Qed.

Lemma DstRange_ok dst src v : fits src v -> DstRange dst src v = (v <? lo dst, hi dst <? v).
Proof.
  intro F. unfold DstRange. cbn zeta. rewrite n_max_hi, n_lowest_lo. unfold RangeCheck.
  assert (LS := lo_hi src). assert (LD := lo_hi dst).
  destruct (TypeInRange dst src) eqn:T.
  - assert (FD := in_type _ _ _ T F). rewrite (cast_id dst v FD). unfold fits in *. f_equal; lia.
  - unfold le_. destruct (sgn dst) eqn:SD, (sgn src) eqn:SS.
    + assert (C := common_same src dst ltac:(congruence)). b2p. rewrite (common_sym dst src).
      rewrite !cast_id; [f_equal; lia| | |]; try (now apply in_type with dst; auto using lo_fits, hi_fits); now apply in_type with src.
    + assert (C := common_uns src dst SS). b2p. assert (CL := lo_hi (common src dst)).
      rewrite (cast_id _ v) by now apply in_type with src. rewrite (cast_id _ (hi dst)) by (unfold fits; lia).
      unfold fits in F. rewrite (uns_lo _ SS) in *. f_equal; lia.
    + rewrite (uns_lo _ SD) in *. assert (C := common_sig src dst SS).
      apply andb_prop in C. destruct C as [C C3]. apply andb_prop in C. destruct C as [C1 C2]. assert (CL := lo_hi (common src dst)).
      rewrite !(cast_id _ (hi _)) by (unfold fits; lia). f_equal; [lia|].
      apply orb_prop in C1. destruct C1 as [C1|C1].
      * unfold fits in F. lia.
      * rewrite (cast_id _ v) by now apply in_type with src. unfold fits in F. lia.
    + assert (C := common_same src dst ltac:(congruence)). b2p. rewrite (common_sym dst src).
      rewrite !cast_id; [rewrite (uns_lo _ SD), (uns_lo _ SS) in *; unfold fits in F; rewrite (uns_lo _ SS) in F; f_equal; lia| | |];
        try (now apply in_type with dst; auto using lo_fits, hi_fits); now apply in_type with src.
Qed.

Lemma lt_ok t u x y : fits t x -> fits u x -> fits t y -> fits u y -> cast (common t u) x = x /\ cast (common t u) y = y.
Proof.
  intros A B C D. destruct (Bool.bool_dec (sgn t) (sgn u)) as [S|S].
  - assert (E := common_same t u S). b2p. split; apply cast_id; now apply in_type with t.
  - destruct (sgn t) eqn:ST, (sgn u) eqn:SU; try easy.
    + assert (E := common_uns u t SU). b2p. rewrite common_sym. split; apply cast_id; now apply in_type with u.
    + assert (E := common_uns t u ST). b2p. split; apply cast_id; now apply in_type with t.
Qed.
Lemma rc_eqb_spec a b : rc_eqb a b = true <-> a = b.
Proof. destruct a as [[] []], b as [[] []]; cbn; split; congruence. Qed.
Ltac cmp_tac := 
  intros X Y; cbn zeta; rewrite !DstRange_ok by auto; unfold IsUnderflow, IsOverflow, rc_eqb; cbn [fst snd].
(** Outside the four easy cases both values fit both types. *)
Lemma both_fit l r x y : fits l x -> fits r y ->
  (x < lo r) \/ (hi r < x) \/ (y < lo l) \/ (hi l < y) \/ (cast (common l r) x = x /\ cast (common l r) y = y).
Proof.
  intros X Y. destruct (Z.ltb_spec x (lo r)); [auto|]. destruct (Z.ltb_spec (hi r) x); [auto|].
  destruct (Z.ltb_spec y (lo l)); [auto|]. destruct (Z.ltb_spec (hi l) y); [auto|]. do 4 right. apply lt_ok; unfold fits in *; lia.
Qed.
Lemma IsLess_ok l r x y : fits l x -> fits r y -> IsLess l r x y = (x <? y).
Proof.
  intros X Y. unfold IsLess, lt_, le_, eq_. cbn zeta. rewrite !DstRange_ok by auto. unfold IsUnderflow, IsOverflow, rc_eqb; cbn [fst snd].
  assert (A := lo_hi l). assert (B := lo_hi r). unfold fits in X, Y.
  destruct (both_fit l r x y X Y) as [C|[C|[C|[C|[-> ->]]]]];
    destruct (Z.ltb_spec x (lo r)), (Z.ltb_spec (hi r) x), (Z.ltb_spec y (lo l)), (Z.ltb_spec (hi l) y); cbn [Bool.eqb andb orb negb]; try lia;
    destruct (sgn l), (sgn r); try lia.
Qed.
Lemma IsLessOrEqual_ok l r x y : fits l x -> fits r y -> IsLessOrEqual l r x y = (x <=? y).
Proof.
  intros X Y. unfold IsLessOrEqual, lt_, le_, eq_. cbn zeta. rewrite !DstRange_ok by auto. unfold IsUnderflow, IsOverflow, rc_eqb; cbn [fst snd].
  assert (A := lo_hi l). assert (B := lo_hi r). unfold fits in X, Y.
  destruct (both_fit l r x y X Y) as [C|[C|[C|[C|[-> ->]]]]];
    destruct (Z.ltb_spec x (lo r)), (Z.ltb_spec (hi r) x), (Z.ltb_spec y (lo l)), (Z.ltb_spec (hi l) y); cbn [Bool.eqb andb orb negb]; try lia;
    destruct (sgn l), (sgn r); try lia.
Qed.
Lemma IsGreater_ok l r x y : fits l x -> fits r y -> IsGreater l r x y = (y <? x).
Proof.
  intros X Y. unfold IsGreater, lt_, le_, eq_. cbn zeta. rewrite !DstRange_ok by auto. unfold IsUnderflow, IsOverflow, rc_eqb; cbn [fst snd].
  assert (A := lo_hi l). assert (B := lo_hi r). unfold fits in X, Y.
  destruct (both_fit l r x y X Y) as [C|[C|[C|[C|[-> ->]]]]];
    destruct (Z.ltb_spec x (lo r)), (Z.ltb_spec (hi r) x), (Z.ltb_spec y (lo l)), (Z.ltb_spec (hi l) y); cbn [Bool.eqb andb orb negb]; try lia;
    destruct (sgn l), (sgn r); try lia.
Qed.
Lemma IsGreaterOrEqual_ok l r x y : fits l x -> fits r y -> IsGreaterOrEqual l r x y = (y <=? x).
Proof.
  intros X Y. unfold IsGreaterOrEqual, lt_, le_, eq_. cbn zeta. rewrite !DstRange_ok by auto. unfold IsUnderflow, IsOverflow, rc_eqb; cbn [fst snd].
  assert (A := lo_hi l). assert (B := lo_hi r). unfold fits in X, Y.
  destruct (both_fit l r x y X Y) as [C|[C|[C|[C|[-> ->]]]]];
    destruct (Z.ltb_spec x (lo r)), (Z.ltb_spec (hi r) x), (Z.ltb_spec y (lo l)), (Z.ltb_spec (hi l) y); cbn [Bool.eqb andb orb negb]; try lia;
    destruct (sgn l), (sgn r); try lia.
Qed.
Lemma IsEqual_ok l r x y : fits l x -> fits r y -> IsEqual l r x y = (x =? y).
Proof.
  intros X Y. unfold IsEqual, lt_, le_, eq_. cbn zeta. rewrite !DstRange_ok by auto. unfold IsUnderflow, IsOverflow, rc_eqb; cbn [fst snd].
  assert (A := lo_hi l). assert (B := lo_hi r). unfold fits in X, Y.
  destruct (both_fit l r x y X Y) as [C|[C|[C|[C|[-> ->]]]]];
    destruct (Z.ltb_spec x (lo r)), (Z.ltb_spec (hi r) x), (Z.ltb_spec y (lo l)), (Z.ltb_spec (hi l) y); cbn [Bool.eqb andb orb negb]; try lia;
    destruct (sgn l), (sgn r); try lia.
Qed.
Lemma IsNotEqual_ok l r x y : fits l x -> fits r y -> IsNotEqual l r x y = (negb (x =? y)).
Proof.
  intros X Y. unfold IsNotEqual, lt_, le_, eq_. cbn zeta. rewrite !DstRange_ok by auto. unfold IsUnderflow, IsOverflow, rc_eqb; cbn [fst snd].
  assert (A := lo_hi l). assert (B := lo_hi r). unfold fits in X, Y.
  destruct (both_fit l r x y X Y) as [C|[C|[C|[C|[-> ->]]]]];
    destruct (Z.ltb_spec x (lo r)), (Z.ltb_spec (hi r) x), (Z.ltb_spec y (lo l)), (Z.ltb_spec (hi l) y); cbn [Bool.eqb andb orb negb]; try lia;
    destruct (sgn l), (sgn r); try lia.
Qed.
