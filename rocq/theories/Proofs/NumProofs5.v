From Verif.Model Require Import Common Numerics.
From Verif.Spec Require Import NumSpec.
From Verif.Proofs Require Import Tac NumProofs NumProofs2 NumProofs3 NumProofs4.
Local Open Scope Z_scope.

Lemma in_true t z : fits t z -> IsValueInRange t t z = true.
Proof. intro F. rewrite IsValueInRange_ok by auto. now apply in_rangeb. Qed.
Lemma mk_true t z : fits t z -> mk_state t t z true = (true, z).
Proof. intro F. unfold mk_state. rewrite in_true, cast_id by auto. reflexivity. Qed.
Lemma mk_false t : mk_state t t 0 false = (false, 0).
Proof. unfold mk_state. now rewrite (cast_id t 0) by apply zero_fits. Qed.
Lemma IsValid_own t c : fits t (snd c) -> IsValid t t c = fst c.
Proof. intro F. unfold IsValid. rewrite in_true by auto. apply andb_true_r. Qed.
Lemma doop_ok o t u v x y : fits t x -> fits u y -> exists r, doop o t u v x y = Ok r /\ (forall z, r = Some z -> fits v z /\ mathop o x y = Some z).
Proof.
  intros X Y. destruct o; cbn [doop mathop]; eexists; (split; [|]).
  1,3,5: reflexivity.
  1-3: intros z E; unfold CheckedAddOp, CheckedSubOp, CheckedMulOp in E; rewrite builtin_spec in E; destruct (fits_dec _ _); [inv E; auto|discriminate].
  - apply CheckedDivOp_ok; auto.
  - cbn zeta. intros z E. destruct (Z.eq_dec y 0) as [|N]; [discriminate|]. replace (y =? 0) with false by (symmetry; now apply Z.eqb_neq).
    destruct (fits_dec _ x) as [_|]; [|discriminate]. destruct (fits_dec _ y) as [_|].
    + destruct (fits_dec _ _) as [_|]; [|discriminate]. destruct (fits_dec v _); [inv E; auto|discriminate].
    + destruct (Z.eq_dec x 0) as [->|]; [|discriminate]. inv E. split; [apply zero_fits|]. now rewrite Z.quot_0_l.
Qed.
Lemma wide_hi t u : snd (BigEnough t u) = true -> hi t <= hi (fst (BigEnough t u)) /\ hi (MaxExpP t u) <= hi (fst (BigEnough t u)).
Proof. tys; vm_compute; intro; split; congruence. Qed.
Lemma doop_complete o t u v x y z : fits t x -> fits u y -> mathop o x y = Some z -> fits v z ->
  (o = Div -> snd (BigEnough t u) = true /\ (v = t \/ v = MaxExpP t u)) -> doop o t u v x y = Ok (Some z).
Proof.
  intros X Y M F C. destruct o; cbn [doop mathop] in *.
  1-3: inv M; unfold CheckedAddOp, CheckedSubOp, CheckedMulOp; rewrite builtin_spec; destruct (fits_dec _ _); tauto.
  destruct (Z.eqb_spec y 0) as [|N]; [discriminate|]. inv M. destruct (C eq_refl) as [CT V]. destruct (contained_fits t u x y CT X Y) as [PX PY].
  rewrite CheckedDivOp_ok by auto. cbn zeta. destruct (Z.eq_dec y 0); [tauto|]. destruct (fits_dec _ x); [|tauto]. destruct (fits_dec _ y); [|tauto].
  destruct (fits_dec _ (Z.quot x y)) as [_|Q]; [destruct (fits_dec v _); tauto|]. exfalso. apply Q. apply quot_fits; auto.
  intros (EX & EY & S). rewrite EX, EY, quot_m1 in F. destruct (wide_hi t u CT) as [W1 W2]. unfold fits in F.
  destruct (range (fst (BigEnough t u))) as [(_ & L & U)|(A & _)]; [|congruence]. destruct V; subst v; lia.
Qed.
Lemma abs_uns t c : fits t (snd c) -> CheckedUnsignedAbs t c = (fst c, Z.abs (snd c)) /\ fits (uns t) (Z.abs (snd c)).
Proof.
  intro F. destruct (SafeUnsignedAbs_ok t (snd c) F) as [E G]. split; auto. unfold CheckedUnsignedAbs, mk_state. rewrite E, in_true, cast_id by auto. now rewrite andb_true_r.
Qed.
Lemma neg_state t c : fits t (snd c) -> snd c < 0 -> fits t (snd (CheckedNeg t c)) /\
  (fst (CheckedNeg t c) = true <-> fst c = true /\ fits t (- snd c)) /\ (fst (CheckedNeg t c) = true -> snd (CheckedNeg t c) = - snd c).
Proof.
  intros F N. assert (S : sgn t = true) by (rewrite sgn_lo; unfold fits in F; lia).
  destruct c as [b z]. cbn [fst snd] in *. destruct b.
  - rewrite CheckedNeg_ok by auto. destruct (fits_dec t (- z)) as [G|G]; cbn [fst snd]; intuition (auto using cast_fits); discriminate.
  - unfold CheckedNeg, IsValid, mk_state. cbn [fst snd andb]. intuition (auto using cast_fits); discriminate.
Qed.
Lemma cast_state d t c : fits t (snd c) -> fits d (snd (CheckedCast d t c)) /\
  (fst (CheckedCast d t c) = true <-> fst c = true /\ fits d (snd c)) /\ (fst (CheckedCast d t c) = true -> snd (CheckedCast d t c) = snd c).
Proof.
  intro F. unfold CheckedCast, mk_state. cbn [fst snd]. rewrite IsValid_own, IsValueInRange_ok by auto. split; [apply cast_fits|].
  rewrite andb_true_iff, in_rangeb. split; [tauto|]. intros [_ G]. now apply cast_id.
Qed.
Lemma run_ok e : well_typed e -> exists c, run e = Ok c /\ fits (type_of e) (snd c) /\ (fst c = true -> math e = Some (snd c)) /\
  (all_fit e -> no_mixed_division e -> fst c = true).
Proof.
  assert (BINOP : forall o a b v, (exists c, run a = Ok c /\ fits (type_of a) (snd c) /\ (fst c = true -> math a = Some (snd c)) /\ (all_fit a -> no_mixed_division a -> fst c = true)) ->
    (exists c, run b = Ok c /\ fits (type_of b) (snd c) /\ (fst c = true -> math b = Some (snd c)) /\ (all_fit b -> no_mixed_division b -> fst c = true)) ->
    (v = type_of a \/ v = MaxExpP (type_of a) (type_of b)) ->
    exists c, obind (run a) (fun x => obind (run b) (fun y => MathOp (type_of a) (type_of b) v (doop o (type_of a) (type_of b) v) x y)) = Ok c /\ fits v (snd c) /\
      (fst c = true -> match math a, math b with Some x, Some y => mathop o x y | _, _ => None end = Some (snd c)) /\
      ((exists z, match math a, math b with Some x, Some y => mathop o x y | _, _ => None end = Some z /\ fits v z) -> all_fit a -> all_fit b ->
       (o = Div -> sgn (type_of a) = sgn (type_of b) \/ (type_of a <> Ty false W64 /\ type_of b <> Ty false W64)) -> no_mixed_division a -> no_mixed_division b -> fst c = true)).
  { intros o a b v (x & -> & FX & MX & CX) (y & -> & FY & MY & CY) V. cbn [obind]. unfold MathOp. rewrite !IsValid_own by auto.
    destruct (fst x && fst y) eqn:B.
    - b2p. rewrite MX, MY by auto. destruct (doop_ok o (type_of a) (type_of b) v (snd x) (snd y) FX FY) as (r & E & R). rewrite E. cbn [obind]. destruct r as [z|].
      + destruct (R z eq_refl) as [FZ MZ]. rewrite mk_true by auto. eexists. split; [reflexivity|]. cbn [fst snd]. auto.
      + rewrite mk_false. eexists. split; [reflexivity|]. cbn [fst snd]. split; [apply zero_fits|]. split; [discriminate|].
        intros (z & MZ & FZ) _ _ D _ _. rewrite (doop_complete o _ _ v _ _ z FX FY MZ FZ) in E; [discriminate|]. intro OD. split; [|auto].
        specialize (D OD). destruct (snd (BigEnough (type_of a) (type_of b))) eqn:K; auto. apply not_contained in K. exfalso. intuition congruence.
    - cbn [obind]. rewrite mk_false. eexists. split; [reflexivity|]. cbn [fst snd]. split; [apply zero_fits|]. split; [discriminate|].
      intros _ A1 A2 _ N1 N2. rewrite CX, CY in B by auto. discriminate. }
  induction e as [t z|o a IHa b IHb|o a IHa b IHb|t a IHa|a IHa|a IHa]; cbn [well_typed run type_of math all_fit no_mixed_division]; intro W.
  - rewrite mk_true by auto. eexists. split; [reflexivity|]. auto.
  - destruct W as [W1 W2]. destruct (BINOP o a b (MaxExpP (type_of a) (type_of b)) (IHa W1) (IHb W2) (or_intror eq_refl)) as (c & E & F & S & C).
    exists c. split; auto. split; auto. split; auto. tauto.
  - destruct W as [W1 W2]. destruct (BINOP o a b (type_of a) (IHa W1) (IHb W2) (or_introl eq_refl)) as (c & E & F & S & C).
    exists c. split; auto. split; auto. split; auto. tauto.
  - destruct (IHa W) as (c & -> & F & S & C). cbn [obind]. destruct (cast_state t (type_of a) c F) as (G1 & G2 & G3). eexists. split; [reflexivity|]. split; [auto|].
    split; [intro H; rewrite (G3 H); apply S; tauto|]. intros ((z & M & Z') & A) N. specialize (C A N). apply G2. split; auto. specialize (S C). congruence.
  - destruct (IHa W) as (c & -> & F & S & C). cbn [obind]. eexists. split; [reflexivity|]. unfold CheckedAbs. rewrite IsValueNegative_ok by auto.
    destruct (Z.ltb_spec (snd c) 0); cbn [negb].
    + destruct (neg_state (type_of a) c F ltac:(auto)) as (G1 & G2 & G3). split; auto. split.
      * intro HH. rewrite (G3 HH). rewrite S by tauto. f_equal. lia.
      * intros ((z & M & Z') & A) N. specialize (C A N). apply G2. split; auto. rewrite S in M by auto. inv M. replace (- snd c) with (Z.abs (snd c)) by lia. auto.
    + split; auto. split; [|intros (_ & A) N; auto]. intro HH. rewrite S by auto. f_equal. lia.
  - destruct (IHa W) as (c & -> & F & S & C). cbn [obind]. destruct (abs_uns (type_of a) c F) as [-> G]. eexists. split; [reflexivity|]. cbn [fst snd]. split; auto.
    split; [intro HH; now rewrite S|]. intros (_ & A) N. auto.
Qed.

(** ** Clamped operations *)
Lemma clamp_fits t z : fits t z -> clampZ t z = z.
Proof. unfold fits, clampZ. lia. Qed.
Lemma ClampedSub_ok t u v x y : fits t x -> fits u y -> (v = MaxExpP t u \/ (v = t /\ add_compiles t u v = true)) -> ClampedSubOp t u v x y = clampZ v (x - y).
Proof.
  intros X Y V. unfold ClampedSubOp, CheckedSubOp. rewrite builtin_spec, Common_same, IsValueNegative_ok by auto.
  destruct (fits_dec v (x - y)) as [F|F]; [now rewrite clamp_fits|]. unfold fits in *.
  assert (T : hi t <= hi v /\ (lo t < lo v -> hi u <= hi v /\ 0 <= lo u)%Z \/ lo v <= lo t /\ hi t <= hi v).
  { destruct V as [->|[-> _]]; [|right; lia]. clear. left. split; [|split]; revert dependent u; revert dependent t; intros; tys; vm_compute in *; try congruence; try discriminate. }
  assert (U : 0 <= lo u \/ lo u < 0) by lia. assert (LV := lo_hi v). unfold clampZ.
  destruct (Z.ltb_spec y 0); cbn [negb]; destruct T as [[T1 T2]|[T1 T2]]; try lia.
Qed.
Lemma ClampedMul_ok t u v x y : fits t x -> fits u y -> ClampedMulOp t u v x y = clampZ v (x * y).
Proof.
  intros X Y. unfold ClampedMulOp, CheckedMulOp. rewrite builtin_spec, Common_same, !IsValueNegative_ok by auto.
  destruct (fits_dec v (x * y)) as [F|F]; [now rewrite clamp_fits|]. assert (LV := lo_hi v). unfold fits, clampZ in *.
  destruct (Z.ltb_spec x 0), (Z.ltb_spec y 0); cbn [xorb]; nia.
Qed.
Lemma MaxExpP_hi t u : hi t <= hi (MaxExpP t u) /\ hi u <= hi (MaxExpP t u).
Proof. tys; vm_compute; split; congruence. Qed.
Lemma MaxExpP_uns t u : sgn t = true -> sgn (MaxExpP t u) = false -> lo u = 0.
Proof. tys; vm_compute; congruence. Qed.
Lemma MaxExpP_lo t u : sgn t = false \/ sgn (MaxExpP t u) = true -> lo (MaxExpP t u) <= lo t.
Proof. tys; vm_compute; intros [H|H]; congruence. Qed.
Lemma ClampedAdd_ok t u v x y : fits t x -> fits u y -> lo v <= lo t -> hi t <= hi v -> ClampedAddOp t u v x y = clampZ v (x + y).
Proof.
  intros X Y V1 V2. unfold ClampedAddOp, CheckedAddOp. rewrite builtin_spec, Common_same, IsValueNegative_ok by auto.
  destruct (fits_dec v (x + y)) as [F|F]; [now rewrite clamp_fits|]. assert (LV := lo_hi v). unfold fits, clampZ in *. destruct (Z.ltb_spec y 0); lia.
Qed.
Lemma ClampedAdd_pos t u x y : fits t x -> fits u y -> 0 <= x + y -> ClampedAddOp t u (MaxExpP t u) x y = clampZ (MaxExpP t u) (x + y).
Proof.
  intros X Y P. destruct (sgn t) eqn:ST, (sgn (MaxExpP t u)) eqn:SV; try solve [apply ClampedAdd_ok; auto; [apply MaxExpP_lo; auto|apply MaxExpP_hi]].
  assert (U0 := MaxExpP_uns t u ST SV). unfold ClampedAddOp, CheckedAddOp. rewrite builtin_spec, Common_same, IsValueNegative_ok by auto.
  destruct (fits_dec _ (x + y)) as [F|F]; [now rewrite clamp_fits|]. assert (LV := lo_hi (MaxExpP t u)). unfold fits, clampZ in *. destruct (Z.ltb_spec y 0); lia.
Qed.
Lemma ClampedAdd_neg t u x y : sgn t = true -> sgn (MaxExpP t u) = false -> fits t x -> fits u y -> x + y < 0 ->
  ClampedAddOp t u (MaxExpP t u) x y = hi (MaxExpP t u) /\ clampZ (MaxExpP t u) (x + y) = 0.
Proof.
  intros ST SV X Y N. assert (U0 := MaxExpP_uns t u ST SV). assert (V0 := uns_lo _ SV). unfold ClampedAddOp, CheckedAddOp. rewrite builtin_spec, Common_same, IsValueNegative_ok by auto.
  assert (LV := lo_hi (MaxExpP t u)). destruct (fits_dec _ (x + y)) as [F|F]; unfold fits, clampZ in *; [lia|]. destruct (Z.ltb_spec y 0); lia.
Qed.
(** ** Division *)
Definition clampdiv (v : ity) (x y : Z) : Z :=
  if y =? 0 then (if x =? 0 then 0 else if 0 <? x then hi v else lo v) else clampZ v (Z.quot x y).
Lemma quot_sign x y : y <> 0 -> Z.quot x y <> 0 -> (Z.quot x y < 0 <-> xorb (x <? 0) (y <? 0) = true).
Proof.
  intros N Q. destruct (quot_between x y N) as (Q1 & Q2 & Q3 & Q4).
  destruct (Z.ltb_spec x 0), (Z.ltb_spec y 0); cbn [xorb]; split; intro; try discriminate; lia.
Qed.
Lemma hi_u64 t : hi t <= hi (Ty false W64).  Proof. tys; vm_compute; congruence. Qed.
Lemma MaxExpP_notc t u : snd (BigEnough t u) = false -> MaxExpP t u = Ty false W64.
Proof. tys; vm_compute; intro; auto; discriminate. Qed.
Lemma ClampedDiv_ok t u v x y : fits t x -> fits u y -> v = MaxExpP t u \/ (v = t /\ (u <> Ty false W64 \/ 0 <= x)) ->
  ClampedDivOp t u v x y = Ok (clampdiv v x y).
Proof.
  intros X Y V. unfold ClampedDivOp. rewrite CheckedDivOp_ok by auto. cbn zeta. cbn [obind]. f_equal. unfold clampdiv.
  rewrite Common_same, !IsValueNegative_ok by auto. assert (LV := lo_hi v).
  assert (HV : hi v <= hi (fst (BigEnough t u))).
  { destruct (snd (BigEnough t u)) eqn:C; [destruct (wide_hi t u C); destruct V as [->|[-> _]]; auto|]. rewrite (not_contained_p t u C). apply hi_u64. }
  destruct (Z.eq_dec y 0) as [->|N].
  { cbn [Z.eqb]. rewrite xorb_false_r. destruct (Z.eqb_spec x 0); cbn [negb]; auto. destruct (Z.ltb_spec x 0), (Z.ltb_spec 0 x); auto; lia. }
  replace (y =? 0) with false by (symmetry; now apply Z.eqb_neq).
  assert (SAT : Z.quot x y <> 0 -> ~ fits v (Z.quot x y) -> (if negb (x =? 0) then if xorb (x <? 0) (y <? 0) then lo v else hi v else 0) = clampZ v (Z.quot x y)).
  { intros Q F. assert (QS := quot_sign x y N Q). assert (x <> 0) by (intros ->; rewrite Z.quot_0_l in Q; auto). replace (x =? 0) with false by (symmetry; now apply Z.eqb_neq). cbn [negb].
    unfold fits, clampZ in *. destruct (xorb (x <? 0) (y <? 0)); [assert (Z.quot x y < 0) by (apply QS; auto)|assert (~ Z.quot x y < 0) by (rewrite QS; discriminate)]; lia. }
  destruct (fits_dec _ x) as [PX|PX]; [destruct (fits_dec _ y) as [PY|PY]; [destruct (fits_dec (fst _) (Z.quot x y)) as [PQ|PQ]|]|].
  - destruct (fits_dec v (Z.quot x y)) as [F|F]; [now rewrite clamp_fits|]. apply SAT; auto. intro E. rewrite E in F. apply F, zero_fits.
  - destruct (Z.eq_dec (Z.quot x y) 0) as [E|E]; [exfalso; apply PQ; rewrite E; apply zero_fits|]. apply SAT; auto. intro F. apply PQ.
    apply quot_fits; auto. intros (EX & EY & S). rewrite EX, EY, quot_m1 in F. destruct (range (fst (BigEnough t u))) as [(_ & L & U)|(A & _)]; [|congruence]. unfold fits in F. lia.
  - destruct (Z.eq_dec x 0) as [->|NX]; [rewrite Z.quot_0_l by auto; symmetry; apply clamp_fits, zero_fits|].
    assert (C : snd (BigEnough t u) = false). { destruct (snd (BigEnough t u)) eqn:C; auto. destruct (contained_fits t u x y C X Y). tauto. }
    rewrite (not_contained_p t u C) in *. apply not_contained in C as C'. destruct C' as [SD W].
    assert (YN : y < 0). { assert (HU := hi_u64 u). unfold fits in *. change (lo (Ty false W64)) with 0 in *. lia. }
    assert (T : t = Ty false W64). { destruct W as [W|W]; auto. subst u. unfold fits in Y. change (lo (Ty false W64)) with 0 in Y. lia. }
    assert (VV : v = Ty false W64) by (destruct V as [->|[-> _]]; [now apply MaxExpP_notc|auto]). subst v t.
    assert (X0 : 0 <= x) by (unfold fits in X; change (lo (Ty false W64)) with 0 in X; lia).
    replace (x =? 0) with false by (symmetry; now apply Z.eqb_neq). replace (x <? 0) with false by lia. replace (y <? 0) with true by lia. cbn [negb xorb].
    destruct (quot_between x y N) as (_ & _ & Q & _). unfold clampZ. change (lo (Ty false W64)) with 0 in *. lia.
  - assert (C : snd (BigEnough t u) = false). { destruct (snd (BigEnough t u)) eqn:C; auto. destruct (contained_fits t u x y C X Y). tauto. }
    rewrite (not_contained_p t u C) in *. apply not_contained in C as C'. destruct C' as [SD W].
    assert (XN : x < 0). { assert (HU := hi_u64 t). unfold fits in *. change (lo (Ty false W64)) with 0 in *. lia. }
    assert (T : u = Ty false W64). { destruct W as [W|W]; auto. subst t. unfold fits in X. change (lo (Ty false W64)) with 0 in X. lia. }
    assert (VV : v = Ty false W64) by (destruct V as [->|[_ [A|A]]]; [now apply MaxExpP_notc|tauto|lia]). subst v u.
    assert (Y0 : 0 <= y) by (unfold fits in Y; change (lo (Ty false W64)) with 0 in Y; lia).
    replace (x =? 0) with false by lia. replace (x <? 0) with true by lia. replace (y <? 0) with false by lia. cbn [negb xorb].
    destruct (quot_between x y N) as (_ & Q & _). unfold clampZ. change (lo (Ty false W64)) with 0 in *. lia.
Qed.
Lemma ClampedMod_ok t u x y : fits t x -> fits u y -> snd (BigEnough t u) = true ->
  ClampedModOp t u t x y = Ok (if y =? 0 then x else Z.rem x y).
Proof.
  intros X Y C. destruct (contained_fits t u x y C X Y) as [PX PY]. unfold ClampedModOp. rewrite CheckedModOp_ok by auto. cbn [obind]. f_equal.
  destruct (Z.eq_dec y 0) as [->|N]; [now rewrite cast_id|]. replace (y =? 0) with false by (symmetry; now apply Z.eqb_neq).
  destruct (fits_dec t (Z.rem x y)) as [_|F]; auto. exfalso. apply F. now apply rem_fits.
Qed.
(** ** Maximum and minimum *)
Lemma MaxP_fits t u x y : fits t x -> fits u y -> fits (MaxExpP t u) (Z.max x y).
Proof.
  intros X Y. destruct (MaxExpP_hi t u) as [H1 H2]. unfold fits in *. split; [|lia].
  assert (L : lo (MaxExpP t u) <= lo t \/ lo (MaxExpP t u) <= lo u) by (clear; tys; vm_compute; (left; congruence) || (right; congruence)). lia.
Qed.
Lemma MinP_fits t u x y : fits t x -> fits u y -> fits (LowestP t u) (Z.min x y).
Proof.
  intros X Y. assert (L : lo (LowestP t u) <= lo t /\ lo (LowestP t u) <= lo u) by (clear; tys; vm_compute; split; congruence). unfold fits in *. split; [lia|].
  assert (H : hi t <= hi (LowestP t u) \/ hi u <= hi (LowestP t u)) by (clear; tys; vm_compute; (left; congruence) || (right; congruence)). lia.
Qed.
Lemma Max_ok const t u x y : fits t x -> fits u y ->
  CheckedMaxOp t u (MaxExpP t u) x y = Some (Z.max x y) /\ ClampedMaxOp const t u (MaxExpP t u) x y = Z.max x y.
Proof.
  intros X Y. assert (M := MaxP_fits t u x y X Y). unfold CheckedMaxOp, ClampedMaxOp. rewrite IsGreater_ok by auto. rewrite !saturated_cast_ok by auto.
  assert (E : (if y <? x then cast (MaxExpP t u) x else cast (MaxExpP t u) y) = Z.max x y).
  { destruct (Z.ltb_spec y x); rewrite cast_id; try lia; [replace x with (Z.max x y) by lia|replace y with (Z.max x y) by lia]; auto. }
  cbn zeta. rewrite E, in_true, cast_id by auto. split; [reflexivity|].
  destruct (Z.ltb_spec y x); rewrite clamp_fits; try lia; [replace x with (Z.max x y) by lia|replace y with (Z.max x y) by lia]; auto.
Qed.
Lemma Min_ok const t u x y : fits t x -> fits u y ->
  CheckedMinOp t u (LowestP t u) x y = Some (Z.min x y) /\ ClampedMinOp const t u (LowestP t u) x y = Z.min x y.
Proof.
  intros X Y. assert (M := MinP_fits t u x y X Y). unfold CheckedMinOp, ClampedMinOp. rewrite IsLess_ok by auto. rewrite !saturated_cast_ok by auto.
  assert (E : (if x <? y then cast (LowestP t u) x else cast (LowestP t u) y) = Z.min x y).
  { destruct (Z.ltb_spec x y); rewrite cast_id; try lia; [replace x with (Z.min x y) by lia|replace y with (Z.min x y) by lia]; auto. }
  cbn zeta. rewrite E, in_true, cast_id by auto. split; [reflexivity|].
  destruct (Z.ltb_spec x y); rewrite clamp_fits; try lia; [replace x with (Z.min x y) by lia|replace y with (Z.min x y) by lia]; auto.
Qed.
