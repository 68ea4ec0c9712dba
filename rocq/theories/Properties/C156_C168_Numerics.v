(** C156-C168: safe conversions, comparisons, checked and clamped arithmetic (base/numerics). *)
From Verif.Model Require Import Common Numerics.
From Verif.Spec Require Import NumSpec.
From Verif.Proofs Require Import Tac NumProofs NumProofs2 NumProofs3 NumProofs4 NumProofs5.
Local Open Scope Z_scope.

Definition i8 := Ty true W8.    Definition u8 := Ty false W8.
Definition i16 := Ty true W16.  Definition u16 := Ty false W16.
Definition i32 := Ty true W32.  Definition u32 := Ty false W32.
Definition i64 := Ty true W64.  Definition u64 := Ty false W64.
(** The model's ranges are those of the C++ types. *)
Example ranges : map (fun t => (lo t, hi t)) [i8; u8; i16; u16; i32; u32; i64; u64] =
  [(-128, 127); (0, 255); (-32768, 32767); (0, 65535); (-2147483648, 2147483647); (0, 4294967295);
   (-9223372036854775808, 9223372036854775807); (0, 18446744073709551615)].
Proof. vm_compute. reflexivity. Qed.
Lemma fits_iff t z : (lo t <=? z) && (z <=? hi t) = true <-> fits t z.
Proof. apply in_rangeb. Qed.
Ltac fit := apply fits_iff; vm_compute; reflexivity.

(** C156. IsValueInRangeForNumericType<Dst>(v) is true exactly when v is a value of Dst, and checked_cast<Dst>(v)
    returns v then and stops the program otherwise. *)
Theorem C156_checked_cast dst src v : fits src v ->
  (IsValueInRange dst src v = true <-> fits dst v) /\
  (fits dst v -> checked_cast dst src v = Ok v) /\ (~ fits dst v -> checked_cast dst src v = CheckFail).
Proof.
  intro F. rewrite IsValueInRange_ok, checked_cast_ok by auto. split; [apply fits_iff|].
  rewrite <- fits_iff. split; intro H; [now rewrite H|]. destruct ((lo dst <=? v) && (v <=? hi dst)); tauto.
Qed.
Example C156_nonvacuous : fits i64 (-1) /\ checked_cast u64 i64 (-1) = CheckFail /\ checked_cast i8 i64 (-128) = Ok (-128) /\
  checked_cast i32 u32 2147483648 = CheckFail /\ checked_cast u32 i64 4294967295 = Ok 4294967295.
Proof. split; [fit|]. vm_compute. auto. Qed.

(** C157. saturated_cast<Dst>(v) is the value of Dst nearest to v, whether or not v is a compile-time constant. *)
Theorem C157_saturated_cast const dst src v : fits src v ->
  let r := saturated_cast const dst src v in
  fits dst r /\ (fits dst v -> r = v) /\ (v < lo dst -> r = lo dst) /\ (hi dst < v -> r = hi dst).
Proof.
  intro F. cbn zeta. rewrite saturated_cast_ok by auto. assert (L := lo_hi dst). unfold fits, clampZ. lia.
Qed.
Example C157_nonvacuous : fits i64 (-5) /\ saturated_cast false u8 i64 (-5) = 0 /\ saturated_cast true u8 i64 300 = 255 /\
  saturated_cast false i8 u64 200 = 127 /\ saturated_cast false i64 u64 (2 ^ 64 - 1) = 2 ^ 63 - 1.
Proof. split; [fit|]. vm_compute. auto. Qed.

(** C158. Comparing numbers of different types compares their values. *)
Theorem C158_comparisons l r x y : fits l x -> fits r y ->
  SafeCompare IsLess l r x y = (x <? y) /\ SafeCompare IsLessOrEqual l r x y = (x <=? y) /\
  SafeCompare IsGreater l r x y = (y <? x) /\ SafeCompare IsGreaterOrEqual l r x y = (y <=? x) /\
  SafeCompare IsEqual l r x y = (x =? y) /\ SafeCompare IsNotEqual l r x y = negb (x =? y).
Proof.
  intros X Y.
  split; [apply (SafeCompare_ok _ (fun x y => x <? y)); auto using IsLess_ok|].
  split; [apply (SafeCompare_ok _ (fun x y => x <=? y)); auto using IsLessOrEqual_ok|].
  split; [apply (SafeCompare_ok _ (fun x y => y <? x)); auto using IsGreater_ok|].
  split; [apply (SafeCompare_ok _ (fun x y => y <=? x)); auto using IsGreaterOrEqual_ok|].
  split; [apply (SafeCompare_ok _ (fun x y => x =? y)); auto using IsEqual_ok|].
  apply (SafeCompare_ok _ (fun x y => negb (x =? y))); auto using IsNotEqual_ok.
Qed.
(** The built-in operator gets the last one wrong: -1 == 2^64 - 1 after conversion. *)
Example C158_nonvacuous : fits i64 (-1) /\ fits u64 (2 ^ 64 - 1) /\ SafeCompare IsLess i64 u64 (-1) 0 = true /\
  SafeCompare IsEqual i64 u64 (-1) (2 ^ 64 - 1) = false /\ eq_ i64 u64 (-1) (2 ^ 64 - 1) = true.
Proof. split; [fit|]. split; [fit|]. vm_compute. auto. Qed.

(** C159. An expression of checked numbers never has undefined behaviour. If its result is valid, it is the mathematical
    value; it is valid when no step leaves its type (and no division mixes uint64_t with a signed type, see C160). What the
    caller reads is that value, checked once more against the type it asks for. *)
Theorem C159_checked_expressions e : well_typed e ->
  exists c, run e = Ok c /\ fits (type_of e) (snd c) /\
    (fst c = true -> math e = Some (snd c)) /\
    (all_fit e -> no_mixed_division e -> fst c = true) /\
    forall dst,
      (forall z, AssignIfValid dst (type_of e) c = Some z -> math e = Some z /\ fits dst z) /\
      (ValueOrDie dst (type_of e) c = match AssignIfValid dst (type_of e) c with Some z => Ok z | None => CheckFail end) /\
      (forall d def, fits d def -> fits dst def ->
         ValueOrDefault dst (type_of e) d c def = Ok match AssignIfValid dst (type_of e) c with Some z => z | None => def end) /\
      (all_fit e -> no_mixed_division e -> forall z, math e = Some z -> fits dst z -> AssignIfValid dst (type_of e) c = Some z).
Proof.
  intro W. destruct (run_ok e W) as (c & R & F & S & C). exists c. split; [exact R|]. split; [exact F|]. split; [exact S|]. split; [exact C|].
  intro dst.
  assert (V : IsValid dst (type_of e) c = true <-> fst c = true /\ fits dst (snd c)).
  { unfold IsValid. rewrite IsValueInRange_ok by auto. rewrite andb_true_iff, fits_iff. tauto. }
  split; [|split; [|split]].
  - intros z A. unfold AssignIfValid in A. destruct (IsValid _ _ c); [|discriminate]. destruct V as [V _]. destruct (V eq_refl) as [V1 V2].
    rewrite cast_id in A by auto. inv A. auto.
  - unfold ValueOrDie, AssignIfValid. destruct (IsValid _ _ c); reflexivity.
  - intros d def FD FV. unfold ValueOrDefault, AssignIfValid. destruct (IsValid _ _ c); [reflexivity|].
    rewrite checked_cast_ok by auto. apply fits_iff in FV. now rewrite FV.
  - intros A N z M FZ. specialize (C A N). specialize (S C). rewrite S in M. inv M. unfold AssignIfValid.
    replace (IsValid dst (type_of e) c) with true by (symmetry; apply V; auto). now rewrite cast_id.
Qed.
(** (CheckedNumeric<int32>(100) * uint8(30) - int64(7)) / int16(-2), then Abs and Cast<int16>; and an overflowing product. *)
Definition ex_e : expr := ECast i16 (EAbs (EBin Div (EBin Sub (EBin Mul (ENum i32 100) (ENum u8 30)) (ENum i64 7)) (ENum i16 (-2)))).
Definition ex_o : expr := EBin Add (EBin Mul (ENum i32 65536) (ENum u16 65535)) (ENum i8 (-1)).
Example C159_nonvacuous : well_typed ex_e /\ all_fit ex_e /\ no_mixed_division ex_e /\ run ex_e = Ok (true, 1496) /\ math ex_e = Some 1496 /\
  well_typed ex_o /\ (exists c, run ex_o = Ok c /\ fst c = false) /\ math ex_o = Some 4294901759.
Proof.
  split; [cbn; repeat apply conj; fit|].
  split. { cbn. repeat apply conj; try exact Logic.I; (eexists; split; [reflexivity|fit]). }
  split. { cbn. repeat apply conj; try exact Logic.I; try discriminate. intros _. right. split; discriminate. }
  split; [vm_compute; reflexivity|]. split; [vm_compute; reflexivity|]. split; [cbn; repeat apply conj; fit|].
  split; [|vm_compute; reflexivity]. vm_compute. eexists. split; reflexivity.
Qed.

(** C160. A quotient that exists and fits into the result type is valid -- for every pair of types. *)
Definition C160_statement := forall t u v x y, fits t x -> fits u y -> y <> 0 -> (v = t \/ v = MaxExpP t u) -> fits v (Z.quot x y) ->
  CheckedDivOp t u v x y = Ok (Some (Z.quot x y)).
Theorem C160_statement_refuted : ~ C160_statement.
Proof.
  intro H. assert (E : CheckedDivOp i64 u64 i64 (-4) 2 = Ok (Some (-2))) by (apply (H i64 u64 i64 (-4) 2); [fit|fit|discriminate|auto|fit]).
  vm_compute in E. discriminate E.
Qed.
(** It holds unless a signed type meets uint64_t; then it holds when both operands are non-negative. A result, if there is
    one, is always the quotient, and a zero divisor never gives one. *)
Theorem C160_division_partial t u v x y : fits t x -> fits u y ->
  exists r, CheckedDivOp t u v x y = Ok r /\
    (forall z, r = Some z -> y <> 0 /\ z = Z.quot x y /\ fits v z) /\
    ((sgn t = sgn u \/ (t <> u64 /\ u <> u64)) \/ (0 <= x /\ 0 <= y) -> (v = t \/ v = MaxExpP t u) -> y <> 0 -> fits v (Z.quot x y) -> r = Some (Z.quot x y)).
Proof.
  intros X Y. destruct (doop_ok Div t u v x y X Y) as (r & E & R). cbn [doop] in E. exists r. split; auto. split.
  - intros z Z'. destruct (R z Z') as [G M]. cbn [mathop] in M. destruct (Z.eqb_spec y 0); [discriminate|]. inv M. auto.
  - intros C V N Q. destruct (snd (BigEnough t u)) eqn:K.
    + assert (D := doop_complete Div t u v x y (Z.quot x y) X Y). cbn [doop mathop] in D. destruct (Z.eqb_spec y 0); [tauto|]. rewrite D in E; auto. now inv E.
    + apply not_contained in K as K'. destruct C as [[C|C]|[C1 C2]]; [tauto|unfold u64 in *; tauto|].
      rewrite CheckedDivOp_ok in E by auto. cbn zeta in E. rewrite (not_contained_p t u K) in E. assert (HT := hi_u64 t). assert (HU := hi_u64 u).
      destruct (Z.eq_dec y 0); [tauto|]. assert (FX : fits (Ty false W64) x) by (unfold fits in *; change (lo (Ty false W64)) with 0; lia).
      assert (FY : fits (Ty false W64) y) by (unfold fits in *; change (lo (Ty false W64)) with 0; lia).
      destruct (fits_dec _ x); [|tauto]. destruct (fits_dec _ y); [|tauto].
      destruct (fits_dec (Ty false W64) (Z.quot x y)) as [_|NQ]; [destruct (fits_dec v _); [now inv E|tauto]|].
      exfalso. apply NQ. apply quot_fits; auto. intros (_ & A & _). lia.
Qed.
Example C160_nonvacuous : CheckedDivOp i32 u32 i32 (-9) 2 = Ok (Some (-4)) /\ CheckedDivOp i64 u64 i64 9 2 = Ok (Some 4) /\
  CheckedDivOp i32 i8 i32 (- 2 ^ 31) (-1) = Ok None /\ CheckedDivOp i64 i64 i64 (- 2 ^ 63) (-1) = Ok None /\ CheckedDivOp u8 u8 u8 1 0 = Ok None.
Proof. vm_compute. auto. Qed.

(** C161. A valid result of CheckMod is the remainder. *)
Definition C161_statement := forall t u v x y z, fits t x -> fits u y -> (v = t \/ v = MaxExpP t u) ->
  CheckedModOp t u v x y = Ok (Some z) -> z = Z.rem x y.
Theorem C161_statement_refuted : ~ C161_statement.
Proof.
  intro H. assert (E : 2 = Z.rem (-5) 3).
  { apply (H i64 u64 u64 (-5) 3 2); [fit|fit|auto|vm_compute; reflexivity]. }
  vm_compute in E. discriminate E.
Qed.
(** A valid remainder of a positive number by a negative one that is not smaller: 10 instead of 0. *)
Example C161_second_witness : CheckedModOp u64 i64 u64 10 (-2) = Ok (Some 10) /\ Z.rem 10 (-2) = 0.
Proof. vm_compute. auto. Qed.
(** It holds unless a signed type meets uint64_t, and then for non-negative operands; the result is valid exactly when the divisor
    is not 0 and the remainder fits. *)
Theorem C161_mod_partial t u v x y : fits t x -> fits u y -> (sgn t = sgn u \/ (t <> u64 /\ u <> u64)) \/ (0 <= x /\ 0 <= y) ->
  exists r, CheckedModOp t u v x y = Ok r /\ (forall z, r = Some z <-> y <> 0 /\ z = Z.rem x y /\ fits v z).
Proof.
  intros X Y C.
  assert (P : fits (fst (BigEnough t u)) x /\ fits (fst (BigEnough t u)) y).
  { destruct (snd (BigEnough t u)) eqn:K; [now apply contained_fits|]. apply not_contained in K as K'.
    destruct C as [[C|C]|[C1 C2]]; [tauto|unfold u64 in *; tauto|]. rewrite (not_contained_p t u K). assert (HT := hi_u64 t). assert (HU := hi_u64 u).
    unfold fits in *. change (lo (Ty false W64)) with 0. lia. }
  destruct P as [PX PY]. rewrite CheckedModOp_ok by auto. eexists. split; [reflexivity|]. intro z.
  destruct (Z.eq_dec y 0); [split; [discriminate|tauto]|]. destruct (fits_dec v (Z.rem x y)) as [F|F].
  - split; [intro E; inv E; auto|intros (_ & -> & _); reflexivity].
  - split; [discriminate|]. intros (_ & -> & G). tauto.
Qed.
Example C161_nonvacuous : CheckedModOp i32 u32 i32 (-5) 3 = Ok (Some (-2)) /\ CheckedModOp i32 i32 i32 (- 2 ^ 31) (-1) = Ok (Some 0) /\
  CheckedModOp u8 u8 u8 1 0 = Ok None /\ CheckedModOp i32 u32 u32 (-5) 3 = Ok None.
Proof. vm_compute. auto. Qed.

(** C162. CheckLsh and CheckRsh never shift out of range: a valid left shift of x by s is x * 2^s, and it is valid when x and s are
    not negative, s is less than the number of value bits and the product fits; a right shift is x / 2^s rounded down, valid
    for every s from 0 to the width minus one and for no other. *)
Theorem C162_checked_shifts t u x s : fits t x -> fits u s ->
  (forall z, CheckedLshOp t u x s = Some z -> 0 <= x /\ 0 <= s <= digits t /\ z = x * 2 ^ s /\ fits t z) /\
  (0 <= x -> 0 <= s < digits t -> fits t (x * 2 ^ s) -> CheckedLshOp t u x s = Some (x * 2 ^ s)) /\
  (forall z, CheckedRshOp t u x s = Some z <-> 0 <= s < bits t /\ z = x / 2 ^ s).
Proof.
  intros X S. rewrite CheckedLshOp_ok, CheckedRshOp_ok by auto. split; [|split].
  - intros z E. destruct ((0 <=? x) && (0 <=? s) && (s <? digits t)) eqn:C.
    + b2p. destruct (fits_dec _ _); [|discriminate]. inv E. split; auto. split; [lia|auto].
    + destruct (sgn t && (x =? 0) && (s =? digits t)) eqn:D; [|discriminate]. b2p. inv E. destruct (digits_ok t) as (_ & DD & _).
      split; [lia|]. split; [lia|]. split; [lia|apply zero_fits].
  - intros X0 S0 F. replace ((0 <=? x) && (0 <=? s) && (s <? digits t)) with true by lia. destruct (fits_dec _ _); tauto.
  - intro z. destruct ((0 <=? s) && (s <? bits t)) eqn:C; [|split; [discriminate|intros [A _]; b2p; lia]]. b2p.
    split; [intro E; inv E; split; auto; lia|intros [_ ->]; reflexivity].
Qed.
Example C162_nonvacuous : CheckedLshOp i32 i32 3 4 = Some 48 /\ CheckedLshOp i8 u8 1 7 = None /\ CheckedLshOp u8 u8 1 7 = Some 128 /\
  CheckedLshOp i32 i32 1 (-1) = None /\ CheckedRshOp i8 i8 (-5) 1 = Some (-3) /\ CheckedRshOp i8 u8 5 8 = None.
Proof. vm_compute. auto 10. Qed.

(** C163. ClampLsh by an unsigned amount gives x * 2^s clamped to the type of x, for every s however large; ClampRsh gives x / 2^s rounded down. *)
Theorem C163_clamped_shifts const t u x s : sgn u = false -> fits t x -> fits u s ->
  ClampedLshOp t u x s = clampZ t (x * 2 ^ s) /\ ClampedRshOp const t u x s = x / 2 ^ s.
Proof. intros U X S. split; [now apply ClampedLshOp_ok|now apply ClampedRshOp_ok]. Qed.
Example C163_nonvacuous : ClampedLshOp i8 u64 (-3) 6 = -128 /\ ClampedLshOp i8 u64 (-1) 7 = -128 /\ ClampedLshOp i32 u32 5 4000000000 = 2147483647 /\
  ClampedLshOp i32 u32 0 4000000000 = 0 /\ ClampedRshOp false i32 u8 (-7) 200 = -1 /\ ClampedRshOp true u8 u8 200 3 = 25.
Proof. vm_compute. auto 10. Qed.

(** C164. ClampSub, ClampMul, -=, *=, unary minus and Abs give the exact result clamped to the type of the result. *)
Theorem C164_clamped_sub_mul const t u v x y : fits t x -> fits u y ->
  ClampedSubOp t u (MaxExpP t u) x y = clampZ (MaxExpP t u) (x - y) /\
  (add_compiles t u t = true -> ClampedSubOp t u t x y = clampZ t (x - y)) /\
  ClampedMulOp t u v x y = clampZ v (x * y) /\
  SaturatedNeg const t x = clampZ t (- x) /\
  SaturatedAbs t x = clampZ t (Z.abs x).
Proof.
  intros X Y. split; [apply ClampedSub_ok; auto|]. split; [intro; apply ClampedSub_ok; auto|]. split; [now apply ClampedMul_ok|].
  split; [now apply SaturatedNeg_ok|now apply SaturatedAbs_ok].
Qed.
Example C164_nonvacuous : ClampedSubOp u8 u8 u8 3 5 = 0 /\ ClampedSubOp i32 i32 i32 (- 2 ^ 31) 1 = - 2 ^ 31 /\ ClampedSubOp i8 u8 u8 (-5) 3 = 0 /\
  add_compiles i32 i64 i32 = true /\ ClampedSubOp i32 i64 i32 5 (- 2 ^ 40) = 2 ^ 31 - 1 /\
  ClampedMulOp i32 i32 i32 65536 (-65536) = - 2 ^ 31 /\ SaturatedNeg false i8 (-128) = 127 /\ SaturatedAbs i8 (-128) = 127 /\ SaturatedNeg true u8 5 = 0.
Proof. vm_compute. auto 10. Qed.

(** C165. ClampAdd gives the exact sum clamped to the type of the result. *)
Definition C165_statement := forall t u x y, fits t x -> fits u y -> ClampedAddOp t u (MaxExpP t u) x y = clampZ (MaxExpP t u) (x + y).
Theorem C165_statement_refuted : ~ C165_statement.
Proof.
  intro H. assert (E := H i8 u8 (-5) 3 ltac:(fit) ltac:(fit)). vm_compute in E. discriminate E.
Qed.
(** It fails exactly when the sum is negative, the left operand's type signed and the result's unsigned: the largest value is returned
    instead of 0. In all other cases, and for +=, it holds. *)
Theorem C165_clamp_add_partial t u x y : fits t x -> fits u y ->
  (0 <= x + y \/ sgn t = false \/ sgn (MaxExpP t u) = true -> ClampedAddOp t u (MaxExpP t u) x y = clampZ (MaxExpP t u) (x + y)) /\
  (x + y < 0 -> sgn t = true -> sgn (MaxExpP t u) = false ->
     ClampedAddOp t u (MaxExpP t u) x y = hi (MaxExpP t u) /\ clampZ (MaxExpP t u) (x + y) = 0) /\
  ClampedAddOp t u t x y = clampZ t (x + y).
Proof.
  intros X Y. split; [|split].
  - intros [P|C]; [now apply ClampedAdd_pos|]. apply ClampedAdd_ok; auto; [now apply MaxExpP_lo|apply MaxExpP_hi].
  - intros N S1 S2. now apply ClampedAdd_neg.
  - apply ClampedAdd_ok; auto; apply Z.le_refl.
Qed.
Example C165_nonvacuous : ClampedAddOp i8 u8 u8 (-5) 3 = 255 /\ ClampedAddOp u8 i8 (MaxExpP u8 i8) 3 (-5) = 0 /\ ClampedAddOp i32 i32 i32 (2 ^ 31 - 1) 1 = 2 ^ 31 - 1 /\
  ClampedAddOp i64 i8 i64 (- 2 ^ 63) (-1) = - 2 ^ 63 /\ ClampedAddOp i32 i64 i32 1 (2 ^ 40) = 2 ^ 31 - 1.
Proof. vm_compute. auto 10. Qed.

(** C166. ClampDiv and /= give the exact quotient clamped to the type of the result; a zero divisor gives 0 for 0, the largest value
    for a positive and the smallest for a negative dividend. ClampMod and %= give the remainder, or the dividend when the
    divisor is 0. *)
Definition quotient (v : ity) (x y : Z) : Z :=
  if y =? 0 then (if x =? 0 then 0 else if 0 <? x then hi v else lo v) else clampZ v (Z.quot x y).
Definition remainder (v : ity) (x y : Z) : Z := clampZ v (if y =? 0 then x else Z.rem x y).
Definition C166_statement := forall t u v x y, fits t x -> fits u y -> (v = t \/ v = MaxExpP t u) ->
  ClampedDivOp t u v x y = Ok (quotient v x y) /\ ClampedModOp t u v x y = Ok (remainder v x y).
Theorem C166_statement_refuted : ~ C166_statement.
Proof.
  intro H. destruct (H i64 u64 i64 (-5) 3 ltac:(fit) ltac:(fit) (or_introl eq_refl)) as [E _]. vm_compute in E. discriminate E.
Qed.
(** What is returned is INT64_MIN (instead of -1), and for ClampMod(int32 -5, uint32 3) 4294967291 (the nearest value to -2 is 0). *)
Example C166_second_witness : ClampedDivOp i64 u64 i64 (-5) 3 = Ok (- 2 ^ 63) /\ quotient i64 (-5) 3 = -1 /\
  ClampedModOp i32 u32 u32 (-5) 3 = Ok 4294967291 /\ remainder u32 (-5) 3 = 0.
Proof. vm_compute. auto. Qed.
(** The quotient is right for every two operands of ClampDiv, and of /= except a negative dividend with a uint64_t divisor. The
    remainder is right for %= unless a signed type meets uint64_t. Neither operation has undefined behaviour there. *)
Theorem C166_clamp_div_partial t u x y : fits t x -> fits u y ->
  ClampedDivOp t u (MaxExpP t u) x y = Ok (quotient (MaxExpP t u) x y) /\
  (u <> u64 \/ 0 <= x -> ClampedDivOp t u t x y = Ok (quotient t x y)) /\
  (sgn t = sgn u \/ (t <> u64 /\ u <> u64) -> ClampedModOp t u t x y = Ok (remainder t x y)).
Proof.
  intros X Y. split; [apply ClampedDiv_ok; auto|]. split; [intro C; apply ClampedDiv_ok; auto|].
  intro C. assert (K : snd (BigEnough t u) = true).
  { destruct (snd (BigEnough t u)) eqn:K; auto. apply not_contained in K. unfold u64 in *. tauto. }
  rewrite ClampedMod_ok by auto. f_equal. unfold remainder. rewrite clamp_fits; auto. destruct (Z.eqb_spec y 0); auto. now apply rem_fits.
Qed.
Example C166_nonvacuous : ClampedDivOp i32 i32 i32 (- 2 ^ 31) (-1) = Ok (2 ^ 31 - 1) /\ ClampedDivOp i32 i8 i32 (-7) 0 = Ok (- 2 ^ 31) /\
  ClampedDivOp u8 i8 u8 7 (-2) = Ok 0 /\ ClampedModOp i32 i32 i32 (-7) 2 = Ok (-1) /\ ClampedModOp i32 i32 i32 7 0 = Ok 7.
Proof. vm_compute. auto 10. Qed.

(** C167. The unary minus of a checked number is valid only if the negated value fits. *)
Definition C167_statement := forall t v z, fits t v -> CheckedNeg t (true, v) = (true, z) -> z = - v.
Theorem C167_statement_refuted : ~ C167_statement.
Proof.
  intro H. assert (E := H u32 5 4294967291 ltac:(fit) ltac:(vm_compute; reflexivity)). discriminate E.
Qed.
(** It holds for the signed types, where the negation is valid exactly when it fits; an invalid number stays invalid. For an
    unsigned type the negation is always valid, and wraps. *)
Theorem C167_checked_neg_partial t v : fits t v ->
  (sgn t = true -> forall z, CheckedNeg t (true, v) = (true, z) <-> z = - v /\ fits t z) /\
  (sgn t = false -> CheckedNeg t (true, v) = (true, (- v) mod 2 ^ bits t)) /\
  fst (CheckedNeg t (false, v)) = false.
Proof.
  intro F. split; [|split].
  - intros S z. rewrite CheckedNeg_ok by auto. destruct (fits_dec t (- v)); split; intro E.
    + inv E; auto.
    + destruct E as [-> _]. reflexivity.
    + discriminate.
    + destruct E as [-> G]. tauto.
  - intro S. unfold CheckedNeg. rewrite NegateWrapper_ok by auto. rewrite IsValid_own by auto. cbn [fst snd]. rewrite S. cbn [negb orb andb].
    rewrite mk_true by apply cast_fits. f_equal. unfold cast. now rewrite S.
  - reflexivity.
Qed.
Example C167_nonvacuous : CheckedNeg i32 (true, 7) = (true, -7) /\ fst (CheckedNeg i32 (true, - 2 ^ 31)) = false /\ CheckedNeg u32 (true, 5) = (true, 4294967291).
Proof. vm_compute. auto. Qed.

(** C168. CheckMax, CheckMin, ClampMax and ClampMin give the larger and the smaller of two numbers of any two types; the checked ones are always valid. *)
Theorem C168_max_min const t u x y : fits t x -> fits u y ->
  CheckedMaxOp t u (MaxExpP t u) x y = Some (Z.max x y) /\ ClampedMaxOp const t u (MaxExpP t u) x y = Z.max x y /\
  CheckedMinOp t u (LowestP t u) x y = Some (Z.min x y) /\ ClampedMinOp const t u (LowestP t u) x y = Z.min x y.
Proof.
  intros X Y. destruct (Max_ok const t u x y X Y). destruct (Min_ok const t u x y X Y). auto.
Qed.
Example C168_nonvacuous : CheckedMaxOp i64 u64 (MaxExpP i64 u64) (-1) 1 = Some 1 /\ ClampedMaxOp false i64 u64 (MaxExpP i64 u64) (-1) (2 ^ 64 - 1) = 2 ^ 64 - 1 /\
  CheckedMinOp u64 i8 (LowestP u64 i8) 5 (-1) = Some (-1) /\ ClampedMinOp true u8 u64 (LowestP u8 u64) 200 201 = 200.
Proof. vm_compute. auto. Qed.

Print Assumptions C156_checked_cast.
Print Assumptions C157_saturated_cast.
Print Assumptions C158_comparisons.
Print Assumptions C159_checked_expressions.
Print Assumptions C160_statement_refuted.
Print Assumptions C160_division_partial.
Print Assumptions C161_statement_refuted.
Print Assumptions C161_mod_partial.
Print Assumptions C162_checked_shifts.
Print Assumptions C163_clamped_shifts.
Print Assumptions C164_clamped_sub_mul.
Print Assumptions C165_statement_refuted.
Print Assumptions C165_clamp_add_partial.
Print Assumptions C166_statement_refuted.
Print Assumptions C166_clamp_div_partial.
Print Assumptions C167_statement_refuted.
Print Assumptions C167_checked_neg_partial.
Print Assumptions C168_max_min.
