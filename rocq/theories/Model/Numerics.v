(** base/numerics: conversions, comparisons, checked and clamped arithmetic between the
    integer types of 8 to 64 bits.

    A C++ integer type is an [ity]; a value of it is a [Z] in its range. Templates take the
    types as arguments. Code that the compiler selects by type (partial specialisations,
    [enable_if]) is an [if] on the types. The floating point specialisations, the ARM
    assembler versions and the code for compilers other than GCC (safe_math_shared_impl.h:
    40-100) are not modelled. *)
From Verif Require Import Model.Common.
Local Open Scope Z_scope.

Inductive width : Set := W8 | W16 | W32 | W64.
(** (u)int8_t ... (u)int64_t. *)
Record ity : Set := Ty { sgn : bool; wid : width }.
Definition bits (t : ity) : Z := match wid t with W8 => 8 | W16 => 16 | W32 => 32 | W64 => 64 end.
(** std::numeric_limits<T>::lowest(), max(), digits. *)
Definition lo (t : ity) : Z := if sgn t then - 2 ^ (bits t - 1) else 0.
Definition hi (t : ity) : Z := if sgn t then 2 ^ (bits t - 1) - 1 else 2 ^ bits t - 1.
Definition digits (t : ity) : Z := if sgn t then bits t - 1 else bits t.
(** std::make_unsigned, std::make_signed. *)
Definition uns (t : ity) : ity := Ty false (wid t).
Definition sig (t : ity) : ity := Ty true (wid t).
Definition ity_eqb (a b : ity) : bool := Bool.eqb (sgn a) (sgn b) && (bits a =? bits b).
(** static_cast<T>(z): reduction modulo 2^bits (GCC's definition for signed T). *)
Definition cast (t : ity) (z : Z) : Z :=
  let m := z mod 2 ^ bits t in if sgn t && (2 ^ (bits t - 1) <=? m) then m - 2 ^ bits t else m.
(** Integral promotion and usual arithmetic conversions: the type of a + b ([conv.prom], [expr.arith.conv]). *)
Definition promote (t : ity) : ity := if bits t <? 32 then Ty true W32 else t.
Definition common (a b : ity) : ity :=
  let a := promote a in
  let b := promote b in
  if Bool.eqb (sgn a) (sgn b) then (if bits a <? bits b then b else a)
  else let '(s, u) := if sgn a then (a, b) else (b, a) in
       if bits s <=? bits u then u else s.
(** lhs < rhs, lhs <= rhs, lhs == rhs on operands of types a and b: both are converted to the common type. *)
Definition lt_ (a b : ity) (x y : Z) : bool := cast (common a b) x <? cast (common a b) y.
Definition le_ (a b : ity) (x y : Z) : bool := cast (common a b) x <=? cast (common a b) y.
Definition eq_ (a b : ity) (x y : Z) : bool := cast (common a b) x =? cast (common a b) y.

(** ** safe_conversions_impl.h *)
(** 26-31 MaxExponent, 35-39 IntegerBitsPlusSign (= [bits]). *)
Definition MaxExponent (t : ity) : Z := digits t + 1.
(** 49-61 IsValueNegative. *)
Definition IsValueNegative (t : ity) (v : Z) : bool := if sgn t then v <? 0 else false.
(** 66-76 ConditionalNegate<T>, for T unsigned; computed without bound and reduced at the end, which is the same modulo 2^bits. *)
Definition ConditionalNegate (t : ity) (x : Z) (neg : bool) : Z :=
  let n := if neg then 1 else 0 in cast (sig t) (Z.lxor (cast (uns t) x) (- n) + n).
(** 79-86 SafeUnsignedAbs. *)
Definition SafeUnsignedAbs (t : ity) (v : Z) : Z :=
  if IsValueNegative t v then cast (uns t) (0 - cast (uns t) v) else cast (uns t) v.
(** 151-187, 398-402 StaticDstRangeRelationToSrcRange, IsTypeInRangeForNumericType: Dst contains Src. *)
Definition TypeInRange (dst src : ity) : bool :=
  if Bool.eqb (sgn dst) (sgn src) then MaxExponent src <=? MaxExponent dst
  else if sgn dst then MaxExponent src <? MaxExponent dst
  else false.
(** 191-218 RangeCheck: (is_underflow_, is_overflow_). *)
Definition RangeCheck (in_lower in_upper : bool) : bool * bool := (negb in_lower, negb in_upper).
Definition IsValid_ (r : bool * bool) : bool := negb (snd r) && negb (fst r).
Definition IsOverflow (r : bool * bool) : bool := snd r && negb (fst r).
Definition IsUnderflow (r : bool * bool) : bool := negb (snd r) && fst r.
Definition rc_eqb (a b : bool * bool) : bool := Bool.eqb (fst a) (fst b) && Bool.eqb (snd a) (snd b).
(** 241-281 NarrowingRange<Dst, Src, numeric_limits>. *)
Definition kShift (dst src : ity) : Z :=
  if (MaxExponent dst <? MaxExponent src) && (digits src <? digits dst) then digits dst - digits src else 0.
Definition Adjust (dst src : ity) (v : Z) : Z :=
  cast dst (ConditionalNegate (uns dst) (Z.land (SafeUnsignedAbs dst v) (Z.lnot (2 ^ kShift dst src - 1))) (IsValueNegative dst v)).
Definition n_max (dst src : ity) : Z := Adjust dst src (hi dst).
Definition n_lowest (dst src : ity) : Z := Adjust dst src (lo dst).
(** 300-395 DstRangeRelationToSrcRangeImpl<Dst, Src>::Check, 404-413 DstRangeRelationToSrcRange. *)
Definition DstRange (dst src : ity) (v : Z) : bool * bool :=
  let p := common src dst in
  if TypeInRange dst src then
    RangeCheck ((n_lowest dst src <=? cast dst (lo src)) || (n_lowest dst src <=? cast dst v))
               ((cast dst (hi src) <=? n_max dst src) || (cast dst v <=? n_max dst src))
  else match sgn dst, sgn src with
  | true, true => RangeCheck (le_ dst src (n_lowest dst src) v) (le_ src dst v (n_max dst src))
  | false, false => RangeCheck ((n_lowest dst src =? 0) || le_ dst src (n_lowest dst src) v) (le_ src dst v (n_max dst src))
  | true, false => RangeCheck ((n_lowest dst src <=? 0) || (cast p (n_lowest dst src) <=? cast p v)) (cast p v <=? cast p (n_max dst src))
  | false, true => RangeCheck ((0 <=? v) && ((n_lowest dst src =? 0) || (n_lowest dst src <=? cast dst v)))
                              ((cast p (hi src) <=? cast p (n_max dst src)) || (cast p v <=? cast p (n_max dst src)))
  end.
(** 446-472 MaxExponentPromotion. *)
Definition MaxExpP (l r : ity) : ity := if MaxExponent r <? MaxExponent l then l else r.
(** 474-500 LowestValuePromotion. *)
Definition LowestP (l r : ity) : ity :=
  if sgn l then (if sgn r then (if MaxExponent r <? MaxExponent l then l else r) else l)
  else (if sgn r then r else (if MaxExponent l <? MaxExponent r then l else r)).
(** 438-444 TwiceWiderInteger (of a type of at most 32 bits). *)
Definition Twice (t : ity) (s : bool) : ity := Ty s match wid t with W8 => W16 | W16 => W32 | W32 => W64 | W64 => W64 end.
(** 502-540 BigEnoughPromotion: (type, is_contained). *)
Definition BigEnough (l r : ity) : ity * bool :=
  let m := MaxExpP l r in
  if TypeInRange m l && TypeInRange m r then (m, true)
  else if bits m =? 64 then (m, false)
  else (Twice m (sgn l || sgn r), true).
(** 698-801 IsLess, IsLessOrEqual, IsGreater, IsGreaterOrEqual, IsEqual, IsNotEqual ::Test. *)
Definition IsLess (l r : ity) (x y : Z) : bool :=
  let lr := DstRange r l x in let rr := DstRange l r y in
  IsUnderflow lr || IsOverflow rr || (rc_eqb lr rr && lt_ l r x y).
Definition IsLessOrEqual (l r : ity) (x y : Z) : bool :=
  let lr := DstRange r l x in let rr := DstRange l r y in
  IsUnderflow lr || IsOverflow rr || (rc_eqb lr rr && le_ l r x y).
Definition IsGreater (l r : ity) (x y : Z) : bool :=
  let lr := DstRange r l x in let rr := DstRange l r y in
  IsOverflow lr || IsUnderflow rr || (rc_eqb lr rr && (cast (common l r) y <? cast (common l r) x)).
Definition IsGreaterOrEqual (l r : ity) (x y : Z) : bool :=
  let lr := DstRange r l x in let rr := DstRange l r y in
  IsOverflow lr || IsUnderflow rr || (rc_eqb lr rr && (cast (common l r) y <=? cast (common l r) x)).
Definition IsEqual (l r : ity) (x y : Z) : bool := rc_eqb (DstRange r l x) (DstRange l r y) && eq_ l r x y.
Definition IsNotEqual (l r : ity) (x y : Z) : bool := negb (rc_eqb (DstRange r l x) (DstRange l r y)) || negb (eq_ l r x y).
(** 803-816 SafeCompare<C>. *)
Definition SafeCompare (C : ity -> ity -> Z -> Z -> bool) (l r : ity) (x y : Z) : bool :=
  let '(b, contained) := BigEnough l r in
  if contained then C b b (cast b (cast l x)) (cast b (cast r y)) else C l r x y.
(** 818-828 IsMaxInRangeForNumericType, IsMinInRangeForNumericType. *)
Definition IsMaxInRange (dst src : ity) : bool := IsGreaterOrEqual dst src (hi dst) (hi src).
Definition IsMinInRange (dst src : ity) : bool := IsLessOrEqual dst src (lo dst) (lo src).
(** 830-842 CommonMax, CommonMin, 847-850 CommonMaxOrMin. *)
Definition CommonMax (dst src : ity) : Z := if negb (IsMaxInRange dst src) then hi dst else cast dst (hi src).
Definition CommonMin (dst src : ity) : Z := if negb (IsMinInRange dst src) then lo dst else cast dst (lo src).
Definition CommonMaxOrMin (dst src : ity) (is_min : bool) : Z := if is_min then CommonMin dst src else CommonMax dst src.

(** ** safe_conversions.h *)
(** 45-85 IsValueInRangeFastOp, 89-98 IsValueInRangeForNumericType. *)
Definition IsValueInRange (dst src : ity) (v : Z) : bool :=
  if sgn dst && sgn src && negb (TypeInRange dst src) then eq_ src dst v (cast dst v)
  else if negb (sgn dst) && sgn src && negb (TypeInRange dst src) then
    le_ (uns src) (uns src) (cast (uns src) v) (cast (uns src) (CommonMax src dst))
  else IsValid_ (DstRange dst src v).
(** 103-115 checked_cast. *)
Definition checked_cast (dst src : ity) (v : Z) : outcome Z :=
  if IsValueInRange dst src v then Ok (cast dst v) else CheckFail.
(** 141-153 saturated_cast_impl (integers have neither infinity nor NaN). *)
Definition saturated_cast_impl (dst src : ity) (v : Z) : Z :=
  let c := DstRange dst src v in
  if negb (snd c) then (if negb (fst c) then cast dst v else lo dst) else hi dst.
(** 180-197 SaturateFastOp::Do. *)
Definition SaturateFastOp (dst src : ity) (v : Z) : Z :=
  let saturated := CommonMaxOrMin dst src (IsMaxInRange dst src || (negb (IsMinInRange dst src) && IsValueNegative src v)) in
  if IsValueInRange dst src v then cast dst v else saturated.
(** 203-218 saturated_cast; [const] is __builtin_constant_p(value). *)
Definition saturated_cast (const : bool) (dst src : ity) (v : Z) : Z :=
  if negb const then SaturateFastOp dst src v else saturated_cast_impl dst src v.

(** ** safe_math_clang_gcc_impl.h:68-105: the GCC builtins compute in unlimited precision and
    report whether the result fits into the type of the result ([None]: overflow). *)
Definition builtin (v : ity) (z : Z) : option Z := if (lo v <=? z) && (z <=? hi v) then Some z else None.

(** ** checked_math_impl.h. The operations on operands of types t and u with a result of type v. *)
(** 43-84, 107-148, 175-212 CheckedAddOp, CheckedSubOp, CheckedMulOp. *)
Definition CheckedAddOp (t u v : ity) (x y : Z) : option Z := builtin v (x + y).
Definition CheckedSubOp (t u v : ity) (x y : Z) : option Z := builtin v (x - y).
Definition CheckedMulOp (t u v : ity) (x y : Z) : option Z := builtin v (x * y).
(** The language's / and % on operands of type p: undefined for a zero divisor and when the quotient does
    not fit into the promoted type. *)
Definition div_ (p : ity) (x y : Z) : outcome Z :=
  if (y =? 0) || negb ((lo (promote p) <=? Z.quot x y) && (Z.quot x y <=? hi (promote p))) then UB else Ok (Z.quot x y).
Definition mod_ (p : ity) (x y : Z) : outcome Z :=
  if (y =? 0) || negb ((lo (promote p) <=? Z.quot x y) && (Z.quot x y <=? hi (promote p))) then UB else Ok (Z.rem x y).
(** 216-253 CheckedDivOp. *)
Definition CheckedDivOp (t u v : ity) (x y : Z) : outcome (option Z) :=
  if y =? 0 then Ok None
  else
    let p := fst (BigEnough t u) in
    if sgn t && sgn u && TypeInRange t p && (cast p x =? lo p) && (y =? cast u (-1)) then Ok None
    else if (negb (IsValueInRange p t x) || negb (IsValueInRange p u y)) && negb (x =? 0) then Ok None
    else
      obind (div_ p (cast p x) (cast p y)) (fun q =>
      let r := cast p q in
      Ok (if negb (IsValueInRange v p r) then None else Some (cast v r))).
(** 255-287 CheckedModOp. *)
Definition CheckedModOp (t u v : ity) (x y : Z) : outcome (option Z) :=
  if y =? 0 then Ok None
  else
    let p := fst (BigEnough t u) in
    if sgn t && sgn u && TypeInRange t p && (cast p x =? lo p) && (y =? cast u (-1)) then Ok (Some 0)
    else
      obind (mod_ p (cast p x) (cast p y)) (fun q =>
      let r := cast p q in
      Ok (if negb (IsValueInRange v p r) then None else Some (cast v (cast p r)))).
(** 291-322 CheckedLshOp (the result type is t). *)
Definition CheckedLshOp (t u : ity) (x s : Z) : option Z :=
  if negb (IsValueNegative t x) && lt_ (uns u) (Ty false W32) (cast (uns u) s) (cast (Ty false W32) (digits t)) then
    let r := cast t (cast (promote (uns t)) (Z.shiftl (cast (uns t) x) s)) in
    if eq_ (promote t) t (Z.shiftr r s) x then Some r else None
  else if negb (sgn t) || negb (x =? 0) || negb (eq_ (uns u) (Ty false W32) (cast (uns u) s) (cast (Ty false W32) (digits t))) then None
  else Some 0.
(** 324-350 CheckedRshOp (the result type is t). *)
Definition CheckedRshOp (t u : ity) (x s : Z) : option Z :=
  if le_ (Ty true W32) (uns u) (bits t) (cast (uns u) s) then None
  else
    let tmp := cast t (Z.shiftr x s) in
    if negb (IsValueInRange t t tmp) then None else Some (cast t tmp).
(** 420-468 CheckedMaxOp, CheckedMinOp. *)
Definition CheckedMaxOp (t u v : ity) (x y : Z) : option Z :=
  let tmp := if IsGreater t u x y then cast (MaxExpP t u) x else cast (MaxExpP t u) y in
  if negb (IsValueInRange v (MaxExpP t u) tmp) then None else Some (cast v tmp).
Definition CheckedMinOp (t u v : ity) (x y : Z) : option Z :=
  let tmp := if IsLess t u x y then cast (LowestP t u) x else cast (LowestP t u) y in
  if negb (IsValueInRange v (LowestP t u) tmp) then None else Some (cast v tmp).
(** 516-550 CheckedNumericState<T>: (is_valid_, value_). *)
Definition checked : Set := (bool * Z)%type.
Definition mk_state (t src : ity) (v : Z) (ok : bool) : checked := (ok && IsValueInRange t src v, cast t v).

(** ** checked_math.h: CheckedNumeric<T> *)
(** 54-58 IsValid<Dst>. *)
Definition IsValid (dst t : ity) (c : checked) : bool := fst c && IsValueInRange dst t (snd c).
(** 69-74 AssignIfValid, 84-89 ValueOrDie<Dst>, 97-102 ValueOrDefault<Dst> (the default has the type d). *)
Definition AssignIfValid (dst t : ity) (c : checked) : option Z := if IsValid dst t c then Some (cast dst (snd c)) else None.
Definition ValueOrDie (dst t : ity) (c : checked) : outcome Z := if IsValid dst t c then Ok (cast dst (snd c)) else CheckFail.
Definition ValueOrDefault (dst t d : ity) (c : checked) (def : Z) : outcome Z :=
  if IsValid dst t c then Ok (cast dst (snd c)) else checked_cast dst d def.
(** 107-110 Cast<Dst>, 32-34 the conversion between CheckedNumeric types. *)
Definition CheckedCast (dst t : ity) (c : checked) : checked := mk_state dst t (snd c) (IsValid t t c).
(** safe_math_shared_impl.h:135-143 NegateWrapper. *)
Definition NegateWrapper (t : ity) (v : Z) : Z := cast t (cast (uns t) (0 - cast (uns t) v)).
(** checked_math.h:140-152 operator-. *)
Definition CheckedNeg (t : ity) (c : checked) : checked :=
  mk_state t t (NegateWrapper t (snd c)) (IsValid t t c && (negb (sgn t) || negb (NegateWrapper t (snd c) =? lo t))).
(** checked_math.h:159-161 Abs, 178-182 UnsignedAbs (of type uns t). *)
Definition CheckedAbs (t : ity) (c : checked) : checked := if negb (IsValueNegative t (snd c)) then c else CheckedNeg t c.
Definition CheckedUnsignedAbs (t : ity) (c : checked) : checked := mk_state (uns t) (uns t) (SafeUnsignedAbs t (snd c)) (fst c).
(** checked_math.h:211-219 MathOp(lhs, rhs) and 222-231 MathOp(rhs): [op] is Math::Do with a result of type v. *)
Definition MathOp (t u v : ity) (op : Z -> Z -> outcome (option Z)) (a b : checked) : outcome checked :=
  obind (if IsValid t t a && IsValid u u b then op (snd a) (snd b) else Ok None) (fun r =>
  Ok match r with
     | Some r => mk_state v v r true
     | None => mk_state v v 0 false
     end).

(** ** clamped_math_impl.h *)
(** 24-40 SaturatedNegWrapper; the run-time path is ClampedNegFastOp (safe_math_clang_gcc_impl.h:135-151). *)
Definition SaturatedNeg (const : bool) (t : ity) (v : Z) : Z :=
  if negb (sgn t) then 0
  else if const then (if negb (NegateWrapper t v =? lo t) then NegateWrapper t v else hi t)
  else match builtin t (0 - v) with Some r => r | None => hi t end.
(** 49-62 SaturatedAbsWrapper; IsValueNegative<T> converts its argument to T. *)
Definition SaturatedAbs (t : ity) (v : Z) : Z :=
  let a := SafeUnsignedAbs t v in cast t (a - (if IsValueNegative t (cast t a) then 1 else 0)).
(** 71-95 ClampedAddOp, 97-122 ClampedSubOp, 124-147 ClampedMulOp. *)
Definition ClampedAddOp (t u v : ity) (x y : Z) : Z :=
  match CheckedAddOp t u v x y with Some r => r | None => CommonMaxOrMin v v (IsValueNegative u y) end.
Definition ClampedSubOp (t u v : ity) (x y : Z) : Z :=
  match CheckedSubOp t u v x y with Some r => r | None => CommonMaxOrMin v v (negb (IsValueNegative u y)) end.
Definition ClampedMulOp (t u v : ity) (x y : Z) : Z :=
  match CheckedMulOp t u v x y with Some r => r | None => CommonMaxOrMin v v (xorb (IsValueNegative t x) (IsValueNegative u y)) end.
(** 81-84, 107-110: the static_assert of addition and subtraction. *)
Definition add_compiles (t u v : ity) : bool := ity_eqb v (MaxExpP t u) || TypeInRange u v.
(** 149-167 ClampedDivOp. *)
Definition ClampedDivOp (t u v : ity) (x y : Z) : outcome Z :=
  obind (CheckedDivOp t u v x y) (fun r => Ok
  match r with
  | Some r => r
  | None => if negb (x =? 0) then CommonMaxOrMin v v (xorb (IsValueNegative t x) (IsValueNegative u y)) else 0
  end).
(** 169-185 ClampedModOp. *)
Definition ClampedModOp (t u v : ity) (x y : Z) : outcome Z :=
  obind (CheckedModOp t u v x y) (fun r => Ok (match r with Some r => r | None => cast v x end)).
(** 187-210 ClampedLshOp (u unsigned, the result type is t). *)
Definition ClampedLshOp (t u : ity) (x s : Z) : Z :=
  let sat := if negb (x =? 0) then CommonMaxOrMin t t (IsValueNegative t x) else 0 in
  if lt_ u (Ty true W32) s (digits t) then
    let r := cast t (cast (promote (uns t)) (Z.shiftl (cast (uns t) x) s)) in
    if eq_ (promote t) t (Z.shiftr r s) x then r else sat
  else sat.
(** 212-233 ClampedRshOp (u unsigned, the result type is t). *)
Definition ClampedRshOp (const : bool) (t u : ity) (x s : Z) : Z :=
  let saturated := cast t (0 - (if IsValueNegative t x then 1 else 0)) in
  if lt_ u (Ty true W32) s (bits t) then saturated_cast const t (promote t) (Z.shiftr x s) else saturated.
(** 282-318 ClampedMaxOp, ClampedMinOp. *)
Definition ClampedMaxOp (const : bool) (t u v : ity) (x y : Z) : Z :=
  if IsGreater t u x y then saturated_cast const v t x else saturated_cast const v u y.
Definition ClampedMinOp (const : bool) (t u v : ity) (x y : Z) : Z :=
  if IsLess t u x y then saturated_cast const v t x else saturated_cast const v u y.
(** clamped_math.h: ClampedNumeric<T> is its value; conversion (31-45, 160-164) is saturated_cast. *)
