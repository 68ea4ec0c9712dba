(** What the numeric templates promise, in terms of unbounded integers. *)
From Verif.Model Require Import Common Numerics.
Local Open Scope Z_scope.

(** [z] is a value of the type. *)
Definition fits (t : ity) (z : Z) : Prop := lo t <= z <= hi t.
(** The value of the type nearest to [z]. *)
Definition clampZ (t : ity) (z : Z) : Z := Z.max (lo t) (Z.min (hi t) z).

(** Expressions on checked numbers: plain values, the binary operators, the assigning operators (whose result has the
    type of the left operand), conversions, Abs and UnsignedAbs. *)
Inductive binop : Set := Add | Sub | Mul | Div.
Inductive expr : Set :=
| ENum (t : ity) (z : Z)
| EBin (o : binop) (a b : expr)
| EAsg (o : binop) (a b : expr)
| ECast (t : ity) (a : expr)
| EAbs (a : expr)
| EUAbs (a : expr).
(** The static type of an expression. *)
Fixpoint type_of (e : expr) : ity :=
  match e with
  | ENum t _ => t
  | EBin _ a b => MaxExpP (type_of a) (type_of b)
  | EAsg _ a _ => type_of a
  | ECast t _ => t
  | EAbs a => type_of a
  | EUAbs a => uns (type_of a)
  end.
(** Its mathematical value, if there is one. *)
Definition mathop (o : binop) (x y : Z) : option Z :=
  match o with Add => Some (x + y) | Sub => Some (x - y) | Mul => Some (x * y) | Div => if y =? 0 then None else Some (Z.quot x y) end.
Fixpoint math (e : expr) : option Z :=
  match e with
  | ENum _ z => Some z
  | EBin o a b | EAsg o a b => match math a, math b with Some x, Some y => mathop o x y | _, _ => None end
  | ECast _ a => math a
  | EAbs a | EUAbs a => match math a with Some x => Some (Z.abs x) | None => None end
  end.
(** The program. *)
Definition doop (o : binop) (t u v : ity) (x y : Z) : outcome (option Z) :=
  match o with
  | Add => Ok (CheckedAddOp t u v x y) | Sub => Ok (CheckedSubOp t u v x y) | Mul => Ok (CheckedMulOp t u v x y)
  | Div => CheckedDivOp t u v x y
  end.
Fixpoint run (e : expr) : outcome checked :=
  match e with
  | ENum t z => Ok (mk_state t t z true)
  | EBin o a b => obind (run a) (fun x => obind (run b) (fun y =>
      MathOp (type_of a) (type_of b) (MaxExpP (type_of a) (type_of b)) (doop o (type_of a) (type_of b) (MaxExpP (type_of a) (type_of b))) x y))
  | EAsg o a b => obind (run a) (fun x => obind (run b) (fun y =>
      MathOp (type_of a) (type_of b) (type_of a) (doop o (type_of a) (type_of b) (type_of a)) x y))
  | ECast t a => obind (run a) (fun x => Ok (CheckedCast t (type_of a) x))
  | EAbs a => obind (run a) (fun x => Ok (CheckedAbs (type_of a) x))
  | EUAbs a => obind (run a) (fun x => Ok (CheckedUnsignedAbs (type_of a) x))
  end.
(** The literals of an expression are values of their types. *)
Fixpoint well_typed (e : expr) : Prop :=
  match e with
  | ENum t z => fits t z
  | EBin _ a b | EAsg _ a b => well_typed a /\ well_typed b
  | ECast _ a | EAbs a | EUAbs a => well_typed a
  end.
(** The value of every subexpression exists and fits into its type. *)
Fixpoint all_fit (e : expr) : Prop :=
  (exists z, math e = Some z /\ fits (type_of e) z) /\
  match e with
  | ENum _ _ => True
  | EBin _ a b | EAsg _ a b => all_fit a /\ all_fit b
  | ECast _ a | EAbs a | EUAbs a => all_fit a
  end.
(** Some 64-bit type holds both operands' types, or none is divided: no signed type is mixed with uint64_t in a division. *)
Fixpoint no_mixed_division (e : expr) : Prop :=
  match e with
  | ENum _ _ => True
  | EBin o a b | EAsg o a b => (o = Div -> sgn (type_of a) = sgn (type_of b) \/ (type_of a <> Ty false W64 /\ type_of b <> Ty false W64))
                               /\ no_mixed_division a /\ no_mixed_division b
  | ECast _ a | EAbs a | EUAbs a => no_mixed_division a
  end.
