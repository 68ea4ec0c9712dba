(** Histories of an AccumulatorCollector and what a user reads off them. *)
From Coq Require Export Permutation.
From Verif.Model Require Import Common Accumulator.

Section AccSpec.
Variable T : Type.
Variable add : T -> T -> T.
Variable dflt : T.
Variable c : nat.
Variable hash : nat -> nat.

Definition alog := list (aop T * aev T).
Inductive ahist : alog -> ast T -> Prop :=
| ah_nil : ahist [] (ainit T)
| ah_snoc h s x s' e : ahist h s -> astep T add dflt c hash s x = Some (Ok (s', e)) -> ahist (h ++ [(x, e)]) s'.

(** The data items handed to Collect, in order. *)
Definition collect1 (x : aop T * aev T) : list (key * T) := match fst x with OCollect _ _ k v => [(k, v)] | _ => [] end.
Definition collects (h : alog) : list (key * T) := flat_map collect1 h.
(** Those since the collector thread last woke up. *)
Definition since_step (l : list (key * T)) (x : aop T * aev T) : list (key * T) :=
  match snd x with VWake _ => [] | _ => l ++ collect1 x end.
Definition since (h : alog) : list (key * T) := fold_left since_step h [].
(** The maps passed to the handler, in order. *)
Definition handled (h : alog) : list (amap T) := flat_map (fun x => match snd x with VHandled _ m => [m] | _ => [] end) h.

(** The values of key [k] among [l], and their sum. *)
Definition vals (k : key) (l : list (key * T)) : list T :=
  map snd (filter (fun kv => if key_eq_dec (fst kv) k then true else false) l).
Definition total (l : list T) : T := fold_right add dflt l.
(** Map [m] is the per-key sum of the items [l]: no other keys, each key once. *)
Definition sums_up (l : list (key * T)) (m : amap T) : Prop :=
  NoDup (map fst m) /\
  forall k, mfind T k m = match vals k l with [] => None | vs => Some (total vs) end.

(** += is commutative and associative and T() is its unit. *)
Definition summable : Prop :=
  (forall a b, add a b = add b a) /\ (forall a b d, add a (add b d) = add (add a b) d) /\ forall a, add dflt a = a.
End AccSpec.

(** The collector was started and Stop() has not returned since. *)
Definition started_step {T} (b : bool) (x : aop T * aev T) : bool :=
  match fst x with OStart _ => true | OJoined _ => false | _ => b end.
Definition started {T} (h : list (aop T * aev T)) : bool := fold_left started_step h false.
