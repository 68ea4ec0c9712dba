(** Accumulator and AccumulatorCollector (components/utils/data_accumulator.h).

    T is any type with operator+= and a default value. Acc and SwapOut hold the shard's spin lock throughout, so each
    is one step (C69); the collector thread and the producers interleave arbitrarily. [running_] is a plain bool shared by two threads
    (formally a data race); it is taken as one that is read afresh in every round. *)
From Verif.Model Require Import Common.

Definition key := list Z.
Definition key_eq_dec : forall a b : key, {a = b} + {a <> b} := list_eq_dec Z.eq_dec.

Section Accumulator.
Variable T : Type.
Variable add : T -> T -> T.     (* operator+= *)
Variable dflt : T.              (* T() *)
Variable c : nat.               (* accumulators_.size() *)
Variable hash : nat -> nat.     (* hasher_(std::this_thread::get_id()) *)

(** std::unordered_map<std::string, T>: entries with distinct keys *)
Definition amap := list (key * T).
Fixpoint mfind (k : key) (m : amap) : option T :=
  match m with [] => None | (k', v) :: m => if key_eq_dec k' k then Some v else mfind k m end.
(** store [w] for an absent key, [f old] for a present one *)
Fixpoint mupd (k : key) (w : T) (f : T -> T) (m : amap) : amap :=
  match m with
  | [] => [(k, w)]
  | (k', v) :: m => if key_eq_dec k' k then (k', f v) :: m else (k', v) :: mupd k w f m
  end.

(** data_accumulator.h:37-46 *)
Definition acc (m : amap) (k : key) (v : T) : amap := mupd k v (fun old => add old v) m.
(** data_accumulator.h:125-127: all_data[k] += v creates T() first *)
Definition merge (all part : amap) : amap :=
  fold_left (fun all kv => mupd (fst kv) (add dflt (snd kv)) (fun old => add old (snd kv)) all) part all.

(** Where the collector thread is, data_accumulator.h:117-131 *)
Inductive apc :=
| ANone                        (* not started *)
| ATop                         (* before while (running_) *)
| ASleep                       (* in usleep *)
| ASweep (i : nat) (all : amap) (* about to swap out shard i; i = c: about to call the handler *)
| AExited.
(** thread_, data_accumulator.h:140: no constructor initialises it *)
Inductive athr := TUninit | TThread | TNull.
Record ast := mkA { shards : nat -> amap; apcs : apc; running : bool; thr : athr; hset : bool }.
Definition ainit : ast := mkA (fun _ => []) ANone false TUninit false.

Inductive aop :=
| OSetHandler | OStart
| OStop                         (* Stop(): up to the join *)
| OJoined                       (* Stop(): join returned, up to its end *)
| OCollect (t : nat) (k : key) (v : T)
| OMain                         (* the collector thread runs one step *)
| ODestroy.                     (* destructor; for a started collector up to Stop()'s join *)
Inductive aev := VWake | VHandled (m : amap) | VExit | VTau.

Definition set_pc s p := mkA (shards s) p (running s) (thr s) (hset s).
Definition set_shard s i m := fun j => if Nat.eqb j i then m else shards s j.

(** [None]: cannot happen in this state (the thread is not there, or join still waits). *)
Definition astep (s : ast) (x : aop) : option (outcome (ast * aev)) :=
  match x with
  | OSetHandler => (* :95 *) Some (Ok (mkA (shards s) (apcs s) (running s) (thr s) true, VTau))
  | OStart => (* :97-100; called only when not started or after Stop() *)
      match thr s with
      | TThread => None
      | _ => Some (Ok (mkA (shards s) ATop true TThread (hset s), VTau))
      end
  | OStop => (* :103-104 *)
      match thr s with
      | TUninit => Some UB
      | _ => Some (Ok (mkA (shards s) (apcs s) false (thr s) (hset s), VTau))
      end
  | OJoined => (* :105-108 *)
      match thr s, apcs s with
      | TThread, AExited => if running s then None else Some (Ok (mkA (shards s) AExited false TNull (hset s), VTau))
      | _, _ => None
      end
  | OCollect t k v => (* :111-114, 133-136 *)
      if Nat.eqb c 0 then Some UB
      else let i := Nat.modulo (hash t) c in
           Some (Ok (mkA (set_shard s i (acc (shards s i) k v)) (apcs s) (running s) (thr s) (hset s), VTau))
  | OMain =>
      match apcs s with
      | ATop => (* :118 *) Some (Ok (if running s then (set_pc s ASleep, VTau) else (set_pc s AExited, VExit)))
      | ASleep => (* :119-120 *) Some (Ok (set_pc s (ASweep 0 []), VWake))
      | ASweep i all =>
          if Nat.ltb i c
          then (* :122-128, SwapOut :48-54 *)
            Some (Ok (mkA (set_shard s i []) (ASweep (S i) (merge all (shards s i))) (running s) (thr s) (hset s), VTau))
          else (* :129 *)
            if hset s then Some (Ok (set_pc s ATop, VHandled all)) else Some CheckFail
      | _ => None
      end
  | ODestroy => (* :71-79 *)
      match thr s with
      | TUninit => Some UB
      | TThread => Some (Ok (mkA (shards s) (apcs s) false TThread (hset s), VTau))
      | TNull => Some (Ok (s, VTau))
      end
  end.
End Accumulator.
