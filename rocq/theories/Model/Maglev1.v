(** net_io/common/load_balance/maglev.cc, the first version of the Maglev table (in the library, used by none of its routers). The 128-bit hash is a parameter. *)
From Coq Require Import List Arith ZArith Bool.
From Verif.Model Require Import Common LoadBalance.
Import ListNotations.
Local Open Scope Z_scope.

(** maglev.cc:70-83, the loop over j for one endpoint: takes up to [j] slots; the flag says that the table is full. es_cum is not used.
    The numbers stored are ints: model for numbers below 2^31. maglev.cc:71-76 is [probe] (the same code as in maglev2.cc). *)
Fixpoint give (fuel j : nat) (ring : Z) (e : epst) (res : list Z) (runs : Z) : option (epst * list Z * Z * bool) :=
  match j with
  | O => Some (e, res, runs, false)
  | S j =>
      match probe fuel ring (es_off e) (es_skip e) (es_next e) res with
      | None => None
      | Some (n, cur) =>
          let res := put (Z.to_nat cur) (es_num e) res in                                                    (* line 77 *)
          let e := mkes (es_num e) (es_weight e) (es_off e) (es_skip e) (w32 (n + 1)) (es_cum e) in       (* line 78 *)
          if runs + 1 =? ring then Some (e, res, runs + 1, true) else give fuel j ring e res (runs + 1)      (* lines 79-82 *)
      end
  end.
(** maglev.cc:84: the weight counts once. *)
Definition spent (e : epst) : epst := mkes (es_num e) 1 (es_off e) (es_skip e) (es_next e) (es_cum e).
(** maglev.cc:66-85: one round over the endpoints. *)
Fixpoint round (fuel : nat) (ring : Z) (es : list epst) (res : list Z) (runs : Z) : option (list epst * list Z * Z * bool) :=
  match es with
  | [] => Some ([], res, runs, false)
  | e :: es =>
      match give fuel (Z.to_nat (es_weight e)) ring e res runs with
      | None => None
      | Some (e, res, runs, true) => Some (e :: es, res, runs, true)
      | Some (e, res, runs, false) =>
          match round fuel ring es res runs with
          | None => None
          | Some (es, res, runs, b) => Some (spent e :: es, res, runs, b)
          end
      end
  end.
(** maglev.cc:65-86 *)
Fixpoint rounds (n fuel : nat) (ring : Z) (es : list epst) (res : list Z) (runs : Z) : option (list Z) :=
  match n with
  | O => None
  | S n => match round fuel ring es res runs with None => None | Some (_, res, _, true) => Some res | Some (es, res, runs, false) => rounds n fuel ring es res runs end
  end.
(** maglev.cc:45-88 GenerateMaglevHash; genMaglevPermuation 26-43 is [gen_permutation] (the same formulas as in maglev2.cc). *)
Definition gen_hash (fuel : nat) (hash : Z -> Z * Z) (eps : list endpoint) (ring : Z) : option (list Z) :=
  match eps with
  | [] => Some (repeat (-1) (Z.to_nat ring))
  | [e] => Some (repeat (ep_num e) (Z.to_nat ring))
  | _ => rounds fuel fuel ring (map (gen_permutation hash ring) eps) (repeat (-1) (Z.to_nat ring)) 0
  end.
