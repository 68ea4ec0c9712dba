(** net_io/common/load_balance/{maglev2.cc,consistent_hash_map.h} and
    net_io/clients/router/{maglev,ringhash,roundrobin}_router.cc.

    The MurmurHash functions are parameters. *)
From Coq Require Import List Arith ZArith Bool.
From Verif.Model Require Import Common.
Import ListNotations.
Local Open Scope Z_scope.

Definition w32 (x : Z) : Z := x mod 2 ^ 32.   (* uint32_t arithmetic *)

(** * Maglev, maglev2.cc *)

(** maglev2.h:47-51 *)
Record endpoint := mkep { ep_num : Z; ep_weight : Z; ep_hash : Z }.

(** Per endpoint: its number and weight, its (offset, skip) pair in [permutation]
    and its entries of [next] and [cum_weight], maglev2.cc:81-88. *)
Record epst := mkes { es_num : Z; es_weight : Z; es_off : Z; es_skip : Z; es_next : Z; es_cum : Z }.

(** maglev2.cc:33-55 with the 128 bit hash [(h0, h1)] of the endpoint *)
Definition gen_permutation (hash : Z -> Z * Z) (ring : Z) (e : endpoint) : epst :=
  let (h0, h1) := hash (ep_hash e) in
  mkes (ep_num e) (ep_weight e) (h0 mod ring) (h1 mod (ring - 1) + 1) 0 0.

(** maglev2.cc:97,100: all operands are uint32_t, so the product and the sum wrap *)
Definition cur_of (ring off skip next : Z) : Z := w32 (off + w32 (next * skip)) mod ring.

(** [result[cur]] *)
Definition slot (res : list Z) (i : Z) : Z := nth (Z.to_nat i) res (-1).
Fixpoint put (n : nat) (v : Z) (l : list Z) : list Z :=
  match l, n with
  | [], _ => []
  | _ :: l', O => v :: l'
  | x :: l', S n' => x :: put n' v l'
  end.

(** maglev2.cc:97-101: the while loop; [None] when [fuel] runs out *)
Fixpoint probe (fuel : nat) (ring off skip next : Z) (res : list Z) : option (Z * Z) :=
  match fuel with
  | O => None
  | S f =>
      let cur := cur_of ring off skip next in
      if 0 <=? slot res cur then probe f ring off skip (w32 (next + 1)) res
      else Some (next, cur)
  end.

(** One pass of the inner for loop, maglev2.cc:91-109; the last component says
    that [runs] reached [ring_size] (return at line 106). *)
Fixpoint pass (fuel : nat) (ring maxw : Z) (es : list epst) (res : list Z) (runs : Z)
  : option (list epst * list Z * Z * bool) :=
  match es with
  | [] => Some ([], res, runs, false)
  | e :: es' =>
      let cum := w32 (es_cum e + es_weight e) in                      (* line 92 *)
      if maxw <=? cum then                                            (* line 93 *)
        match probe fuel ring (es_off e) (es_skip e) (es_next e) res with
        | None => None
        | Some (n, cur) =>
            let res' := put (Z.to_nat cur) (es_num e) res in          (* line 102 *)
            let e' := mkes (es_num e) (es_weight e) (es_off e) (es_skip e) (w32 (n + 1)) (cum - maxw) in
            let runs' := runs + 1 in
            if runs' =? ring then Some (e' :: es', res', runs', true)  (* lines 105-107 *)
            else match pass fuel ring maxw es' res' runs' with
                 | None => None
                 | Some (es2, res2, runs2, b) => Some (e' :: es2, res2, runs2, b)
                 end
        end
      else
        let e' := mkes (es_num e) (es_weight e) (es_off e) (es_skip e) (es_next e) cum in
        match pass fuel ring maxw es' res runs with
        | None => None
        | Some (es2, res2, runs2, b) => Some (e' :: es2, res2, runs2, b)
        end
  end.

(** maglev2.cc:90-110 *)
Fixpoint passes (n fuel : nat) (ring maxw : Z) (es : list epst) (res : list Z) (runs : Z) : option (list Z) :=
  match n with
  | O => None
  | S n' =>
      match pass fuel ring maxw es res runs with
      | None => None
      | Some (_, res', _, true) => Some res'
      | Some (es', res', runs', false) => passes n' fuel ring maxw es' res' runs'
      end
  end.

(** maglev2.cc:71-76 *)
Definition max_weight (eps : list endpoint) : Z := fold_left (fun m e => if m <? ep_weight e then ep_weight e else m) eps 0.

(** MaglevV2::GenerateHashRing, maglev2.cc:63-114; [None]: does not return within the given number
    of loop rounds *)
Definition gen_ring (fuel : nat) (hash : Z -> Z * Z) (eps : list endpoint) (ring : Z) : option (list Z) :=
  match eps with
  | [] => Some (repeat (-1) (Z.to_nat ring))
  | [e] => Some (repeat (ep_num e) (Z.to_nat ring))
  | _ => passes fuel fuel ring (max_weight eps) (map (gen_permutation hash ring) eps)
                (repeat (-1) (Z.to_nat ring)) 0
  end.

(** MaglevRouter::StartRouter and GetNextClient, maglev_router.cc:32-55.  Clients are numbered in the
    order of AddClient; [addr_hash i] is the hash of client [i]'s address, [kh] that of the key. *)
Definition router_endpoints (addr_hash : nat -> Z) (n : nat) : list endpoint :=
  map (fun i => mkep (Z.of_nat i) (Z.of_nat n) (addr_hash i)) (seq 0 n).
Definition maglev_lookup (tab : list Z) (n : nat) (kh : Z) : outcome (option nat) :=
  if (n =? 0)%nat then Ok None
  else if (length tab =? 0)%nat then UB                                 (* % 0, line 52 *)
  else let idx := w32 (slot tab (kh mod Z.of_nat (length tab))) in
       Ok (if idx <? Z.of_nat n then Some (Z.to_nat idx) else None).    (* line 54 *)

(** * Consistent hash ring, consistent_hash_map.h.  The std::map is kept as a list of
    (hash, node) sorted by hash. *)
Section Ring.
Context {T : Type} (hasher : T -> Z).
Definition ring_map := list (Z * T).

(** std::map::insert keeps an existing element, consistent_hash_map.h:54-57 *)
Fixpoint map_insert (h : Z) (v : T) (m : ring_map) : ring_map :=
  match m with
  | [] => [(h, v)]
  | (h', v') :: m' =>
      if h <? h' then (h, v) :: m
      else if h =? h' then m
      else (h', v') :: map_insert h v m'
  end.
Definition ring_insert (v : T) (m : ring_map) : ring_map := map_insert (hasher v) v m.
(** consistent_hash_map.h:61-64 *)
Definition ring_erase (v : T) (m : ring_map) : ring_map := filter (fun p => negb (fst p =? hasher v)) m.
(** lower_bound and wrap-around, consistent_hash_map.h:66-76 *)
Fixpoint lower_bound (h : Z) (m : ring_map) : option (Z * T) :=
  match m with
  | [] => None
  | (h', v') :: m' => if h <=? h' then Some (h', v') else lower_bound h m'
  end.
Definition ring_find (h : Z) (m : ring_map) : option (Z * T) :=
  match m with
  | [] => None
  | p :: _ => match lower_bound h m with Some q => Some q | None => Some p end
  end.
End Ring.

(** RingHashRouter, ringhash_router.cc:23-54: a node is (client, vnode id). *)
Definition add_client (hasher : nat * nat -> Z) (vnodes : nat) (c : nat) (m : ring_map) : ring_map :=
  fold_left (fun m i => ring_insert hasher (c, i) m) (seq 0 vnodes) m.
Definition ring_lookup (kh : Z) (m : @ring_map (nat * nat)) : option nat :=
  match ring_find kh m with Some (_, (c, _)) => Some c | None => None end.

(** * Round robin, roundrobin_router.cc:27-31: the counter is an atomic uint32_t. *)
Definition rr_pick (counter : Z) (n : nat) : outcome (Z * nat) :=
  if (n =? 0)%nat then UB                                 (* % 0 *)
  else Ok (w32 (counter + 1), Z.to_nat (counter mod Z.of_nat n)).
Fixpoint rr_picks (k : nat) (counter : Z) (n : nat) : outcome (Z * list nat) :=
  match k with
  | O => Ok (counter, [])
  | S k' => obind (rr_pick counter n) (fun p =>
            obind (rr_picks k' (fst p) n) (fun q => Ok (fst q, snd p :: snd q)))
  end.
