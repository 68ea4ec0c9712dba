(** The lock-free free lists of base/lockfree: freelist.hpp (compare-and-swap with reference counts) and freelist_dcas.hpp (tagged head).

    Sequentially consistent interleaving: every atomic operation of the source is one step of one thread; the relaxed and
    acquire/release orders of the source are not modelled. Nodes are addresses that are never freed, as the comment at
    freelist.hpp:13 requires; NULL is [None]. *)
From Verif.Model Require Import Common.
Open Scope Z_scope.

Definition node := nat.
Definition tid := nat.
Definition fupd {A} (f : nat -> A) (a : nat) (x : A) : nat -> A := fun b => if Nat.eqb b a then x else f b.
Definition optn_eqb (a b : option node) : bool :=
  match a, b with Some x, Some y => Nat.eqb x y | None, None => true | _, _ => false end.

(** uint32_t *)
Definition u32 (x : Z) : Z := x mod 2 ^ 32.
(** freelist.hpp:100-101 *)
Definition FLAG : Z := 0x80000000.
Definition refs_mask (r : Z) : Z := Z.land r 0x7FFFFFFF.

(** What a thread does when add_knowing_refcount_is_zero returns: add() returns (freelist.hpp:25-27), or try_get goes on with the
    value its failed exchange left in [head] (:62-64, :31). *)
Inductive after := RAdd | RGet (hd : option node).

(** Where a thread is; each constructor is the next atomic operation. *)
Inductive pc :=
| Idle
| A0 (n : node)                                   (* freelist.hpp:22 fetch_add *)
| K0 (n : node) (r : after)                       (* :83 load head *)
| K1 (n : node) (hd : option node) (r : after)    (* :85 store next *)
| K2 (n : node) (hd : option node) (r : after)    (* :86 store refs 1 *)
| K3 (n : node) (hd : option node) (r : after)    (* :87 exchange head *)
| K4 (n : node) (hd : option node) (r : after)    (* :90 fetch_add *)
| G0                                              (* :30, :36 load head *)
| G1 (h : node)                                   (* :33 load refs *)
| G2 (h : node) (r : Z)                           (* :34 exchange refs *)
| G3 (h : node)                                   (* :43 load next *)
| G4 (h : node) (nx : option node)                (* :44 exchange head *)
| G5 (h : node)                                   (* :49 assert *)
| G5' (h : node)                                  (* :53 fetch_add -2 *)
| G6 (p : node) (hd : option node).               (* :60 fetch_add -1 *)

Record fl := mkFL { f_head : option node; f_refs : node -> Z; f_next : node -> option node; f_pc : tid -> pc }.
Definition set_pc (s : fl) (t : tid) (p : pc) : fl := mkFL (f_head s) (f_refs s) (f_next s) (fupd (f_pc s) t p).
Definition set_head (s : fl) (h : option node) : fl := mkFL h (f_refs s) (f_next s) (f_pc s).
Definition set_refs (s : fl) (n : node) (r : Z) : fl := mkFL (f_head s) (fupd (f_refs s) n (u32 r)) (f_next s) (f_pc s).
Definition set_nx (s : fl) (n : node) (x : option node) : fl := mkFL (f_head s) (f_refs s) (fupd (f_next s) n x) (f_pc s).

(** What the callers see: a call of add(n), a call of try_get(), their returns. *)
Inductive fev := EAdd (t : tid) (n : node) | EGet (t : tid) | EAdded (t : tid) | EGot (t : tid) (n : node) | ENull (t : tid).

(** freelist.hpp:6, :17 *)
Definition fl0 : fl := mkFL None (fun _ => 0) (fun _ => None) (fun _ => Idle).

(** freelist.hpp:31 and :66: the loop condition of try_get on the local [head]. *)
Definition loop (s : fl) (t : tid) (hd : option node) : fl * list fev :=
  match hd with Some h => (set_pc s t (G1 h), []) | None => (set_pc s t Idle, [ENull t]) end.
(** freelist.hpp:95 and the callers *)
Definition known_done (s : fl) (t : tid) (r : after) : fl * list fev :=
  match r with RAdd => (set_pc s t Idle, [EAdded t]) | RGet hd => loop s t hd end.

(** One atomic operation of thread [t]. *)
Definition fstep (s : fl) (t : tid) : option (outcome (fl * list fev)) :=
  match f_pc s t with
  | Idle => None
  | A0 n => (* :22-27 *)
      let old := f_refs s n in
      let s := set_refs s n (old + FLAG) in
      Some (Ok (if old =? 0 then (set_pc s t (K0 n RAdd), []) else (set_pc s t Idle, [EAdded t])))
  | K0 n r => Some (Ok (set_pc s t (K1 n (f_head s) r), []))
  | K1 n hd r => Some (Ok (set_pc (set_nx s n hd) t (K2 n hd r), []))
  | K2 n hd r => Some (Ok (set_pc (set_refs s n 1) t (K3 n hd r), []))
  | K3 n hd r => (* :87, :95 *)
      if optn_eqb (f_head s) hd then Some (Ok (known_done (set_head s (Some n)) t r))
      else Some (Ok (set_pc s t (K4 n (f_head s) r), []))
  | K4 n hd r => (* :90-95 *)
      let old := f_refs s n in
      let s := set_refs s n (old + (FLAG - 1)) in
      Some (Ok (if old =? 1 then (set_pc s t (K1 n hd r), []) else known_done s t r))
  | G0 => Some (Ok (loop s t (f_head s)))
  | G1 h => Some (Ok (set_pc s t (G2 h (f_refs s h)), []))
  | G2 h r => (* :34-38 *)
      if refs_mask r =? 0 then Some (Ok (set_pc s t G0, []))
      else if f_refs s h =? r then Some (Ok (set_pc (set_refs s h (r + 1)) t (G3 h), []))
      else Some (Ok (set_pc s t G0, []))
  | G3 h => Some (Ok (set_pc s t (G4 h (f_next s h)), []))
  | G4 h nx => (* :44 *)
      if optn_eqb (f_head s) (Some h) then Some (Ok (set_pc (set_head s nx) t (G5 h), []))
      else Some (Ok (set_pc s t (G6 h (f_head s)), []))
  | G5 h => (* :49-50 *)
      if Z.land (f_refs s h) FLAG =? 0 then Some (Ok (set_pc s t (G5' h), [])) else Some CheckFail
  | G5' h => (* :53-55 *)
      Some (Ok (set_pc (set_refs s h (f_refs s h - 2)) t Idle, [EGot t h]))
  | G6 p hd => (* :60-64 *)
      let old := f_refs s p in
      let s := set_refs s p (old - 1) in
      Some (Ok (if old =? FLAG + 1 then (set_pc s t (K0 p (RGet hd)), []) else loop s t hd))
  end.

(** A thread calls, or goes on. *)
Inductive fact := CallAdd (t : tid) (n : node) | CallGet (t : tid) | Go (t : tid).
Definition fact_step (s : fl) (a : fact) : option (outcome (fl * list fev)) :=
  match a with
  | CallAdd t n => match f_pc s t with Idle => Some (Ok (set_pc s t (A0 n), [EAdd t n])) | _ => None end
  | CallGet t => match f_pc s t with Idle => Some (Ok (set_pc s t G0, [EGet t])) | _ => None end
  | Go t => fstep s t
  end.

(** ** Tagged head *)
(** freelist_dcas.hpp:55-58; the tag is an integer of [w] bits. *)
Record headptr := mkHP { hp_ptr : option node; hp_tag : Z }.
Definition hp_eqb (a b : headptr) : bool := optn_eqb (hp_ptr a) (hp_ptr b) && (hp_tag a =? hp_tag b).
Definition bump (w : Z) (tag : Z) : Z := (tag + 1) mod 2 ^ w.

Inductive dpc :=
| DIdle
| DA0 (n : node)                                  (* freelist_dcas.hpp:25 load *)
| DA1 (n : node) (cur : headptr)                  (* :28-29 store next *)
| DA2 (n : node) (cur : headptr)                  (* :30 exchange *)
| DG0                                             (* :36 load *)
| DG1 (h : node) (cur : headptr)                  (* :39-40 load next; cur.ptr = h *)
| DG2 (h : node) (nx : option node) (cur : headptr).  (* :41 exchange *)

Record dfl := mkDF { df_head : headptr; df_next : node -> option node; df_pc : tid -> dpc }.
Definition dset_pc (s : dfl) (t : tid) (p : dpc) : dfl := mkDF (df_head s) (df_next s) (fupd (df_pc s) t p).
Definition dset_head (s : dfl) (h : headptr) : dfl := mkDF h (df_next s) (df_pc s).
Definition dset_nx (s : dfl) (n : node) (x : option node) : dfl := mkDF (df_head s) (fupd (df_next s) n x) (df_pc s).

(** freelist_dcas.hpp:11, :19-20 *)
Definition dfl0 : dfl := mkDF (mkHP None 0) (fun _ => None) (fun _ => DIdle).

(** freelist_dcas.hpp:38, :47 *)
Definition dloop (s : dfl) (t : tid) (cur : headptr) : dfl * list fev :=
  match hp_ptr cur with Some h => (dset_pc s t (DG1 h cur), []) | None => (dset_pc s t DIdle, [ENull t]) end.

(** One atomic operation of thread [t]; [spur]: the weak exchange fails although the values are equal (:30, :41). *)
Definition dstep (w : Z) (s : dfl) (t : tid) (spur : bool) : option (dfl * list fev) :=
  match df_pc s t with
  | DIdle => None
  | DA0 n => Some (dset_pc s t (DA1 n (df_head s)), [])
  | DA1 n cur => Some (dset_pc (dset_nx s n (hp_ptr cur)) t (DA2 n cur), [])
  | DA2 n cur =>
      if hp_eqb (df_head s) cur && negb spur
      then Some (dset_pc (dset_head s (mkHP (Some n) (bump w (hp_tag cur)))) t DIdle, [EAdded t])
      else Some (dset_pc s t (DA1 n (df_head s)), [])
  | DG0 => Some (dloop s t (df_head s))
  | DG1 h cur => Some (dset_pc s t (DG2 h (df_next s h) cur), [])
  | DG2 h nx cur =>
      if hp_eqb (df_head s) cur && negb spur
      then Some (dset_pc (dset_head s (mkHP nx (bump w (hp_tag cur)))) t DIdle, [EGot t h])
      else Some (dloop s t (df_head s))
  end.
Inductive dact := DCallAdd (t : tid) (n : node) | DCallGet (t : tid) | DGo (t : tid) (spur : bool).
Definition dact_step (w : Z) (s : dfl) (a : dact) : option (dfl * list fev) :=
  match a with
  | DCallAdd t n => match df_pc s t with DIdle => Some (dset_pc s t (DA0 n), [EAdd t n]) | _ => None end
  | DCallGet t => match df_pc s t with DIdle => Some (dset_pc s t DG0, [EGet t]) | _ => None end
  | DGo t spur => dstep w s t spur
  end.
