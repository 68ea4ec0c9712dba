(** base/memory/scoped_ref_ptr.h, refcountedobject.h: intrusive reference counting; defer.h, scoped_guard.h: cleanup objects. *)
From Verif.Model Require Import Common.

(** An object: its count, and whether it was deleted (and how often). *)
Record obj := Obj { count : nat; deleted : nat }.
(** The objects made so far and the smart pointers; a pointer that is not constructed, or null, is None. [raw]: references given
    away by release(). *)
Record mem := Mem { objs : list obj; ptrs : list (option nat); raw : list nat }.
Fixpoint set {A} (l : list A) (i : nat) (x : A) : list A :=
  match l, i with [] , _ => [] | _ :: l, O => x :: l | y :: l, S i => y :: set l i x end.
Definition ptr (m : mem) (h : nat) : option nat := nth h (ptrs m) None.
Definition set_ptr (m : mem) (h : nat) (p : option nat) : mem := Mem (objs m) (set (ptrs m) h p) (raw m).
(** refcountedobject.h:39. *)
Definition AddRef (m : mem) (p : option nat) : outcome mem :=
  match p with
  | None => Ok m
  | Some o => match nth_error (objs m) o with
      | Some (Obj c 0) => Ok (Mem (set (objs m) o (Obj (S c) 0)) (ptrs m) (raw m))
      | _ => UB
      end
  end.
(** refcountedobject.h:41-47: the count after decrement is compared with 0; the count of a live object with references is positive. *)
Definition Release (m : mem) (p : option nat) : outcome mem :=
  match p with
  | None => Ok m
  | Some o => match nth_error (objs m) o with
      | Some (Obj (S c) 0) => Ok (Mem (set (objs m) o (Obj c (if Nat.eqb c 0 then 1 else 0))) (ptrs m) (raw m))
      | _ => UB
      end
  end.
(** What a program does with smart pointers; [h], [g]: which pointer variable. *)
Inductive op :=
| ONew                       (* new RefCountedObject<T>(): count 0, refcountedobject.h:55 *)
| OCtor (h : nat) (p : option nat)     (* 61-64 scoped_refptr(T* ) *)
| OCopy (h g : nat)          (* 66-75 copy constructors *)
| OMove (h g : nat)          (* 78-81 move constructors *)
| ODtor (h : nat)            (* 83-86 *)
| OAssign (h : nat) (p : option nat)   (* 103-111 operator=(T* ) *)
| OAssignCopy (h g : nat)    (* 113-120 *)
| OAssignMove (h g : nat)    (* 122-131: the temporary takes g's pointer, swaps with h, is destroyed *)
| OSwap (h g : nat)          (* 133-139 *)
| ORelease (h : nat).        (* 97-101 release(): the caller owns the reference *)
Definition assign (m : mem) (h : nat) (p : option nat) : outcome mem :=
  obind (AddRef m p) (fun m => obind (Release m (ptr m h)) (fun m => Ok (set_ptr m h p))).
Definition step (m : mem) (o : op) : outcome mem :=
  match o with
  | ONew => Ok (Mem (objs m ++ [Obj 0 0]) (ptrs m) (raw m))
  | OCtor h p => obind (AddRef m p) (fun m => Ok (set_ptr m h p))
  | OCopy h g => obind (AddRef m (ptr m g)) (fun m => Ok (set_ptr m h (ptr m g)))
  | OMove h g => let p := ptr m g in Ok (set_ptr (set_ptr m g None) h p)
  | ODtor h => obind (Release m (ptr m h)) (fun m => Ok (set_ptr m h None))
  | OAssign h p => assign m h p
  | OAssignCopy h g => assign m h (ptr m g)
  | OAssignMove h g =>
      let p := ptr m g in let m := set_ptr m g None in
      let tmp := ptr m h in obind (Release (set_ptr m h p) tmp) (fun m => Ok m)
  | OSwap h g => let p := ptr m h in let p' := ptr m g in Ok (set_ptr (set_ptr m h p') g p)
  | ORelease h => Ok (Mem (objs m) (set (ptrs m) h None) (match ptr m h with Some o => o :: raw m | None => raw m end))
  end.
Fixpoint run (m : mem) (os : list op) : outcome mem :=
  match os with [] => Ok m | o :: os => obind (step m o) (fun m => run m os) end.

(** defer.h: a cleanup object is its function, None after the move that emptied the std::function (unspecified but empty in
    libstdc++ and libc++). Objects made by MakeDefer are never cancelled. Calling an empty std::function throws out of a
    noexcept destructor: std::terminate. *)
Record defer := Defer { fn : option nat; cancel : bool }.
(** defer.h:11-12, 23-25, 46-54. *)
Definition MakeDefer (f : nat) : defer := Defer (Some f) false.
(** defer.h:13, 27: the moved-to object and what is left. *)
Definition move_defer (d : defer) : defer * defer := (Defer (fn d) false, Defer None (cancel d)).
(** defer.h:35. *)
Definition Cancel (d : defer) : defer := Defer (fn d) true.
(** defer.h:14, 29-33: the functions called. *)
Definition end_defer (d : defer) : outcome (list nat) :=
  if cancel d then Ok [] else match fn d with Some f => Ok [f] | None => CheckFail end.
(** scoped_guard.h:25-38: copyable; runs unless dismissed. *)
Record guard := Guard { g_fn : option nat; dismissed : bool }.
Definition DisMiss (g : guard) : guard := Guard (g_fn g) true.
Definition end_guard (g : guard) : list nat := if dismissed g then [] else match g_fn g with Some f => [f] | None => [] end.
