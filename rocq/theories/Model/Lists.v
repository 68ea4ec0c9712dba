(** Intrusive lists: base/queue/linked_list.h and base/queue/double_linked_list.h, at the level of their pointers.

    Nodes and sentinels are addresses (natural numbers); NULL is [None]; a heap gives every node its two pointers (and the
    holder, for the second list). Reading or writing through NULL is [UB]. Single-threaded, as the code is. *)
From Verif.Model Require Import Common.
Open Scope Z_scope.

Definition addr := nat.
Definition upd {A} (f : addr -> A) (a : addr) (x : A) : addr -> A := fun b => if Nat.eqb b a then x else f b.

(** ** LinkedList<T>: circular, through the list's own root node *)
(** linked_list.h:89-90 (pre_, next_); an unattached node has both NULL (:30). [l_size r]: size_ of the list with root [r] (:131). *)
Record heap := mkHeap { l_pre : addr -> option addr; l_next : addr -> option addr; l_size : addr -> Z }.
Definition set_pre (h : heap) a x := mkHeap (upd (l_pre h) a x) (l_next h) (l_size h).
Definition set_next (h : heap) a x := mkHeap (l_pre h) (upd (l_next h) a x) (l_size h).
Definition set_size (h : heap) r n := mkHeap (l_pre h) (l_next h) (upd (l_size h) r n).

(** A pointer that must not be NULL. *)
Definition deref {B} (p : option addr) (f : addr -> outcome B) : outcome B := match p with Some a => f a | None => UB end.
(** size_t arithmetic *)
Definition size_t (n : Z) : Z := n mod 2 ^ 64.

(** linked_list.h:97 *)
Definition new_list (r : addr) (h : heap) : heap := set_size (set_next (set_pre h r (Some r)) r (Some r)) r 0.

(** linked_list.h:55-60 *)
Definition insert_before (n e : addr) (h : heap) : outcome heap :=
  let h := set_next h n (Some e) in
  let h := set_pre h n (l_pre h e) in
  deref (l_pre h e) (fun p =>
  let h := set_next h p (Some n) in
  Ok (set_pre h e (Some n))).

(** linked_list.h:71-78 *)
Definition remove_from_list (n : addr) (h : heap) : outcome heap :=
  deref (l_pre h n) (fun p =>
  let h := set_next h p (l_next h n) in
  deref (l_next h n) (fun x =>
  let h := set_pre h x (l_pre h n) in
  Ok (set_pre (set_next h n None) n None))).

(** linked_list.h:100-103 *)
Definition append (r e : addr) (h : heap) : outcome heap :=
  insert_before e r (set_size h r (size_t (l_size h r + 1))).
(** linked_list.h:105-108 *)
Definition remove (r e : addr) (h : heap) : outcome heap :=
  remove_from_list e (set_size h r (size_t (l_size h r - 1))).
(** linked_list.h:120 *)
Definition empty (r : addr) (h : heap) : bool := match l_next h r with Some a => Nat.eqb a r | None => false end.
(** linked_list.h:110 *)
Definition first (r : addr) (h : heap) : outcome (option addr) := if empty r h then Ok None else deref (l_next h r) (fun a => Ok (Some a)).
(** linked_list.h:112-118: size_ is left alone *)
Definition pop_and_remove (r : addr) (h : heap) : outcome (heap * option addr) :=
  obind (first r h) (fun o => match o with
  | None => Ok (h, None)
  | Some e => obind (remove_from_list e h) (fun h => Ok (h, Some e))
  end).
(** linked_list.h:50 *)
Definition attached (h : heap) (e : addr) : bool :=
  match l_pre h e, l_next h e with Some _, Some _ => true | _, _ => false end.
(** linked_list.h:35-48: [n] is the new node, [o] the one moved from *)
Definition move_node (n o : addr) (h : heap) : outcome heap :=
  let h := set_next h n (l_next h o) in
  let h := set_next h o None in
  let h := set_pre h n (l_pre h o) in
  let h := set_pre h o None in
  match l_next h n with
  | None => Ok h
  | Some x => let h := set_pre h x (Some n) in
              deref (l_pre h n) (fun p => Ok (set_next h p (Some n)))
  end.

(** ** DoubleLinkedList<T>: between two sentinels, nodes know their list *)
(** double_linked_list.h:37-41; [d_hold]: holder_ *)
Record dheap := mkDH { d_pre : addr -> option addr; d_next : addr -> option addr; d_hold : addr -> option nat; d_size : nat -> Z }.
Definition dset_pre (h : dheap) a x := mkDH (upd (d_pre h) a x) (d_next h) (d_hold h) (d_size h).
Definition dset_next (h : dheap) a x := mkDH (d_pre h) (upd (d_next h) a x) (d_hold h) (d_size h).
Definition dset_hold (h : dheap) a x := mkDH (d_pre h) (d_next h) (upd (d_hold h) a x) (d_size h).
Definition dset_size (h : dheap) l n := mkDH (d_pre h) (d_next h) (d_hold h) (upd (d_size h) l n).

(** A list: its own identity and its two sentinels (double_linked_list.h:123-125). *)
Record dlist := mkDL { dl_id : nat; dl_head : addr; dl_tail : addr }.

(** double_linked_list.h:46-54 *)
Definition dnew (l : dlist) (h : dheap) : dheap :=
  let h := dset_pre (dset_next h (dl_head l) None) (dl_tail l) None in
  let h := dset_hold (dset_hold h (dl_head l) None) (dl_tail l) None in
  let h := dset_pre h (dl_tail l) (Some (dl_head l)) in
  let h := dset_next h (dl_head l) (Some (dl_tail l)) in
  dset_size (dset_next (dset_pre h (dl_head l) None) (dl_tail l) None) (dl_id l) 0.

(** double_linked_list.h:68-70 *)
Definition dattached (l : dlist) (n : addr) (h : dheap) : bool :=
  match d_hold h n with Some i => Nat.eqb i (dl_id l) | None => false end.

(** double_linked_list.h:72-83; [None]: a NULL argument *)
Definition push_back (l : dlist) (n : option addr) (h : dheap) : outcome (dheap * bool) :=
  match n with
  | None => Ok (h, false)
  | Some n =>
    if dattached l n h then Ok (h, false) else
    deref (d_pre h (dl_tail l)) (fun p =>
    let h := dset_next h p (Some n) in
    let h := dset_pre h n (d_pre h (dl_tail l)) in
    let h := dset_pre h (dl_tail l) (Some n) in
    let h := dset_next h n (Some (dl_tail l)) in
    let h := dset_hold h n (Some (dl_id l)) in
    Ok (dset_size h (dl_id l) (size_t (d_size h (dl_id l) + 1)), true))
  end.
(** double_linked_list.h:102-113 *)
Definition push_front (l : dlist) (n : option addr) (h : dheap) : outcome (dheap * bool) :=
  match n with
  | None => Ok (h, false)
  | Some n =>
    if dattached l n h then Ok (h, false) else
    deref (d_next h (dl_head l)) (fun x =>
    let h := dset_pre h x (Some n) in
    let h := dset_next h n (d_next h (dl_head l)) in
    let h := dset_next h (dl_head l) (Some n) in
    let h := dset_pre h n (Some (dl_head l)) in
    let h := dset_hold h n (Some (dl_id l)) in
    Ok (dset_size h (dl_id l) (size_t (d_size h (dl_id l) + 1)), true))
  end.
(** double_linked_list.h:89-100 *)
Definition dremove (l : dlist) (n : option addr) (h : dheap) : outcome (dheap * bool) :=
  if d_size h (dl_id l) <=? 0 then Ok (h, false) else
  deref n (fun n =>
  if negb (dattached l n h) then Ok (h, false) else
  deref (d_pre h n) (fun p =>
  let h := dset_next h p (d_next h n) in
  deref (d_next h n) (fun x =>
  let h := dset_pre h x (d_pre h n) in
  let h := dset_hold (dset_next (dset_pre h n None) n None) n None in
  Ok (dset_size h (dl_id l) (size_t (d_size h (dl_id l) - 1)), true)))).
(** double_linked_list.h:85-87 *)
Definition dback (l : dlist) (h : dheap) : option addr := if 0 <? d_size h (dl_id l) then d_pre h (dl_tail l) else None.
Definition dfront (l : dlist) (h : dheap) : option addr := if 0 <? d_size h (dl_id l) then d_next h (dl_head l) else None.

(** double_linked_list.h:56-64: at most [fuel] iterations are followed; [None]: more than that. *)
Fixpoint ddestroy_loop (fuel : nat) (l : dlist) (node : option addr) (h : dheap) : option (outcome dheap) :=
  if match node with Some n => Nat.eqb n (dl_tail l) | None => false end then Some (Ok h) else
  match fuel with
  | O => None
  | S f =>
    match dremove l node h with
    | Ok (h, _) => match node with
                   | Some n => ddestroy_loop f l (d_next h n) h     (* node = node->next_ *)
                   | None => Some UB
                   end
    | UB => Some UB
    | CheckFail => Some CheckFail
    end
  end.
Definition ddestroy (fuel : nat) (l : dlist) (h : dheap) : option (outcome dheap) := ddestroy_loop fuel l (d_next h (dl_head l)) h.
