(** What the intrusive lists stand for: for every list, the sequence of its nodes. *)
From Verif.Model Require Import Common Lists.
Open Scope Z_scope.

(** [b] comes right after [a] in [l]. *)
Definition adj (a b : addr) (l : list addr) : Prop := exists l1 l2, l = l1 ++ a :: b :: l2.

(** ** The ring list. [roots]: the lists alive, [c r]: the nodes of the list with root [r], in order *)
Definition contents := addr -> list addr.
Definition on_list (roots : list addr) (c : contents) (a : addr) : Prop := exists r, In r roots /\ In a (r :: c r).
Record holds (h : heap) (roots : list addr) (c : contents) : Prop := {
  ho_nodup : forall r, In r roots -> NoDup (r :: c r);
  ho_disj : forall r r' a, In r roots -> In r' roots -> In a (r :: c r) -> In a (r' :: c r') -> r = r';
  ho_ring : forall r a b, In r roots -> adj a b (r :: c r ++ [r]) -> l_next h a = Some b /\ l_pre h b = Some a;
  ho_free : forall a, ~ on_list roots c a -> l_next h a = None /\ l_pre h a = None }.

(** Operations of a program on its lists, used as they must be: only unattached nodes are appended, only nodes of the list removed. *)
Inductive lop := LNew (r : addr) | LAppend (r e : addr) | LRemove (r e : addr) | LPop (r : addr) | LMove (n o : addr).
Definition allowed (roots : list addr) (c : contents) (o : lop) : Prop :=
  match o with
  | LNew r => ~ on_list roots c r
  | LAppend r e => In r roots /\ ~ on_list roots c e
  | LRemove r e => In r roots /\ In e (c r)
  | LPop r => In r roots
  | LMove n o => n <> o /\ ~ on_list roots c n /\ ~ In o roots
  end.
(** What each operation means. *)
Definition roots_after (roots : list addr) (o : lop) : list addr := match o with LNew r => r :: roots | _ => roots end.
Definition set_c (c : contents) (r : addr) (l : list addr) : contents := fun r' => if Nat.eqb r' r then l else c r'.
Definition contents_after (c : contents) (o : lop) : contents :=
  match o with
  | LNew r => set_c c r []
  | LAppend r e => set_c c r (c r ++ [e])
  | LRemove r e => set_c c r (filter (fun x => negb (Nat.eqb x e)) (c r))
  | LPop r => set_c c r (tl (c r))
  | LMove n o => fun r => map (fun x => if Nat.eqb x o then n else x) (c r)
  end.
(** What the code does. *)
Definition lrun (o : lop) (h : heap) : outcome heap :=
  match o with
  | LNew r => Ok (new_list r h)
  | LAppend r e => append r e h
  | LRemove r e => remove r e h
  | LPop r => obind (pop_and_remove r h) (fun '(h, _) => Ok h)
  | LMove n o => move_node n o h
  end.

Inductive lhist : list lop -> heap -> list addr -> contents -> Prop :=
| lh_nil : lhist [] (mkHeap (fun _ => None) (fun _ => None) (fun _ => 0%Z)) [] (fun _ => [])
| lh_snoc p h roots c o h' : lhist p h roots c -> allowed roots c o -> lrun o h = Ok h' ->
    lhist (p ++ [o]) h' (roots_after roots o) (contents_after c o).

(** ** Two sentinels. [ls]: the lists alive, [c i]: the nodes of the list with identity [i] *)
Definition sentinel (ls : list dlist) (a : addr) : Prop := exists l, In l ls /\ (a = dl_head l \/ a = dl_tail l).
Record dholds (h : dheap) (ls : list dlist) (c : nat -> list addr) : Prop := {
  dh_nodup : forall l, In l ls -> NoDup (dl_head l :: c (dl_id l) ++ [dl_tail l]);
  dh_disj : forall l l' a, In l ls -> In l' ls -> In a (dl_head l :: c (dl_id l) ++ [dl_tail l]) ->
              In a (dl_head l' :: c (dl_id l') ++ [dl_tail l']) -> l = l';
  dh_ids : forall l l', In l ls -> In l' ls -> dl_id l = dl_id l' -> l = l';
  dh_chain : forall l a b, In l ls -> adj a b (dl_head l :: c (dl_id l) ++ [dl_tail l]) -> d_next h a = Some b /\ d_pre h b = Some a;
  dh_hold : forall a i, d_hold h a = Some i <-> exists l, In l ls /\ dl_id l = i /\ In a (c i);
  dh_size : forall l, In l ls -> d_size h (dl_id l) = Z.of_nat (length (c (dl_id l))) /\ d_size h (dl_id l) < 2 ^ 64 }.

(** Pushing a node that is on another list is not allowed; pushing one that is on this list, or removing one that is not, is. *)
Inductive dop := DNew (l : dlist) | DBack (l : dlist) (n : addr) | DFront (l : dlist) (n : addr) | DRemove (l : dlist) (n : addr).
Definition elsewhere (ls : list dlist) (c : nat -> list addr) (l : dlist) (n : addr) : Prop :=
  exists l', In l' ls /\ l' <> l /\ In n (c (dl_id l')).
Definition dallowed (ls : list dlist) (c : nat -> list addr) (o : dop) : Prop :=
  match o with
  | DNew l => dl_head l <> dl_tail l /\ (forall l', In l' ls -> dl_id l' <> dl_id l /\
                ~ In (dl_head l) (dl_head l' :: c (dl_id l') ++ [dl_tail l']) /\ ~ In (dl_tail l) (dl_head l' :: c (dl_id l') ++ [dl_tail l']))
  | DBack l n | DFront l n => In l ls /\ ~ sentinel ls n /\ ~ elsewhere ls c l n /\ Z.of_nat (length (c (dl_id l))) + 1 < 2 ^ 64
  | DRemove l n => In l ls
  end.
Definition dset_c (c : nat -> list addr) (i : nat) (x : list addr) : nat -> list addr := fun j => if Nat.eqb j i then x else c j.
Definition has (n : addr) (l : list addr) : bool := existsb (Nat.eqb n) l.
Definition dcontents_after (c : nat -> list addr) (o : dop) : nat -> list addr :=
  match o with
  | DNew l => dset_c c (dl_id l) []
  | DBack l n => if has n (c (dl_id l)) then c else dset_c c (dl_id l) (c (dl_id l) ++ [n])
  | DFront l n => if has n (c (dl_id l)) then c else dset_c c (dl_id l) (n :: c (dl_id l))
  | DRemove l n => dset_c c (dl_id l) (filter (fun x => negb (Nat.eqb x n)) (c (dl_id l)))
  end.
Definition dlists_after (ls : list dlist) (o : dop) : list dlist := match o with DNew l => l :: ls | _ => ls end.
(** The answer a caller must get. *)
Definition danswer (c : nat -> list addr) (o : dop) : bool :=
  match o with
  | DNew _ => true
  | DBack l n | DFront l n => negb (has n (c (dl_id l)))
  | DRemove l n => has n (c (dl_id l))
  end.
Definition drun (o : dop) (h : dheap) : outcome (dheap * bool) :=
  match o with
  | DNew l => Ok (dnew l h, true)
  | DBack l n => push_back l (Some n) h
  | DFront l n => push_front l (Some n) h
  | DRemove l n => dremove l (Some n) h
  end.
Inductive dhist : list dop -> dheap -> list dlist -> (nat -> list addr) -> Prop :=
| dhi_nil : dhist [] (mkDH (fun _ => None) (fun _ => None) (fun _ => None) (fun _ => 0)) [] (fun _ => [])
| dhi_snoc p h ls c o h' b : dhist p h ls c -> dallowed ls c o -> drun o h = Ok (h', b) ->
    dhist (p ++ [o]) h' (dlists_after ls o) (dcontents_after c o).
