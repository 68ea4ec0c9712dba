(** An LRU cache as an association list, most recently used first. *)
From Coq Require Import List Arith Bool.
From Verif.Model Require Import Lru.
Import ListNotations.

Section S.
Context {K V : Type} (keq : forall a b : K, {a = b} + {a <> b}).

Fixpoint lookup (k : K) (l : list (K * V)) : option V :=
  match l with
  | [] => None
  | (k', v) :: l' => if keq k k' then Some v else lookup k l'
  end.
Definition without (k : K) (l : list (K * V)) : list (K * V) :=
  filter (fun p => if keq k (fst p) then false else true) l.

(** using an entry moves it to the front; adding a new one pushes everything down and what falls
    beyond the capacity is gone *)
Definition spec_step (cap : nat) (l : list (K * V)) (o : lop) : list (K * V) * lres :=
  match o with
  | LAdd k v => (firstn cap ((k, v) :: without k l), RUnit)
  | LGet k =>
      match lookup k l with
      | Some v => ((k, v) :: without k l, RVal (Some v))
      | None => (l, RVal None)
      end
  | LExists k => (l, RBool (match lookup k l with Some _ => true | None => false end))
  end.
Fixpoint spec_run (cap : nat) (l : list (K * V)) (os : list lop) : list (K * V) * list (@lres V) :=
  match os with
  | [] => (l, [])
  | o :: os' => let (l1, r) := spec_step cap l o in let (l2, rs) := spec_run cap l1 os' in (l2, r :: rs)
  end.

(** In terms of the whole history of operations and their results (oldest first): the uses of keys
    are the additions and the successful gets, *)
Fixpoint uses (os : list (@lop K V)) (rs : list (@lres V)) : list K :=
  match os, rs with
  | LAdd k _ :: os', _ :: rs' => k :: uses os' rs'
  | LGet k :: os', RVal (Some _) :: rs' => k :: uses os' rs'
  | _ :: os', _ :: rs' => uses os' rs'
  | _, _ => []
  end.
(** the keys in order of their last use, most recent first, *)
Fixpoint by_recency (us : list K) (acc : list K) : list K :=
  match us with
  | [] => acc
  | k :: us' => by_recency us' (k :: filter (fun x => if keq k x then false else true) acc)
  end.
(** and the value last added for a key. *)
Fixpoint last_added (k : K) (os : list (@lop K V)) (acc : option V) : option V :=
  match os with
  | [] => acc
  | LAdd k' v :: os' => last_added k os' (if keq k k' then Some v else acc)
  | _ :: os' => last_added k os' acc
  end.
End S.
