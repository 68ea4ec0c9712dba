(** components/lru_cache/lru_cache.h: the LRU cache template.

    A [std::list] node is (id, (key, value)); the id stands for the node's
    address, which a [list_iterator_t] denotes and which [splice] keeps.  The
    unordered map is an association list key -> node id with distinct keys. *)
From Coq Require Import List Arith Bool.
From Verif.Model Require Import Common.
Import ListNotations.

Section LRU.
Context {K V : Type} (keq : forall a b : K, {a = b} + {a <> b}).

(** lru_cache.h:17-22.  [lr_next]: the next fresh node address. *)
Record lru := mklru {
  lr_cap : nat;
  lr_list : list (nat * (K * V));
  lr_map : list (K * nat);
  lr_next : nat
}.

Definition lru_new (cap : nat) : lru := mklru cap [] [] 0.   (* lru_cache.h:14 *)

(** unordered_map find / erase *)
Fixpoint map_find (k : K) (m : list (K * nat)) : option nat :=
  match m with
  | [] => None
  | (k', i) :: m' => if keq k k' then Some i else map_find k m'
  end.
Definition map_erase (k : K) (m : list (K * nat)) : list (K * nat) :=
  filter (fun p => if keq k (fst p) then false else true) m.

(** [m[k] = i] *)
Definition map_set (k : K) (i : nat) (m : list (K * nat)) : list (K * nat) := (k, i) :: map_erase k m.

(** dereference a list iterator; [None]: dangling *)
Fixpoint node (i : nat) (l : list (nat * (K * V))) : option (K * V) :=
  match l with
  | [] => None
  | (j, kv) :: l' => if Nat.eqb i j then Some kv else node i l'
  end.
Definition unlink (i : nat) (l : list (nat * (K * V))) : list (nat * (K * V)) :=
  filter (fun p => negb (Nat.eqb (fst p) i)) l.

(** [splice(begin(), list, it)]: the node keeps its address, lru_cache.h:38,50,63 *)
Definition splice_front (i : nat) (l : list (nat * (K * V))) : outcome (list (nat * (K * V))) :=
  match node i l with
  | Some kv => Ok ((i, kv) :: unlink i l)
  | None => UB
  end.

(** [it->second->second = v] *)
Definition assign (i : nat) (f : K * V -> K * V) (l : list (nat * (K * V))) : list (nat * (K * V)) :=
  map (fun p => if Nat.eqb (fst p) i then (i, f (snd p)) else p) l.

(** lru_cache.h:25-53.  [extract]: compiled with __cpp_lib_node_extract (C++17). *)
Definition lru_add (extract : bool) (k : K) (v : V) (c : lru) : outcome lru :=
  match map_find k (lr_map c) with
  | None =>
      let full := lr_cap c <=? length (lr_map c) in      (* line 28 *)
      if full then
        match rev (lr_list c) with
        | [] => UB                                        (* --end() of an empty list, line 30 *)
        | (i, (lk, lv)) :: _ =>
            if extract then                               (* lines 32-40 *)
              match map_find lk (lr_map c) with
              | None => UB                                (* nh.key() on an empty node handle *)
              | Some j =>
                  let m := (k, j) :: map_erase lk (lr_map c) in
                  let l := assign i (fun _ => (k, v)) (lr_list c) in
                  obind (splice_front i l) (fun l' => Ok (mklru (lr_cap c) l' m (lr_next c)))
              end
            else                                          (* lines 42-47 *)
              let m := map_erase lk (lr_map c) in
              let l := removelast (lr_list c) in
              Ok (mklru (lr_cap c) ((lr_next c, (k, v)) :: l) (map_set k (lr_next c) m) (S (lr_next c)))
        end
      else                                                (* lines 46-47 *)
        Ok (mklru (lr_cap c) ((lr_next c, (k, v)) :: lr_list c) (map_set k (lr_next c) (lr_map c)) (S (lr_next c)))
  | Some i =>                                             (* lines 49-51 *)
      match node i (lr_list c) with
      | None => UB
      | Some _ =>
          obind (splice_front i (assign i (fun p => (fst p, v)) (lr_list c)))
                (fun l => Ok (mklru (lr_cap c) l (lr_map c) (lr_next c)))
      end
  end.

(** lru_cache.h:55-67 *)
Definition lru_get (k : K) (c : lru) : outcome (lru * option V) :=
  match map_find k (lr_map c) with
  | None => Ok (c, None)
  | Some i =>
      obind (splice_front i (lr_list c)) (fun l =>
      match node i l with
      | None => UB
      | Some kv => Ok (mklru (lr_cap c) l (lr_map c) (lr_next c), Some (snd kv))
      end)
  end.

(** lru_cache.h:69-71 *)
Definition lru_exists (k : K) (c : lru) : bool :=
  match map_find k (lr_map c) with None => false | Some _ => true end.
(** lru_cache.h:73 *)
Definition lru_size (c : lru) : nat := length (lr_map c).

(** What a caller does. *)
Inductive lop := LAdd (k : K) (v : V) | LGet (k : K) | LExists (k : K).
Inductive lres := RUnit | RVal (r : option V) | RBool (b : bool).
Definition lru_step (extract : bool) (c : lru) (o : lop) : outcome (lru * lres) :=
  match o with
  | LAdd k v => obind (lru_add extract k v c) (fun c' => Ok (c', RUnit))
  | LGet k => obind (lru_get k c) (fun p => Ok (fst p, RVal (snd p)))
  | LExists k => Ok (c, RBool (lru_exists k c))
  end.
Fixpoint lru_run (extract : bool) (c : lru) (os : list lop) : outcome (lru * list lres) :=
  match os with
  | [] => Ok (c, [])
  | o :: os' =>
      obind (lru_step extract c o) (fun p =>
      obind (lru_run extract (fst p) os') (fun q => Ok (fst q, snd p :: snd q)))
  end.
End LRU.
