(** components/bloomfilter/bloomfilter.{h,cc}.

    [hash data i] is the 128 bit result of MurmurHash3_x64_128 for the seed made
    from [i] (bloomfilter.cc:45,55,69), as two 64 bit numbers; the function is a
    parameter, so everything holds for every hash.  Threads sharing a filter are
    modelled as atomic steps on the table (the fetch-and-or and the byte load are
    single steps; C11 word tearing and reordering are not modelled). *)
From Coq Require Import List Arith ZArith Bool.
From Verif.Model Require Import Common.
Import ListNotations.
Local Open Scope Z_scope.

(** The table: [table_size_] bytes, whatever malloc returned (bloomfilter.cc:32-33). *)
Definition table := list Z.

(** bloomfilter.cc:78-80,84-86,90-92: which byte and which bit. *)
Definition byte_of (t : table) (p : Z) : nat := Z.to_nat (Z.shiftr p 3 mod Z.of_nat (length t)).
Definition bit_of (p : Z) : Z := Z.land p 7.

(** bloomfilter.cc:83-87 *)
Definition test_bit (t : table) (p : Z) : bool := Z.testbit (nth (byte_of t p) t 0) (bit_of p).

(** bloomfilter.cc:77-81 *)
Fixpoint set_nth (n : nat) (v : Z) (t : table) : table :=
  match t, n with
  | [], _ => []
  | _ :: t', O => v :: t'
  | x :: t', S n' => x :: set_nth n' v t'
  end.
Definition set_bit (t : table) (p : Z) : table :=
  let i := byte_of t p in set_nth i (Z.lor (nth i t 0) (Z.shiftl 1 (bit_of p))) t.

Section B.
Context {D : Type} (hash : D -> nat -> Z * Z).

(** The bit numbers of a key: the loop [for (i = 0; i < k; i += 2)] of
    bloomfilter.cc:44-49, 54-61, 68-73 visits them in this order.  [fuel] is the
    number of rounds left, at most [k]. *)
Fixpoint positions_from (fuel : nat) (k i : nat) (d : D) : list Z :=
  match fuel with
  | O => []
  | S f => if (i <? k)%nat then let (a, b) := hash d i in a :: b :: positions_from f k (i + 2) d else []
  end.
Definition positions (k : nat) (d : D) : list Z := positions_from k k 0 d.

(** Operations of one thread, [table_size_ = 0] being division by zero. *)
Inductive bop := BSet (d : D) | BIsSet (d : D) | BTas (d : D).
Definition bkey (o : bop) : D := match o with BSet d | BIsSet d | BTas d => d end.

(** bloomfilter.cc:42-50 *)
Definition bloom_set (k : nat) (t : table) (d : D) : outcome table :=
  if (length t =? 0)%nat && negb (length (positions k d) =? 0)%nat then UB
  else Ok (fold_left set_bit (positions k d) t).
(** bloomfilter.cc:52-63 *)
Definition bloom_is_set (k : nat) (t : table) (d : D) : outcome bool :=
  if (length t =? 0)%nat && negb (length (positions k d) =? 0)%nat then UB
  else Ok (forallb (test_bit t) (positions k d)).
(** bloomfilter.cc:65-75 *)
Definition bloom_tas (k : nat) (t : table) (d : D) : outcome (table * bool) :=
  if (length t =? 0)%nat && negb (length (positions k d) =? 0)%nat then UB
  else Ok (fold_left (fun p q => (set_bit (fst p) q, snd p && test_bit (fst p) q)) (positions k d) (t, true)).

(** * Concurrent use: threads are numbered, each performs operations one after the other. *)
Inductive phase :=
| Idle
| Run (o : bop) (ps : list Z) (acc : bool)      (* about to handle the next bit number *)
| Mid (o : bop) (p : Z) (ps : list Z) (acc : bool).   (* TestAndSetBit between load and fetch-or, bloomfilter.cc:92-93 *)

Inductive bev := EStart (th : nat) (o : bop) | EDone (th : nat) (o : bop) (res : bool).

Record bstate := mkb { b_tab : table; b_thr : nat -> phase }.
Definition upd (f : nat -> phase) (th : nat) (p : phase) : nat -> phase :=
  fun x => if (x =? th)%nat then p else f x.

Inductive baction := Start (th : nat) (o : bop) | Step (th : nat).

(** one atomic step of a thread; [None]: not possible in this state *)
Definition bstep (k : nat) (s : bstate) (a : baction) : option (bstate * list bev) :=
  match a with
  | Start th o =>
      match b_thr s th with
      | Idle => Some (mkb (b_tab s) (upd (b_thr s) th (Run o (positions k (bkey o)) true)), [EStart th o])
      | _ => None
      end
  | Step th =>
      match b_thr s th with
      | Idle => None
      | Run o [] acc => Some (mkb (b_tab s) (upd (b_thr s) th Idle), [EDone th o acc])
      | Run o (p :: ps) acc =>
          match o with
          | BSet _ => Some (mkb (set_bit (b_tab s) p) (upd (b_thr s) th (Run o ps acc)), [])
          | BIsSet _ =>
              if test_bit (b_tab s) p then Some (mkb (b_tab s) (upd (b_thr s) th (Run o ps acc)), [])
              else Some (mkb (b_tab s) (upd (b_thr s) th Idle), [EDone th o false])
          | BTas _ => Some (mkb (b_tab s) (upd (b_thr s) th (Mid o p ps (acc && test_bit (b_tab s) p))), [])
          end
      | Mid o p ps acc => Some (mkb (set_bit (b_tab s) p) (upd (b_thr s) th (Run o ps acc)), [])
      end
  end.
Fixpoint brun (k : nat) (s : bstate) (acts : list baction) : option (bstate * list bev) :=
  match acts with
  | [] => Some (s, [])
  | a :: acts' =>
      match bstep k s a with
      | None => None
      | Some (s1, es) => match brun k s1 acts' with None => None | Some (s2, es') => Some (s2, es ++ es') end
      end
  end.
Definition bstart (t : table) : bstate := mkb t (fun _ => Idle).
End B.
