(** What a user of descriptor events relies on, read off the history of calls. *)
From Verif.Model Require Import Common FdEvents.
Open Scope Z_scope.

(** A history: the calls and kernel events with what each was seen to do, oldest first. *)
Definition log := list (op * list ev).

(** The descriptor object [o] was created for. *)
Fixpoint fd_of (h : log) (o : nat) : option Z :=
  match h with
  | [] => None
  | (ONew o' fd _ _, _) :: h => if Nat.eqb o' o then Some fd else fd_of h o
  | _ :: h => fd_of h o
  end.

(** The loop object [o] is installed in: a successful InstallFdEvent not followed by a successful RemoveFdEvent. *)
Definition installed_step (o : nat) (cur : option nat) (e : op * list ev) : option nat :=
  match e with
  | (OInstall l o' _, [VRet true]) => if Nat.eqb o' o then Some l else cur
  | (ORemove _ o', [VRet true]) => if Nat.eqb o' o then None else cur
  | _ => cur
  end.
Definition installed (h : log) (o : nat) : option nat := fold_left (installed_step o) h None.

(** The events asked for on object [o]: (reading, writing). *)
Definition asked_step (o : nat) (cur : bool * bool) (e : op * list ev) : bool * bool :=
  match e with
  | (ONew o' _ m _, _) => if Nat.eqb o' o then (Z.testbit m 0, Z.testbit m 1) else cur
  | (OSet o' c _, _) =>
      if Nat.eqb o' o then
        match c with
        | SEnableR => (true, snd cur)
        | SEnableW => (fst cur, true)
        | SDisableR => (false, snd cur)
        | SDisableW => (fst cur, false)
        | SSet m => (Z.testbit m 0, Z.testbit m 1)
        end
      else cur
  | _ => cur
  end.
Definition asked (h : log) (o : nat) : bool * bool := fold_left (asked_step o) h (false, false).

(** The application's side of the contract: an object is removed from its loop before it is destroyed, and a descriptor is
    closed only when no installed object uses it; an object is installed while the descriptor it was created for is open. *)
Definition unused (h : log) (fd : Z) : Prop := forall o, fd_of h o = Some fd -> installed h o = None.
Definition legal (s : st) (h : log) (x : op) : Prop :=
  match x with
  | ODestroy o => installed h o = None /\
      (forall f, objs s o = Some f -> f_own f = true -> fdopen s (f_fd f) = true /\ unused h (f_fd f))
  | OClose fd => unused h fd
  | OInstall _ o _ => forall f, objs s o = Some f -> fdopen s (f_fd f) = true /\ f_gen f = gen s (f_fd f)
  | _ => True
  end.

(** Every history of a process whose application keeps its side. *)
Inductive hist (limit : Z) : log -> st -> Prop :=
| hist_nil : hist limit [] st0
| hist_snoc h s x s' vs :
    hist limit h s -> possible s x -> legal s h x -> step limit s x = Ok (s', vs) -> hist limit (h ++ [(x, vs)]) s'.

(** The kernel never refuses an epoll_ctl for its own reasons. *)
Definition accepted (e : op * list ev) : Prop :=
  match fst e with OInstall _ _ k => k = true | OSet _ _ k => k = true | _ => True end.

Definition polls (l : nat) (e : op * list ev) : Prop := exists es, fst e = OPoll l es.
Definition removes (o : nat) (e : op * list ev) : Prop := exists l, fst e = ORemove l o.

(** What loop [l] did with the entries of its batch: the descriptor whose object was invoked, or which was skipped. *)
Definition handled1 (h : log) (l : nat) (v : ev) : list (option Z) :=
  match v with
  | VInvoke l' o _ _ => if Nat.eqb l' l then [fd_of h o] else []
  | VSkip l' fd => if Nat.eqb l' l then [Some fd] else []
  | VRet _ => []
  end.
Definition handled (h : log) (l : nat) (part : log) : list (option Z) :=
  flat_map (fun e => flat_map (handled1 h l) (snd e)) part.
