(** Descriptor events: base/message_loop/{event.h,fd_event.h,fd_event.cc,fdev_mgr.cc,io_mux_epoll.cc} and the event half
    of event_pump.cc.

    FdEvent objects and message loops are named by natural numbers. All operations on an object happen in the thread of
    the loop it is installed in; operations of different loops interleave arbitrarily, one API call (or one
    dispatched event up to the call of its handler) at a time. Handlers are arbitrary: whatever a handler does is the
    operations that follow the dispatch. The kernel's epoll is modelled by its interest lists. *)
From Verif.Model Require Import Common.
Open Scope Z_scope.

(** event.h:34-39 *)
Definition EV_READ : Z := 1.
Definition EV_WRITE : Z := 2.
Definition EV_ERROR : Z := 4.
(** <sys/epoll.h> *)
Definition EPOLLIN : Z := 1.
Definition EPOLLOUT : Z := 4.
Definition EPOLLERR : Z := 8.
Definition EPOLLHUP : Z := 16.
Definition EPOLLRDHUP : Z := 8192.
Definition EPOLLET : Z := 2147483648.

Definition hasb (m b : Z) : bool := negb (Z.land m b =? 0).

(** io_mux_epoll.cc:65-86 *)
Definition to_lt_event (e : Z) : Z :=
  let v := 0 in
  let v := if hasb e (Z.lor EPOLLHUP EPOLLERR) then Z.lor (Z.lor v EV_READ) EV_WRITE else v in
  let v := if hasb e (Z.lor EPOLLIN EPOLLRDHUP) then Z.lor v EV_READ else v in
  if hasb e EPOLLOUT then Z.lor v EV_WRITE else v.

(** io_mux_epoll.cc:88-98 *)
Definition to_epoll_event (m : Z) : Z :=
  let e := 0 in
  let e := if hasb m EV_READ then Z.lor e EPOLLIN else e in
  let e := if hasb m EV_WRITE then Z.lor e EPOLLOUT else e in
  Z.lor e EPOLLRDHUP.

(** fd_event.h:116-128. [f_watch]: the loop whose multiplexer is the watcher_. [f_alive]: the destructor has not run.
    [f_gen] is a ghost: which opening of the descriptor number the object was created for. *)
Record fdev := mkfd {
  f_fd : Z; f_own : bool; f_event : Z; f_et : bool; f_watch : option nat; f_alive : bool; f_gen : nat }.

(** [evs]: FdEventMgr::evs_, one table for all loops (fdev_mgr.cc:9-11,22-26) with [limit] entries. [ep l fd]: the kernel's
    interest list of loop l's epoll. [fdopen], [gen]: descriptors open in the process; [gen fd] (ghost) counts the closes
    of that number. [fired l]: the entries of loop l's fired_list_ still to dispatch (event_pump.cc:137-147), each with
    the ghost generation it was reported for. *)
Record st := mkst {
  objs : nat -> option fdev; evs : Z -> option nat; ep : nat -> Z -> option Z; fdopen : Z -> bool; gen : Z -> nat;
  fired : nat -> list (Z * Z * nat) }.

Definition upd {K A} (eqb : K -> K -> bool) (f : K -> A) (k : K) (v : A) : K -> A := fun j => if eqb j k then v else f j.
Definition set_obj s o f := mkst (upd Nat.eqb (objs s) o (Some f)) (evs s) (ep s) (fdopen s) (gen s) (fired s).
Definition set_evs s fd v := mkst (objs s) (upd Z.eqb (evs s) fd v) (ep s) (fdopen s) (gen s) (fired s).
Definition set_ep s l fd v :=
  mkst (objs s) (evs s) (upd Nat.eqb (ep s) l (upd Z.eqb (ep s l) fd v)) (fdopen s) (gen s) (fired s).
Definition set_fired s l v := mkst (objs s) (evs s) (ep s) (fdopen s) (gen s) (upd Nat.eqb (fired s) l v).

Definition st0 : st := mkst (fun _ => None) (fun _ => None) (fun _ _ => None) (fun _ => false) (fun _ => O) (fun _ => []).

Section FdEvents.
(** RLIMIT_NOFILE when the table was created (fdev_mgr.cc:22-26) *)
Variable limit : Z.

(** fdev_mgr.cc:28-44; [None]: not Success *)
Definition mgr_add (s : st) (o : nat) (f : fdev) : option st :=
  if (f_fd f <? 0) || (limit <=? f_fd f) then None
  else match evs s (f_fd f) with Some _ => None | None => Some (set_evs s (f_fd f) (Some o)) end.
(** fdev_mgr.cc:46-65: any result but Success leaves the table *)
Definition mgr_remove (s : st) (o : nat) (f : fdev) : st :=
  if (f_fd f <? 0) || (limit <=? f_fd f) then s
  else match evs s (f_fd f) with
       | Some o' => if Nat.eqb o' o then set_evs s (f_fd f) None else s
       | None => s
       end.
(** fdev_mgr.cc:67-73 *)
Definition mgr_get (s : st) (fd : Z) : option nat :=
  if (fd <? 0) || (limit <=? fd) then None else evs s fd.

(** The mask EpollCtl passes, io_mux_epoll.cc:142-146 *)
Definition ctl_mask (f : fdev) : Z :=
  let e := to_epoll_event (f_event f) in if f_et f then Z.lor e EPOLLET else e.
(** epoll_ctl: ADD needs an open descriptor that is not in the list, MOD one that is in it; [k]: the kernel does not
    refuse for another reason (out of memory, watch limit, a descriptor that cannot be polled) *)
Definition ctl_add (s : st) (l : nat) (f : fdev) (k : bool) : st :=
  match ep s l (f_fd f) with
  | None => if k && fdopen s (f_fd f) then set_ep s l (f_fd f) (Some (ctl_mask f)) else s
  | Some _ => s
  end.
Definition ctl_mod (s : st) (l : nat) (f : fdev) (k : bool) : st * bool :=
  match ep s l (f_fd f) with
  | Some _ => if k then (set_ep s l (f_fd f) (Some (ctl_mask f)), true) else (s, false)
  | None => (s, false)
  end.
Definition ctl_del (s : st) (l : nat) (f : fdev) : st := set_ep s l (f_fd f) None.

(** close(2): the number is free again and leaves every epoll set *)
Definition sys_close (s : st) (fd : Z) : st :=
  mkst (objs s) (evs s) (fun l => upd Z.eqb (ep s l) fd None) (upd Z.eqb (fdopen s) fd false)
       (upd Z.eqb (gen s) fd (S (gen s fd))) (fired s).

(** What is observed. [VInvoke l o m g]: loop l calls o's handler with event mask m; g (ghost) is the generation of the
    descriptor the kernel reported. *)
Inductive ev :=
| VInvoke (l o : nat) (m : Z) (g : nat)
| VSkip (l : nat) (fd : Z)            (* "event removed by previous handler or timeout", event_pump.cc:143 *)
| VRet (b : bool)                     (* return value of InstallFdEvent / RemoveFdEvent *).

Inductive setting := SEnableR | SEnableW | SDisableR | SDisableW | SSet (m : Z).
(** fd_event.cc:49-84: the new event_, [None] when the call returns early *)
Definition new_mask (e : Z) (c : setting) : option Z :=
  match c with
  | SEnableR => if hasb e EV_READ then None else Some (Z.lor e EV_READ)
  | SEnableW => if hasb e EV_WRITE then None else Some (Z.lor e EV_WRITE)
  | SDisableR => if hasb e EV_READ then Some (Z.ldiff e EV_READ) else None
  | SDisableW => if hasb e EV_WRITE then Some (Z.ldiff e EV_WRITE) else None
  | SSet m => Some m
  end.

Inductive op :=
| OOpen (fd : Z)                                  (* socket/accept/...: the kernel hands out a free number *)
| OClose (fd : Z)                                 (* the application closes a descriptor *)
| ONew (o : nat) (fd : Z) (m : Z) (own : bool)    (* FdEvent constructor (and ReleaseOwnership) *)
| OEdge (o : nat) (b : bool)                      (* SetEdgeTrigger *)
| OInstall (l o : nat) (k : bool)
| ORemove (l o : nat)
| OSet (o : nat) (c : setting) (k : bool)
| ODestroy (o : nat)
| OPoll (l : nat) (es : list (Z * Z))             (* epoll_wait returned these *)
| ODispatch (l : nat).                            (* next round of InvokeFiredEvent's loop *)

(** Using an object that was never created or is already destroyed is undefined behaviour. *)
Definition with_obj (s : st) (o : nat) (k : fdev -> outcome (st * list ev)) : outcome (st * list ev) :=
  match objs s o with
  | Some f => if f_alive f then k f else UB
  | None => UB
  end.

Definition step (s : st) (x : op) : outcome (st * list ev) :=
  match x with
  | OOpen fd => Ok (mkst (objs s) (evs s) (ep s) (upd Z.eqb (fdopen s) fd true) (gen s) (fired s), [])
  | OClose fd => Ok (sys_close s fd, [])
  | ONew o fd m own => (* fd_event.cc:34-41 *)
      Ok (set_obj s o (mkfd fd own m false None true (gen s fd)), [])
  | OEdge o b => (* fd_event.h:91 *)
      with_obj s o (fun f =>
        Ok (set_obj s o (mkfd (f_fd f) (f_own f) (f_event f) b (f_watch f) true (f_gen f)), []))
  | OInstall l o k => (* event_pump.cc:82-91, io_mux_epoll.cc:104-113 *)
      with_obj s o (fun f =>
        if match f_watch f with Some w => negb (Nat.eqb w l) | None => false end then Ok (s, [VRet false])
        else match mgr_add s o f with
        | None => CheckFail
        | Some s =>
            let f := mkfd (f_fd f) (f_own f) (f_event f) (f_et f) (Some l) true (f_gen f) in
            Ok (ctl_add (set_obj s o f) l f k, [VRet true])
        end)
  | ORemove l o => (* event_pump.cc:93-102, io_mux_epoll.cc:115-124 *)
      with_obj s o (fun f =>
        match f_watch f with
        | None => Ok (s, [VRet false])
        | Some w =>
            if negb (Nat.eqb w l) then CheckFail
            else
              let s := ctl_del s l f in
              let f := mkfd (f_fd f) (f_own f) (f_event f) (f_et f) None true (f_gen f) in
              Ok (mgr_remove (set_obj s o f) o f, [VRet true])
        end)
  | OSet o c k => (* fd_event.cc:49-90, io_mux_epoll.cc:126-135 *)
      with_obj s o (fun f =>
        match new_mask (f_event f) c with
        | None => Ok (s, [])
        | Some m =>
            let f := mkfd (f_fd f) (f_own f) m (f_et f) (f_watch f) true (f_gen f) in
            let s := set_obj s o f in
            match f_watch f with
            | None => Ok (s, [])
            | Some l =>
                let '(s, ok) := ctl_mod s l f k in
                if negb ok then Ok (s, [])
                else match mgr_get s (f_fd f) with
                     | Some _ => Ok (s, [])
                     | None => Ok (match mgr_add s o f with Some s => s | None => s end, [])
                     end
            end
        end)
  | ODestroy o => (* fd_event.cc:43-47 *)
      with_obj s o (fun f =>
        let s := set_obj s o (mkfd (f_fd f) (f_own f) (f_event f) (f_et f) (f_watch f) false (f_gen f)) in
        Ok (if f_own f then sys_close s (f_fd f) else s, []))
  | OPoll l es => (* io_mux_epoll.cc:42-63 *)
      Ok (set_fired s l (map (fun e => (fst e, to_lt_event (snd e), gen s (fst e))) es), [])
  | ODispatch l => (* event_pump.cc:137-147, fd_event.cc:92-96 *)
      match fired s l with
      | [] => Ok (s, [])
      | (fd, m, g) :: r =>
          match mgr_get s fd with
          | None => Ok (set_fired s l r, [VSkip l fd])
          | Some o => with_obj s o (fun _ => Ok (set_fired s l r, [VInvoke l o m g]))
          end
      end
  end.

(** What the environment can do at all: the kernel hands out free numbers; objects have fresh identities and are made for
    open descriptors; epoll_wait is called between dispatch rounds and reports, once each, descriptors of its interest list
    with events asked for (EPOLLERR and EPOLLHUP are always reported). *)
Definition possible (s : st) (x : op) : Prop :=
  match x with
  | OOpen fd => 0 <= fd /\ fdopen s fd = false
  | OClose fd => fdopen s fd = true
  | ONew o fd m own => objs s o = None /\ fdopen s fd = true
  | OPoll l es =>
      fired s l = [] /\ NoDup (map fst es) /\
      Forall (fun e => exists m, ep s l (fst e) = Some m /\
                Z.ldiff (snd e) (Z.lor m (Z.lor EPOLLERR EPOLLHUP)) = 0 /\ snd e <> 0) es
  | _ => True
  end.

End FdEvents.
