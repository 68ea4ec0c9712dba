(** What callers of the free lists may rely on. *)
From Verif.Model Require Import Common FreeList.
Open Scope Z_scope.

Definition is_add (n : node) (e : fev) : bool := match e with EAdd _ m => Nat.eqb m n | _ => false end.
Definition is_got (n : node) (e : fev) : bool := match e with EGot _ m => Nat.eqb m n | _ => false end.
Definition adds (n : node) (l : list fev) : nat := length (filter (is_add n) l).
Definition gots (n : node) (l : list fev) : nat := length (filter (is_got n) l).

(** The node is in the callers' hands: as many times returned by try_get as given to add. *)
Definition outside (n : node) (l : list fev) : Prop := adds n l = gots n l.
(** The node has been given to the list and not returned since. *)
Definition inside (n : node) (l : list fev) : Prop := adds n l = S (gots n l).

(** Histories of at most [NT] threads; a caller adds only nodes that are outside. *)
Definition thread_of (a : fact) : tid := match a with CallAdd t _ => t | CallGet t => t | Go t => t end.
Inductive fhist (NT : nat) : list fact -> list fev -> fl -> Prop :=
| fh_nil : fhist NT [] [] fl0
| fh_snoc p l s a s' l' : fhist NT p l s -> (thread_of a < NT)%nat ->
    (forall t n, a = CallAdd t n -> outside n l) ->
    fact_step s a = Some (Ok (s', l')) -> fhist NT (p ++ [a]) (l ++ l') s'.

(** Nodes reached from the head. *)
Inductive reach (next : node -> option node) : option node -> list node -> Prop :=
| re_nil : reach next None []
| re_cons n l : reach next (next n) l -> reach next (Some n) (n :: l).

Definition all_idle (s : fl) : Prop := forall t, f_pc s t = Idle.

Definition dthread_of (a : dact) : tid := match a with DCallAdd t _ => t | DCallGet t => t | DGo t _ => t end.
(** Successful exchanges of the head so far: one per add that returned and per node got. *)
Definition changes (l : list fev) : nat := length (filter (fun e => match e with EAdded _ | EGot _ _ => true | _ => false end) l).
Inductive dfhist (w : Z) : list dact -> list fev -> dfl -> Prop :=
| dfh_nil : dfhist w [] [] dfl0
| dfh_snoc p l s a s' l' : dfhist w p l s ->
    (forall t n, a = DCallAdd t n -> outside n l) ->
    dact_step w s a = Some (s', l') -> dfhist w (p ++ [a]) (l ++ l') s'.

(** A run of actions of the reference-counted list from a state. *)
Fixpoint frun (acts : list fact) (s : fl) : option (list fev * fl) :=
  match acts with
  | [] => Some ([], s)
  | a :: t => match fact_step s a with
              | Some (Ok (s', l)) => match frun t s' with Some (l', s'') => Some (l ++ l', s'') | None => None end
              | _ => None
              end
  end.
(** A call of add(n) has not returned yet (tagged list). *)
Definition add_in_progress (s : dfl) (n : node) : Prop :=
  exists t, df_pc s t = DA0 n \/ (exists c, df_pc s t = DA1 n c) \/ (exists c, df_pc s t = DA2 n c).

(** What one caller sees: calls and returns alternate, and each return answers the call made. *)
Inductive phase := Ready | Adding | Getting.
Definition ev_thread (e : fev) : tid :=
  match e with EAdd t _ | EGet t | EAdded t | EGot t _ | ENull t => t end.
Definition ev_phase (p : phase) (e : fev) : option phase :=
  match p, e with
  | Ready, EAdd _ _ => Some Adding
  | Ready, EGet _ => Some Getting
  | Adding, EAdded _ => Some Ready
  | Getting, EGot _ _ => Some Ready
  | Getting, ENull _ => Some Ready
  | _, _ => None
  end.
Fixpoint phases (p : phase) (l : list fev) : option phase :=
  match l with
  | [] => Some p
  | e :: r => match ev_phase p e with Some q => phases q r | None => None end
  end.
Definition seen_by (t : tid) (l : list fev) : list fev := filter (fun e => Nat.eqb (ev_thread e) t) l.
