(** Independent vocabulary for the metrics properties: what was recorded under a name, and what its summary should be. *)
From Verif.Model Require Import Common LogMetrics.
Local Open Scope Z_scope.

(** The values recorded under name [n], except those a user-supplied handler has claimed for itself. *)
Definition vals (handler : item -> bool) (n : name) (its : list item) : list Z :=
  map it_value (filter (fun it => name_eqb (it_name it) n && negb (handler it)) its).
Definition count (vs : list Z) : Z := Z.of_nat (length vs).
Definition sum (vs : list Z) : Z := fold_right Z.add 0 vs.
Definition magnitude (vs : list Z) : Z := fold_right (fun v a => Z.abs v + a) 0 vs.
Definition is_min (m : Z) (vs : list Z) : Prop := In m vs /\ forall v, In v vs -> m <= v.
Definition is_max (m : Z) (vs : list Z) : Prop := In m vs /\ forall v, In v vs -> v <= m.
Definition how_many (p : Z -> bool) (vs : list Z) : Z := Z.of_nat (length (filter p vs)).

(** Each name is used for one kind of metric. *)
Definition one_kind (kind : name -> mtype) (its : list item) : Prop := forall it, In it its -> it_type it = kind (it_name it).
(** No more than 2^32-1 values under a name, and their sum does not leave the 64 bit range whatever their order. *)
Definition moderate (handler : item -> bool) (its : list item) : Prop :=
  forall n, count (vals handler n its) < 2 ^ 32 /\ magnitude (vals handler n its) < 2 ^ 63.
(** The histogram settings of a name; ranges that start at 0, as the default one does. *)
Definition settings (provider : name -> option dargs) (n : name) : dargs := match provider n with Some a => a | None => kDefaultDistArgs end.
Definition from_zero (a : dargs) : Prop :=
  dist_range_min a = 0 /\ 0 < dist_precise a /\ 0 < dist_range_max a < 2 ^ 63 /\ dist_range_max a <= dist_precise a * (2 ^ 32 - 1).
(** A value cut off at the two ends of the range. *)
Definition clamp (a : dargs) (v : Z) : Z := Z.max 0 (Z.min v (dist_range_max a)).
(** Which bucket of width precise a value of the range [0, max) belongs to; values below 0 go to the first and values from
    max on to the last one. *)
Definition n_buckets (a : dargs) : Z := (dist_range_max a + dist_precise a - 1) / dist_precise a.
Definition bucket_of (a : dargs) (v : Z) : Z :=
  if dist_range_max a <=? v then n_buckets a - 1 else if v <=? 0 then 0 else v / dist_precise a.

(** The entry of a container for a name. *)
Definition entry_of (c : container) (n : name) : option metric := find n (datas c).
Definition count_in (n : name) (c : container) : Z := match entry_of c n with Some m => counter m | None => 0 end.
Definition total_in (n : name) (c : container) : Z := match entry_of c n with Some m => total_value m | None => 0 end.
(** All containers a stash holds or has printed: current, waiting to be merged, being filled by the turbo thread. *)
Definition in_turbo (s : stash) : list container := match turbo_pc s with TProc _ _ c => [c] | _ => [] end.
Definition pending (s : stash) : list container := cur s :: merger s ++ in_turbo s.
Definition zsum {A} (f : A -> Z) (l : list A) : Z := fold_right (fun x a => f x + a) 0 l.
Definition stashed (es : list event) : list item := flat_map (fun e => match e with EStash it => [it] | _ => [] end) es.
Definition queued (s : stash) : list item := concat (queues s).
(** Times of reports, newest first: each at least [d] after the one before, the first at least [d] after the start. *)
Fixpoint spaced_by (d last : Z) (ts : list Z) : Prop :=
  match ts with [] => True | t :: r => (match r with [] => last | t' :: _ => t' end) + d <= t /\ spaced_by d last r end.
