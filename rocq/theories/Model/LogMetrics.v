(** components/log_metrics: gauges, histograms, the metric container and the stash with its two threads.

    Integers: [uint64_t] counters and [uint32_t] buckets wrap, overflow of [int64_t] totals is [UB].
    The bucket count is computed in the code with doubles; the model takes the exact ceiling (the two agree while
    the range is below 2^53 and range * precise is small enough for the quotient not to round onto an integer).
    Allocation failures are not modelled. *)
From Verif Require Import Model.Common.
From Coq Require Export Permutation.
Local Open Scope Z_scope.

Definition name := list Z.
Definition name_eqb (a b : name) : bool := if list_eq_dec Z.eq_dec a b then true else false.
Definition u64 (z : Z) : Z := z mod 2 ^ 64.
Definition u32 (z : Z) : Z := z mod 2 ^ 32.
Definition int64b (z : Z) : bool := (- 2 ^ 63 <=? z) && (z <? 2 ^ 63).
(** int64_t additions and multiplications. *)
Definition int64 (z : Z) : outcome Z := if int64b z then Ok z else UB.

(** metrics_item.h:15-19 MetricsType, 23-34 MetricsItem (type_, name_, value_; the options and properties are never read). *)
Inductive mtype : Set := kGauge | kHistogram.
Definition mtype_eqb (a b : mtype) : bool := match a, b with kGauge, kGauge | kHistogram, kHistogram => true | _, _ => false end.
Record item : Set := Item { it_type : mtype; it_name : name; it_value : Z }.

(** metrics_container.h:15-19 MetricDistArgs; metrics_container.cc:8-10 kDefaultDistArgs. *)
Record dargs : Set := Args { dist_precise : Z; dist_range_min : Z; dist_range_max : Z }.
Definition kDefaultDistArgs : dargs := Args 100 0 1000000.

(** metrics_container.h:21-34 MetricBase, 36-41 MetricGuage (latest_value), 44-61 MetricDist (args, percentile_bucket):
    one record, of which an object of one class uses its own fields only. *)
Record metric : Set := Metric { m_type : mtype; counter : Z; min_value : Z; max_value : Z; total_value : Z; start_ts : Z;
  latest_value : Z; args : dargs; percentile_bucket : list Z }.

(** metrics_container.cc:20-21 MetricGuage::MetricGuage(ts). *)
Definition new_gauge (ts : Z) : metric := Metric kGauge 0 0 0 0 ts 0 kDefaultDistArgs [].
(** metrics_container.cc:51-56 MetricDist::MetricDist: ceil((max - min) / precise) buckets. Converting a double outside
    (-1, 2^32), an infinity or a NaN to uint32_t is undefined. *)
Definition ceil_div (a b : Z) : Z := - ((- a) / b).
Definition bucket_count (a : dargs) : outcome Z :=
  obind (int64 (dist_range_max a - dist_range_min a)) (fun range =>
  if dist_precise a =? 0 then UB else
  let c := ceil_div range (dist_precise a) in
  if (c <? 0) || (2 ^ 32 <=? c) then UB else Ok c).
Definition new_dist (ts : Z) (a : dargs) : outcome metric :=
  obind (bucket_count a) (fun n => Ok (Metric kHistogram 0 0 0 0 ts 0 a (repeat 0 (Z.to_nat n)))).

(** metrics_container.cc:12-15 MetricBase::UpdateMinMax. *)
Definition UpdateMinMax (m : metric) (v : Z) : metric :=
  Metric (m_type m) (counter m) (Z.min (min_value m) v) (Z.max (max_value m) v) (total_value m) (start_ts m) (latest_value m) (args m) (percentile_bucket m).
(** The statements counter++ and total_value += v of HandleGuage (173, 175) and HandleHistogram (194, 196). *)
Definition count_total (m : metric) (v : Z) : outcome metric :=
  obind (int64 (total_value m + v)) (fun t =>
  Ok (Metric (m_type m) (u64 (counter m + 1)) (min_value m) (max_value m) t (start_ts m) (latest_value m) (args m) (percentile_bucket m))).
Definition set_latest (m : metric) (v : Z) : metric :=
  Metric (m_type m) (counter m) (min_value m) (max_value m) (total_value m) (start_ts m) v (args m) (percentile_bucket m).
Definition set_buckets (m : metric) (bs : list Z) : metric :=
  Metric (m_type m) (counter m) (min_value m) (max_value m) (total_value m) (start_ts m) (latest_value m) (args m) bs.

(** percentile_bucket[i]++ (an index outside the vector is undefined). *)
Fixpoint incr_at (bs : list Z) (i : nat) : outcome (list Z) :=
  match bs, i with
  | [], _ => UB
  | b :: bs, O => Ok (u32 (b + 1) :: bs)
  | b :: bs, S i => obind (incr_at bs i) (fun bs' => Ok (b :: bs'))
  end.
(** metrics_container.cc:78-87 MetricDist::IncrBucketByValue; back() and front() of an empty vector are undefined,
    [uint32_t pos] is the quotient truncated towards zero and reduced modulo 2^32. The quotient itself overflows only for
    INT64_MIN / -1. *)
Definition IncrBucketByValue (a : dargs) (bs : list Z) (v : Z) : outcome (list Z) :=
  if dist_range_max a <=? v then incr_at bs (length bs - 1)
  else if v <=? dist_range_min a then incr_at bs 0
  else if dist_precise a =? 0 then UB
  else obind (int64 (Z.quot v (dist_precise a))) (fun q => 
    let pos := u32 q in
    if pos <? Z.of_nat (length bs) then incr_at bs (Z.to_nat pos) else UB).

(** metrics_container.cc:23-34 MetricGuage::Merge. *)
Definition gauge_merge (m o : metric) : outcome metric :=
  obind (int64 (total_value m + total_value o)) (fun t =>
  Ok (Metric (m_type m) (u64 (counter m + counter o)) (Z.min (min_value o) (min_value m)) (Z.max (max_value o) (max_value m)) t
     (start_ts m) (latest_value o) (args m) (percentile_bucket m))).
(** metrics_container.cc:58-76 MetricDist::Merge: returns without merging when the sizes are EQUAL; otherwise adds
    other->percentile_bucket[i] for each own i, reading past the end of a shorter vector. *)
Fixpoint add_buckets (a b : list Z) : outcome (list Z) :=
  match a, b with
  | [], _ => Ok []
  | _ :: _, [] => UB
  | x :: a, y :: b => obind (add_buckets a b) (fun r => Ok (u32 (x + y) :: r))
  end.
Definition dist_merge (m o : metric) : outcome metric :=
  if Nat.eqb (length (percentile_bucket m)) (length (percentile_bucket o)) then Ok m else
  obind (int64 (total_value m + total_value o)) (fun t =>
  obind (add_buckets (percentile_bucket m) (percentile_bucket o)) (fun bs =>
  Ok (Metric (m_type m) (u64 (counter m + counter o)) (Z.min (min_value o) (min_value m)) (Z.max (max_value o) (max_value m)) t
     (start_ts m) (latest_value m) (args m) bs))).

(** metrics_container.cc:98-106 MetricDist::CalculatePecentile(uint32_t): [pct_index count i sum buckets] is the loop. *)
Fixpoint pct_index (count i sum : Z) (bs : list Z) : Z :=
  match bs with
  | [] => i
  | b :: bs => if sum <? count then pct_index count (i + 1) (u64 (sum + b)) bs else i
  end.
Definition CalculatePecentile (m : metric) (percent : Z) : outcome Z :=
  let count := u32 (u64 (counter m * percent) / 100) in
  obind (int64 (dist_precise (args m) * pct_index count 0 0 (percentile_bucket m))) (fun r => Ok (u32 r)).

(** metrics_container.cc:111 std::sort. *)
Fixpoint insert (x : Z) (l : list Z) : list Z :=
  match l with [] => [x] | y :: r => if x <=? y then x :: l else y :: insert x r end.
Fixpoint sort (l : list Z) : list Z := match l with [] => [] | x :: r => insert x (sort r) end.
(** metrics_container.cc:113-123: the loop of the vector version, from bucket index [bucket] on; results not assigned stay 0.
    (precise * bucket stays below the range, so it does not overflow.) *)
Fixpoint pct_vec (cnt precise bucket sum : Z) (bs percent : list Z) : list Z :=
  match percent with
  | [] => []
  | p :: ps =>
      match bs with
      | [] => map (fun _ => 0) percent
      | b :: bs =>
          let sum := u64 (sum + b) in
          if u64 ((cnt / 100) * p) <? sum then u32 (precise * bucket) :: pct_vec cnt precise (bucket + 1) sum bs ps
          else pct_vec cnt precise (bucket + 1) sum bs percent
      end
  end.
(** metrics_container.cc:108-124. *)
Definition CalculatePecentiles (m : metric) (percent : list Z) : list Z :=
  pct_vec (counter m) (dist_precise (args m)) 0 0 (percentile_bucket m) (sort percent).

(** metrics_container.cc:89-96 Duration, Qps at time [now]. *)
Definition Qps (m : metric) (now : Z) : Z :=
  let duration := u32 (now - start_ts m) in if 0 <? duration then u32 (counter m / duration) else u32 (counter m).

(** The fields of a report line, metrics_container.cc:36-41 and 126-141 (to_json). total_value / counter divides an int64_t
    by a uint64_t: the total is converted to uint64_t. *)
Inductive line : Set :=
| GaugeLine (max min count avg : Z)
| DistLine (dist : list Z) (qps sum min max : Z) (avg : option Z).
Definition to_json (now : Z) (m : metric) : line :=
  match m_type m with
  | kGauge => GaugeLine (max_value m) (min_value m) (counter m)
                (if 0 <? counter m then u64 (total_value m) / counter m else 0)
  | kHistogram => DistLine (CalculatePecentiles m [50; 80; 90; 95; 99]) (Qps m now) (total_value m) (min_value m) (max_value m)
                (if 0 <? counter m then Some (u32 (u64 (total_value m) / counter m)) else None)
  end.

(** metrics_container.h:63-92 MetricContainer: start_time and the map datas_ (an association list, keys unique). *)
Record container : Set := Cont { start_time : Z; datas : list (name * metric) }.
Definition new_container (now : Z) : container := Cont now [].
Fixpoint find (n : name) (l : list (name * metric)) : option metric :=
  match l with [] => None | (k, m) :: r => if name_eqb k n then Some m else find n r end.
Fixpoint put (n : name) (m : metric) (l : list (name * metric)) : list (name * metric) :=
  match l with [] => [(n, m)] | (k, x) :: r => if name_eqb k n then (k, m) :: r else (k, x) :: put n m r end.

(** metrics_container.cc:243-251 GetGuage: an entry of the other class is cast to MetricGuage*; every caller then uses
    it as one, which is undefined. *)
Definition GetGuage (c : container) (n : name) : outcome metric :=
  match find n (datas c) with
  | Some m => if mtype_eqb (m_type m) kGauge then Ok m else UB
  | None => Ok (new_gauge (start_time c))
  end.
(** metrics_container.cc:253-269 GetHistogram (also 183-189); [provider] is Provider::GetDistArgs. *)
Definition GetHistogram (provider : name -> option dargs) (c : container) (n : name) : outcome metric :=
  match find n (datas c) with
  | Some m => if mtype_eqb (m_type m) kHistogram then Ok m else UB
  | None => new_dist (start_time c) (match provider n with Some a => a | None => kDefaultDistArgs end)
  end.
Definition store (c : container) (n : name) (m : metric) : container := Cont (start_time c) (put n m (datas c)).
(** metrics_container.cc:168-178 HandleGuage. *)
Definition HandleGuage (c : container) (it : item) : outcome container :=
  if negb (mtype_eqb (it_type it) kGauge) then CheckFail else
  obind (GetGuage c (it_name it)) (fun m =>
  obind (count_total (UpdateMinMax m (it_value it)) (it_value it)) (fun m =>
  Ok (store c (it_name it) (set_latest m (it_value it))))).
(** metrics_container.cc:180-198 HandleHistogram. *)
Definition HandleHistogram (provider : name -> option dargs) (c : container) (it : item) : outcome container :=
  if negb (mtype_eqb (it_type it) kHistogram) then CheckFail else
  obind (GetHistogram provider c (it_name it)) (fun m =>
  obind (count_total (UpdateMinMax m (it_value it)) (it_value it)) (fun m =>
  obind (IncrBucketByValue (args m) (percentile_bucket m) (it_value it)) (fun bs =>
  Ok (store c (it_name it) (set_buckets m bs))))).
(** metrics_stash.cc:104-119: one dequeued item; [handler] is handler_->HandleMetric (always false without a handler). *)
Definition handle1 (handler : item -> bool) (provider : name -> option dargs) (c : container) (it : item) : outcome container :=
  if handler it then Ok c else
  match it_type it with kGauge => HandleGuage c it | kHistogram => HandleHistogram provider c it end.
Fixpoint handle_all (handler : item -> bool) (provider : name -> option dargs) (c : container) (its : list item) : outcome container :=
  match its with
  | [] => Ok c
  | it :: r => obind (handle1 handler provider c it) (fun c => handle_all handler provider c r)
  end.
(** metrics_container.cc:153-166 MetricContainer::Merge. *)
Definition merge1 (provider : name -> option dargs) (c : container) (nm : name * metric) : outcome container :=
  let '(n, o) := nm in
  match m_type o with
  | kGauge => obind (GetGuage c n) (fun m => obind (gauge_merge m o) (fun m => Ok (store c n m)))
  | kHistogram => obind (GetHistogram provider c n) (fun m => obind (dist_merge m o) (fun m => Ok (store c n m)))
  end.
Fixpoint merge_all (provider : name -> option dargs) (c : container) (l : list (name * metric)) : outcome container :=
  match l with [] => Ok c | x :: r => obind (merge1 provider c x) (fun c => merge_all provider c r) end.
Definition Merge (provider : name -> option dargs) (c other : container) : outcome container := merge_all provider c (datas other).
(** metrics_container.cc:216-237 GenerateJsonLineReport: one line per entry. *)
Definition report (now : Z) (c : container) : list (name * line) := map (fun nm => (fst nm, to_json now (snd nm))) (datas c).

(** ** metrics_stash.cc *)
(** Where the stash thread is in StashMain (142-164) and the turbo thread in TurboMain (76-89): at the loop head, inside
    ProcessMetric about to look at queue i (the turbo thread with the number of items of this pass), after ProcessMetric,
    before GenerateReport, ended. *)
Inductive spc : Set := STop | SProc (i : nat) | SMerge | SReport | SEnd.
Inductive tpc : Set := TTop | TProc (i : nat) (n : nat) (c : container) | TEnd.
(** metrics_stash.h:33-78. [printed]: what GenerateReport has written, newest first. The queues are those of the group;
    each is a bag: the concurrent queue keeps order only per producer, and the model does not rely on any order. *)
Record stash : Set := Stash_ { running : bool; enable_turbo : bool; report_interval : Z; last_report_time : Z;
  index : Z; queues : list (list item); cur : container; dispatch : list container; merger : list container;
  stash_pc : spc; turbo_pc : tpc; printed : list (Z * container) }.
Definition with_pc (s : stash) p := Stash_ (running s) (enable_turbo s) (report_interval s) (last_report_time s) (index s) (queues s)
  (cur s) (dispatch s) (merger s) p (turbo_pc s) (printed s).
(** metrics_stash.cc:19-29, 66-74: a new stash with [n] queues (hardware_concurrency()), started at time [now];
    metrics_stash.cc:39-41 SetReportInterval([interval]) before. *)
Definition started (n : nat) (turbo : bool) (interval now : Z) : stash :=
  Stash_ true turbo (if 5 <=? interval then interval else 5) now 0 (repeat [] n) (new_container now) [] []
    STop (if turbo then TTop else TEnd) [].
Fixpoint upd {A} (i : nat) (x : A) (l : list A) : list A :=
  match l, i with [], _ => [] | _ :: l, O => x :: l | y :: l, S i => y :: upd i x l end.

Section Stash.
Variable handler : item -> bool.
Variable provider : name -> option dargs.

(** metrics_stash.cc:43-46 Stash, metrics_stash.h:24 NextQueue (a modulo by 0 is undefined). *)
Definition Stash (s : stash) (it : item) : outcome stash :=
  match length (queues s) with
  | O => UB
  | n =>
      let idx := u32 (index s + 1) in
      let q := Z.to_nat (idx mod Z.of_nat n) in
      Ok (Stash_ (running s) (enable_turbo s) (report_interval s) (last_report_time s) idx
            (upd q (nth q (queues s) [] ++ [it]) (queues s)) (cur s) (dispatch s) (merger s) (stash_pc s) (turbo_pc s) (printed s))
  end.
(** The first statement of StopSync, 49. *)
Definition Stop (s : stash) : stash := Stash_ false (enable_turbo s) (report_interval s) (last_report_time s) (index s) (queues s)
  (cur s) (dispatch s) (merger s) (stash_pc s) (turbo_pc s) (printed s).
(** StopSync has returned (51-63): both threads have been joined. *)
Definition stopped (s : stash) : Prop := running s = false /\ stash_pc s = SEnd /\ turbo_pc s = TEnd.

(** metrics_stash.cc:143-147: the loop test, and the dispatch of a new container in turbo mode. *)
Definition stash_top (s : stash) (now : Z) : stash :=
  if running s then
    Stash_ (running s) (enable_turbo s) (report_interval s) (last_report_time s) (index s) (queues s) (cur s)
      (if enable_turbo s then dispatch s ++ [new_container now] else dispatch s) (merger s) (SProc 0) (turbo_pc s) (printed s)
  else with_pc s SEnd.
(** 94-120: queue [i] is looked at and [taken] (leaving [rest]) is handled on the current container. *)
Definition stash_take (s : stash) (i : nat) (taken rest : list item) : outcome stash :=
  obind (handle_all handler provider (cur s) taken) (fun c =>
  Ok (Stash_ (running s) (enable_turbo s) (report_interval s) (last_report_time s) (index s) (upd i rest (queues s)) c
      (dispatch s) (merger s) (SProc (S i)) (turbo_pc s) (printed s))).
(** 156-161: the merge, when the queue of filled containers is not (seen) empty. *)
Definition stash_merge (s : stash) : outcome stash :=
  match merger s with
  | c :: r => if enable_turbo s
      then obind (Merge provider (cur s) c) (fun c' =>
        Ok (Stash_ (running s) (enable_turbo s) (report_interval s) (last_report_time s) (index s) (queues s) c'
          (dispatch s) r SReport (turbo_pc s) (printed s)))
      else Ok (with_pc s SReport)
  | [] => Ok (with_pc s SReport)
  end.
(** 126-140 GenerateReport at time [now]. *)
Definition GenerateReport (s : stash) (now : Z) : stash :=
  if now - last_report_time s <? 5 then with_pc s STop
  else Stash_ (running s) (enable_turbo s) (report_interval s) now (index s) (queues s) (new_container now)
         (dispatch s) (merger s) STop (turbo_pc s) ((now, cur s) :: printed s).
(** 77-82: the turbo thread takes a container (or, after the timeout, none and tests running_ again). *)
Definition with_turbo (s : stash) p := Stash_ (running s) (enable_turbo s) (report_interval s) (last_report_time s) (index s) (queues s)
  (cur s) (dispatch s) (merger s) (stash_pc s) p (printed s).
Definition turbo_top (s : stash) : stash :=
  if running s then
    match dispatch s with
    | [] => s
    | c :: r => Stash_ (running s) (enable_turbo s) (report_interval s) (last_report_time s) (index s) (queues s) (cur s) r (merger s)
                  (stash_pc s) (TProc 0 0 c) (printed s)
    end
  else with_turbo s TEnd.
Definition turbo_take (s : stash) (c : container) (i n : nat) (taken rest : list item) : outcome stash :=
  obind (handle_all handler provider c taken) (fun c =>
  Ok (Stash_ (running s) (enable_turbo s) (report_interval s) (last_report_time s) (index s) (upd i rest (queues s)) (cur s)
      (dispatch s) (merger s) (stash_pc s) (TProc (S i) (n + length taken) c) (printed s))).
(** 88: hand the filled container over. *)
Definition turbo_done (s : stash) (c : container) : stash :=
  Stash_ (running s) (enable_turbo s) (report_interval s) (last_report_time s) (index s) (queues s) (cur s) (dispatch s)
    (merger s ++ [c]) (stash_pc s) TTop (printed s).

(** What the calling threads, the stash thread and the turbo thread can do next. try_dequeue_bulk gives up to 10000 items
    of the queue, possibly fewer than it holds. [EStash] carries the item, the others the time they read the clock. *)
Inductive event : Set := EStash (it : item) | EStop | EThread (now : Z).
Inductive step : stash -> event -> outcome stash -> Prop :=
| st_stash s it : step s (EStash it) (Stash s it)
| st_stop s : step s EStop (Ok (Stop s))
| st_top s now : stash_pc s = STop -> step s (EThread now) (Ok (stash_top s now))
| st_take s now i q taken rest : stash_pc s = SProc i -> nth_error (queues s) i = Some q ->
    Permutation q (taken ++ rest) -> (Z.of_nat (length taken) <= 10000) -> step s (EThread now) (stash_take s i taken rest)
| st_took s now i : stash_pc s = SProc i -> (length (queues s) <= i)%nat -> step s (EThread now) (Ok (with_pc s SMerge))
| st_merge s now : stash_pc s = SMerge -> step s (EThread now) (stash_merge s)
| st_merge_none s now : stash_pc s = SMerge -> step s (EThread now) (Ok (with_pc s SReport))
| st_report s now : stash_pc s = SReport -> step s (EThread now) (Ok (GenerateReport s now))
| st_ttop s now : turbo_pc s = TTop -> step s (EThread now) (Ok (turbo_top s))
| st_ttake s now i n c q taken rest : turbo_pc s = TProc i n c -> nth_error (queues s) i = Some q ->
    Permutation q (taken ++ rest) -> (Z.of_nat (length taken) <= 10000) -> step s (EThread now) (turbo_take s c i n taken rest)
| st_tagain s now i n c : turbo_pc s = TProc i n c -> (length (queues s) <= i)%nat -> n <> 0%nat ->
    step s (EThread now) (Ok (with_turbo s (TProc 0 0 c)))
| st_tdone s now i n c : turbo_pc s = TProc i n c -> (length (queues s) <= i)%nat -> step s (EThread now) (Ok (turbo_done s c)).
(** An execution from [s] and its events, oldest first; it ends where a step is undefined. *)
Inductive run : stash -> list event -> outcome stash -> Prop :=
| run_nil s : run s [] (Ok s)
| run_cons s e s' es o : step s e (Ok s') -> run s' es o -> run s (e :: es) o
| run_bad s e o es : step s e o -> (forall s', o <> Ok s') -> run s (e :: es) o.
End Stash.
