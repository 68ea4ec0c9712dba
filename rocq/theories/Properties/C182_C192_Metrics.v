(** C182-C192: gauges, histograms and the metrics stash (components/log_metrics). *)
From Verif.Model Require Import Common LogMetrics.
From Verif.Spec Require Import MetricsSpec.
From Verif.Proofs Require Import Tac MetricsProofs MetricsProofs2 MetricsProofs3.
Local Open Scope Z_scope.

Definition none (it : item) : bool := false.
Definition noargs (n : name) : option dargs := None.
Definition safe_ranges (kind : name -> mtype) (provider : name -> option dargs) : Prop :=
  forall n, kind n = kHistogram -> from_zero (settings provider n).
(** Names used below: "lat" (a histogram), "mem" (a gauge). *)
Definition lat : name := [108; 97; 116].
Definition mem : name := [109; 101; 109].
Definition kinds (n : name) : mtype := if name_eqb n lat then kHistogram else kGauge.
Lemma default_from_zero : from_zero kDefaultDistArgs.
Proof. unfold from_zero. cbn. lia. Qed.
Lemma kinds_safe : safe_ranges kinds noargs.
Proof. intros n _. exact default_from_zero. Qed.
Definition sample : list item := [Item kHistogram lat 250; Item kGauge mem (-3); Item kHistogram lat 10; Item kGauge mem 9; Item kHistogram lat 4000000].
Lemma sample_one_kind : one_kind kinds sample.
Proof. intros it I. cbn in I. intuition (subst; vm_compute; reflexivity). Qed.
Lemma magnitude_cons v vs : magnitude (v :: vs) = Z.abs v + magnitude vs.
Proof. reflexivity. Qed.
Lemma vals_bound handler its n : count (vals handler n its) <= Z.of_nat (length its) /\ magnitude (vals handler n its) <= magnitude (map it_value its).
Proof.
  unfold vals. induction its as [|it its IH]; cbn [filter map length]; [cbn; lia|].
  destruct (_ && _); cbn [map]; rewrite ?count_cons, ?magnitude_cons; lia.
Qed.
Lemma moderate_by handler its : Z.of_nat (length its) < 2 ^ 32 -> magnitude (map it_value its) < 2 ^ 63 -> moderate handler its.
Proof. intros A B n. assert (H := vals_bound handler its n). lia. Qed.
Lemma sample_moderate : moderate none sample.
Proof. apply moderate_by; vm_compute; reflexivity. Qed.

(** A container that has been given the items [its]. *)
Lemma filled kind provider handler its now : safe_ranges kind provider -> one_kind kind its -> moderate handler its ->
  exists c, handle_all handler provider (new_container now) its = Ok c /\ summ kind provider c (fun n => vals handler n its).
Proof. intros S K M. exact (handle_all_ok kind provider handler its _ _ (summ_new kind provider now) S K M). Qed.
Lemma entry_filled kind provider handler its now c n m : safe_ranges kind provider -> one_kind kind its -> moderate handler its ->
  handle_all handler provider (new_container now) its = Ok c -> entry_of c n = Some m -> entry kind provider n (vals handler n its) m.
Proof.
  intros S K M H E. destruct (filled kind provider handler its now S K M) as (c' & H' & [_ Su]). rewrite H in H'. inv H'.
  specialize (Su n). unfold entry_of in E. now rewrite E in Su.
Qed.

(** C182. A container fed any sequence of items, each name used as one kind and histogram ranges starting at 0, holds
    exactly one entry per name used, with the number of values recorded under the name and their sum. *)
Theorem C182_count_and_sum kind provider handler its now : safe_ranges kind provider -> one_kind kind its -> moderate handler its ->
  exists c, handle_all handler provider (new_container now) its = Ok c /\ NoDup (map fst (report now c)) /\
  forall n, (vals handler n its = [] -> entry_of c n = None) /\
    (vals handler n its <> [] -> exists m, entry_of c n = Some m /\ m_type m = kind n /\
       counter m = count (vals handler n its) /\ total_value m = sum (vals handler n its)).
Proof.
  intros S K M. destruct (filled kind provider handler its now S K M) as (c & H & [D Su]). exists c. split; [auto|]. split.
  { unfold report. rewrite map_map. cbn. exact D. }
  intro n. split; intro V.
  - unfold entry_of. now rewrite (handle_all_other _ _ _ _ _ _ H V).
  - specialize (Su n). unfold entry_of. destruct (find n (datas c)) as [m|]; [|tauto]. exists m. destruct Su as (T & C & To & _). auto.
Qed.
(** The lines of the report carry these numbers. *)
Theorem C182_report kind provider handler its now now' c n l : safe_ranges kind provider -> one_kind kind its -> moderate handler its ->
  handle_all handler provider (new_container now) its = Ok c -> In (n, l) (report now' c) ->
  match l with
  | GaugeLine _ _ cnt _ => kind n = kGauge /\ cnt = count (vals handler n its)
  | DistLine _ _ s _ _ _ => kind n = kHistogram /\ s = sum (vals handler n its)
  end.
Proof.
  intros S K M H I. unfold report in I. apply in_map_iff in I. destruct I as ([k m] & E & I). cbn in E. inv E.
  destruct (filled kind provider handler its now S K M) as (c' & H' & [D Su]). rewrite H in H'. inv H'.
  specialize (Su n). rewrite (find_in _ _ _ D I) in Su. destruct Su as (T & C & To & _).
  unfold to_json. rewrite T. destruct (kind n); auto.
Qed.
Example C182_nonvacuous : safe_ranges kinds noargs /\ one_kind kinds sample /\ moderate none sample /\
  match handle_all none noargs (new_container 7) sample with
  | Ok c => option_map counter (entry_of c lat) = Some 3 /\ option_map total_value (entry_of c mem) = Some 6 /\ entry_of c [] = None
  | _ => False end.
Proof. split; [exact kinds_safe|]. split; [exact sample_one_kind|]. split; [exact sample_moderate|]. vm_compute. auto. Qed.

(** C183. The reported minimum and maximum are those of the values. Full statement (refuted): *)
Definition C183_statement : Prop := forall kind provider handler its now c n m, safe_ranges kind provider -> one_kind kind its -> moderate handler its ->
  handle_all handler provider (new_container now) its = Ok c -> entry_of c n = Some m ->
  is_min (min_value m) (vals handler n its) /\ is_max (max_value m) (vals handler n its).
Theorem C183_statement_refuted : ~ C183_statement.
Proof.
  intro H. set (its := [Item kGauge mem 5; Item kGauge mem 7]).
  destruct (handle_all none noargs (new_container 0) its) as [c| |] eqn:E; try discriminate.
  destruct (entry_of c mem) as [m|] eqn:Em. 2: { vm_compute in E. inv E. discriminate. }
  destruct (H kinds noargs none its 0 c mem m) as [[I _] _]; auto using kinds_safe.
  - intros it I. cbn in I. intuition (subst; vm_compute; reflexivity).
  - apply moderate_by; vm_compute; reflexivity.
  - vm_compute in E. inv E. vm_compute in Em. inv Em. vm_compute in I. intuition discriminate.
Qed.
(** What holds: they are the minimum and maximum of the values and of 0, hence right when some value is not positive
    (for the minimum), not negative (for the maximum). *)
Theorem C183_min_max_with_zero_partial kind provider handler its now c n m : safe_ranges kind provider -> one_kind kind its -> moderate handler its ->
  handle_all handler provider (new_container now) its = Ok c -> entry_of c n = Some m ->
  is_min (min_value m) (0 :: vals handler n its) /\ is_max (max_value m) (0 :: vals handler n its) /\
  ((exists v, In v (vals handler n its) /\ v <= 0) -> is_min (min_value m) (vals handler n its)) /\
  ((exists v, In v (vals handler n its) /\ 0 <= v) -> is_max (max_value m) (vals handler n its)).
Proof.
  intros S K M H E. destruct (entry_filled _ _ _ _ _ _ _ _ S K M H E) as (_ & _ & _ & Mi & Ma & _). rewrite Mi, Ma.
  set (vs := vals handler n its). assert (A := lmin_is_min vs). assert (B := lmax_is_max vs). split; [auto|]. split; [auto|].
  destruct A as [A1 A2], B as [B1 B2]. split; intros (v & I & L).
  - split; [|intros x Ix; apply A2; now right]. destruct A1 as [A1|A1]; auto. rewrite <- A1 in *.
    assert (v = 0) by (specialize (A2 v (or_intror I)); lia). now subst.
  - split; [|intros x Ix; apply B2; now right]. destruct B1 as [B1|B1]; auto. rewrite <- B1 in *.
    assert (v = 0) by (specialize (B2 v (or_intror I)); lia). now subst.
Qed.
Example C183_nonvacuous : match handle_all none noargs (new_container 7) sample with
  | Ok c => option_map min_value (entry_of c mem) = Some (-3) /\ option_map max_value (entry_of c mem) = Some 9 /\ option_map min_value (entry_of c lat) = Some 0
  | _ => False end.
Proof. vm_compute. auto. Qed.

(** C184. A histogram with any sensible range counts each value in the bucket it belongs to. Full statement (refuted:
    with a range that starts above 0 a value of the range is counted outside the array). *)
Definition C184_statement : Prop := forall a v n, 0 < dist_precise a -> 0 <= dist_range_min a < dist_range_max a -> dist_range_max a < 2 ^ 31 ->
  0 <= v < 2 ^ 63 -> handle1 none (fun _ => Some a) (new_container 0) (Item kHistogram n v) <> UB.
Theorem C184_statement_refuted : ~ C184_statement.
Proof. intro H. apply (H (Args 100 500 1000) 900 lat); cbn [dist_precise dist_range_min dist_range_max]; try lia. vm_compute. reflexivity. Qed.
(** A negative lower end is no better. *)
Theorem C184_negative_range_refuted : ~ (forall a v n, 0 < dist_precise a -> dist_range_min a < 0 < dist_range_max a -> dist_range_max a - dist_range_min a < 2 ^ 31 ->
  dist_range_min a <= v <= dist_range_max a -> handle1 none (fun _ => Some a) (new_container 0) (Item kHistogram n v) <> UB).
Proof. intro H. apply (H (Args 100 (-1000) 1000) (-500) lat); cbn [dist_precise dist_range_min dist_range_max]; try lia. vm_compute. reflexivity. Qed.
(** With an empty range there is no bucket, and every value is counted outside the array. *)
Theorem C184_empty_range_refuted : forall v n, 0 <= v < 2 ^ 63 -> handle1 none (fun _ => Some (Args 100 0 0)) (new_container 0) (Item kHistogram n v) = UB.
Proof.
  intros v n V. unfold handle1, none. cbn [it_type]. unfold HandleHistogram. cbn [it_type it_name it_value mtype_eqb negb]. unfold GetHistogram. cbn [new_container datas find].
  assert (E : forall t, new_dist t (Args 100 0 0) = Ok (Metric kHistogram 0 0 0 0 t 0 (Args 100 0 0) [])) by reflexivity. rewrite E. unfold count_total, UpdateMinMax. cbn -[int64 IncrBucketByValue Z.min Z.max u64]. destruct (int64 v) eqn:I; cbn -[IncrBucketByValue Z.min Z.max u64]; try reflexivity.
  - unfold IncrBucketByValue. cbn [dist_range_max]. destruct (Z.leb_spec 0 v); [reflexivity|lia].
  - unfold int64 in I. destruct (int64b v) in I; discriminate I.
Qed.
(** What holds, for ranges [0, max): bucket i counts the values v with precise*i <= v < precise*(i+1) (the first bucket also
    the negative ones, the last one also those from max on), and the buckets add up to the number of values. *)
Theorem C184_buckets_partial kind provider handler its now c n m : safe_ranges kind provider -> one_kind kind its -> moderate handler its ->
  handle_all handler provider (new_container now) its = Ok c -> entry_of c n = Some m -> kind n = kHistogram ->
  let a := settings provider n in
  Z.of_nat (length (percentile_bucket m)) = n_buckets a /\
  (forall i, (i < length (percentile_bucket m))%nat ->
     nth i (percentile_bucket m) 0 = how_many (fun v => bucket_of a v =? Z.of_nat i) (vals handler n its)) /\
  sum (percentile_bucket m) = count (vals handler n its).
Proof.
  intros S K M H E Kn a. destruct (entry_filled _ _ _ _ _ _ _ _ S K M H E) as (_ & _ & _ & _ & _ & A). destruct (A Kn) as [A1 A2].
  fold a in A2. assert (F : from_zero a) by (apply S; auto). assert (NB := n_buckets_bounds a F).
  rewrite A2, tally_length, sum_tally by auto. split; [lia|]. split; auto. intros i Hi. now apply tally_nth.
Qed.
Theorem C184_bucket_meaning_partial a v : from_zero a ->
  (0 <= v < dist_range_max a -> dist_precise a * bucket_of a v <= v < dist_precise a * (bucket_of a v + 1)) /\
  (v < 0 -> bucket_of a v = 0) /\ (dist_range_max a <= v -> bucket_of a v = n_buckets a - 1) /\
  dist_precise a * (n_buckets a - 1) < dist_range_max a <= dist_precise a * n_buckets a.
Proof.
  intro F. assert (NB := n_buckets_bounds a F). destruct F as (E & P & [R1 R2] & R3). unfold bucket_of.
  split; [|split; [|split] ]; try lia.
  - intro V. destruct (Z.leb_spec (dist_range_max a) v); [lia|]. destruct (Z.leb_spec v 0); [nia|].
    assert (D := Z.div_mod v (dist_precise a) ltac:(lia)). assert (Mo := Z.mod_pos_bound v (dist_precise a) P). nia.
  - intro V. destruct (Z.leb_spec (dist_range_max a) v); [lia|]. destruct (Z.leb_spec v 0); [auto|lia].
  - intro V. destruct (Z.leb_spec (dist_range_max a) v); [auto|lia].
Qed.
Example C184_nonvacuous : from_zero kDefaultDistArgs /\ n_buckets kDefaultDistArgs = 10000 /\
  map (bucket_of kDefaultDistArgs) [250; 10; 4000000; -1; 999999] = [2; 0; 9999; 0; 9999].
Proof. split; [exact default_from_zero|]. vm_compute. auto. Qed.

(** C185. The single percentile of a histogram is right up to one bucket: at least p percent of the (cut off) values are at
    or below it, and fewer are more than one bucket width below it. *)
Theorem C185_percentile kind provider handler its now c n m p : safe_ranges kind provider -> one_kind kind its -> moderate handler its ->
  handle_all handler provider (new_container now) its = Ok c -> entry_of c n = Some m -> kind n = kHistogram ->
  let a := settings provider n in let vs := vals handler n its in
  dist_range_max a + dist_precise a <= 2 ^ 32 -> 0 <= p <= 100 ->
  exists r, CalculatePecentile m p = Ok r /\
    count vs * p / 100 <= how_many (fun v => clamp a v <=? r) vs /\
    (0 < r -> how_many (fun v => clamp a v <? r - dist_precise a) vs < count vs * p / 100).
Proof.
  intros S K M H E Kn a vs R P. apply percentile_ok with (kind := kind); auto; [eapply entry_filled; eauto|apply M].
Qed.
Definition lats (vs : list Z) : list item := map (Item kHistogram lat) vs.
Definition lat_line (vs : list Z) : option line :=
  match handle_all none noargs (new_container 0) (lats vs) with Ok c => option_map (to_json 10) (entry_of c lat) | _ => None end.
Definition lat_pct (vs : list Z) (p : Z) : option (outcome Z) :=
  match handle_all none noargs (new_container 0) (lats vs) with Ok c => option_map (fun m => CalculatePecentile m p) (entry_of c lat) | _ => None end.
Example C185_nonvacuous : lat_pct [10; 20; 30; 450; 460; 470; 480; 9900; 1500; 700] 50 = Some (Ok 500) /\
  lat_pct [10; 20; 30; 450; 460; 470; 480; 9900; 1500; 700] 90 = Some (Ok 1600).
Proof. vm_compute. auto. Qed.

(** C186. Each percentile of the report names the bucket that contains it: no more than p percent of the values lie below
    the bucket and at least p percent in or below it. Full statement (refuted: the loop hands out at most one percentile
    per bucket, so five values of 10 are reported with a 99th percentile of 400, and values all in the last bucket with 0). *)
Definition C186_statement : Prop := forall vs i p, vs <> [] -> Forall (fun v => 0 <= v < 1000000) vs -> count vs < 2 ^ 31 ->
  nth_error [50; 80; 90; 95; 99] i = Some p ->
  match lat_line vs with
  | Some (DistLine dist _ _ _ _ _) => exists r, nth_error dist i = Some r /\
      how_many (fun v => v <? r) vs <= count vs * p / 100 <= how_many (fun v => v <? r + 100) vs
  | _ => False
  end.
Theorem C186_statement_refuted : ~ C186_statement.
Proof.
  intro H. specialize (H [10; 10; 10; 10; 10] 4%nat 99 ltac:(discriminate)).
  assert (E : lat_line [10; 10; 10; 10; 10] = Some (DistLine [0; 100; 200; 300; 400] 0 50 0 10 (Some 10))) by (vm_compute; reflexivity).
  rewrite E in H. destruct H as (r & Er & H); [repeat constructor; lia|vm_compute; reflexivity|reflexivity|].
  cbn in Er. inv Er. vm_compute in H. intuition congruence.
Qed.
Example C186_last_bucket : match lat_line [999999; 999998; 999997] with
  | Some (DistLine dist _ _ _ _ _) => dist = [999900; 0; 0; 0; 0] | _ => False end.
Proof. vm_compute. reflexivity. Qed.
(** What holds: the 50th percentile is right (p percent being counted as (count / 100) * p); the others, where not 0, are
    not too small. *)
Theorem C186_median_and_lower_bound_partial kind provider handler its now now' c n m : safe_ranges kind provider -> one_kind kind its -> moderate handler its ->
  handle_all handler provider (new_container now) its = Ok c -> entry_of c n = Some m -> kind n = kHistogram -> vals handler n its <> [] ->
  let a := settings provider n in let vs := vals handler n its in dist_range_max a + dist_precise a <= 2 ^ 32 ->
  exists dist qps s mn mx avg, to_json now' m = DistLine dist qps s mn mx avg /\
  forall i p, nth_error [50; 80; 90; 95; 99] i = Some p -> exists r, nth_error dist i = Some r /\
    (r <> 0 -> count vs / 100 * p < how_many (fun v => clamp a v <=? r + dist_precise a) vs) /\
    (i = 0%nat -> how_many (fun v => clamp a v <? r) vs <= count vs / 100 * p < how_many (fun v => clamp a v <=? r + dist_precise a) vs).
Proof.
  intros S K M H E Kn V a vs R. assert (En := entry_filled _ _ _ _ _ _ _ _ S K M H E). unfold to_json. rewrite (proj1 En), Kn.
  do 6 eexists. split; [reflexivity|]. apply (report_percentiles kind provider n vs m); auto.
  assert (B := M n). fold vs in B. split; [|apply B]. unfold vs in *. destruct (vals handler n its); [tauto|]. rewrite count_cons.
  assert (Cp := count_pos l). lia.
Qed.

(** C187. Merging the container of the turbo thread gives what one container would have held. Full statement (refuted: two
    histograms are merged only when their sizes DIFFER, so all values of the merged histogram are dropped). *)
Definition C187_statement : Prop := forall kind provider handler its1 its2 t1 t2 c1 c2 c12, safe_ranges kind provider -> one_kind kind (its1 ++ its2) ->
  moderate handler (its1 ++ its2) -> handle_all handler provider (new_container t1) its1 = Ok c1 -> handle_all handler provider (new_container t2) its2 = Ok c2 ->
  handle_all handler provider (new_container t1) (its1 ++ its2) = Ok c12 ->
  exists c, Merge provider c1 c2 = Ok c /\ forall n, count_in n c = count_in n c12 /\ total_in n c = total_in n c12.
Theorem C187_statement_refuted : ~ C187_statement.
Proof.
  intro H. set (i1 := lats [5]). set (i2 := lats [6; 7]).
  destruct (handle_all none noargs (new_container 0) i1) as [c1| |] eqn:E1; try discriminate.
  destruct (handle_all none noargs (new_container 0) i2) as [c2| |] eqn:E2; try discriminate.
  destruct (handle_all none noargs (new_container 0) (i1 ++ i2)) as [c12| |] eqn:E12; try discriminate.
  destruct (H kinds noargs none i1 i2 0 0 c1 c2 c12) as (c & Mc & Q); auto using kinds_safe.
  - intros it I. cbn in I. intuition (subst; vm_compute; reflexivity).
  - apply moderate_by; vm_compute; reflexivity.
  - destruct (Q lat) as [Q1 _].
    assert (A1 : count_in lat c12 = 3). { assert (X : match handle_all none noargs (new_container 0) (i1 ++ i2) with Ok c => count_in lat c | _ => 0 end = 3) by (vm_compute; reflexivity). now rewrite E12 in X. }
    assert (A2 : count_in lat c = 1). { assert (X : match handle_all none noargs (new_container 0) i1 with Ok x => match handle_all none noargs (new_container 0) i2 with Ok y => match Merge noargs x y with Ok z => count_in lat z | _ => 0 end | _ => 0 end | _ => 0 end = 1) by (vm_compute; reflexivity).
      rewrite E1, E2, Mc in X. exact X. }
    lia.
Qed.
Theorem C187_gauges_partial kind provider handler its1 its2 t1 t2 c1 c2 : safe_ranges kind provider -> one_kind kind (its1 ++ its2) ->
  moderate handler (its1 ++ its2) -> handle_all handler provider (new_container t1) its1 = Ok c1 -> handle_all handler provider (new_container t2) its2 = Ok c2 ->
  exists c, Merge provider c1 c2 = Ok c /\
  forall n, (kind n = kGauge -> count_in n c = count (vals handler n (its1 ++ its2)) /\ total_in n c = sum (vals handler n (its1 ++ its2)) /\
     forall m, entry_of c n = Some m -> is_min (min_value m) (0 :: vals handler n (its1 ++ its2)) /\ is_max (max_value m) (0 :: vals handler n (its1 ++ its2))) /\
   (kind n = kHistogram -> count_in n c = count (vals handler n its1) /\ total_in n c = sum (vals handler n its1)).
Proof.
  intros S K M H1 H2.
  assert (K1 : one_kind kind its1) by (intros x I; apply K, in_or_app; auto). assert (K2 : one_kind kind its2) by (intros x I; apply K, in_or_app; auto).
  assert (M1 : moderate handler its1). { intro n. specialize (M n). rewrite vals_app, count_app, magnitude_app in M. assert (P1 := count_pos (vals handler n its2)). assert (P2 := magnitude_pos (vals handler n its2)). lia. }
  assert (M2 : moderate handler its2). { intro n. specialize (M n). rewrite vals_app, count_app, magnitude_app in M. assert (P1 := count_pos (vals handler n its1)). assert (P2 := magnitude_pos (vals handler n its1)). lia. }
  destruct (filled kind provider handler its1 t1 S K1 M1) as (d1 & H1' & S1). rewrite H1 in H1'. inv H1'.
  destruct (filled kind provider handler its2 t2 S K2 M2) as (d2 & H2' & S2). rewrite H2 in H2'. inv H2'.
  destruct (Merge_ok kind provider d1 d2 _ _ S1 S2 S) as (c & Mc & Sc).
  { intro n. specialize (M n). now rewrite vals_app in M. }
  exists c. split; [auto|]. intro n. assert (Q := summ_count kind provider c _ n Sc). cbv beta in Q.
  split; intro Kn; rewrite Kn in Q; cbn in Q.
  - rewrite vals_app. split; [apply Q|]. split; [apply Q|]. intros m Em. destruct Sc as [_ Sc]. specialize (Sc n). unfold entry_of in Em. rewrite Em, Kn in Sc.
    destruct Sc as (_ & _ & _ & Mi & Ma & _). cbn in Mi, Ma. rewrite Mi, Ma. split; [apply lmin_is_min|apply lmax_is_max].
  - rewrite app_nil_r in Q. exact Q.
Qed.
Example C187_nonvacuous : one_kind kinds (sample ++ sample) /\ moderate none (sample ++ sample) /\
  match handle_all none noargs (new_container 0) sample with
  | Ok c => match Merge noargs c c with Ok d => count_in mem d = 4 /\ total_in mem d = 12 /\ count_in lat d = 3 | _ => False end
  | _ => False end.
Proof.
  split. { intros it I. apply sample_one_kind. apply in_app_or in I. tauto. }
  split; [apply moderate_by; vm_compute; reflexivity|]. vm_compute. auto.
Qed.

(** C188. Recording never goes wrong, whatever names the program chooses. Full statement (refuted: a name used both as a gauge
    and as a histogram makes the container use one object as the other). *)
Definition C188_statement : Prop := forall its now, moderate none its -> exists c, handle_all none noargs (new_container now) its = Ok c.
Theorem C188_statement_refuted : ~ C188_statement.
Proof.
  intro H. destruct (H [Item kGauge lat 1; Item kHistogram lat 2] 0) as (c & E); [apply moderate_by; vm_compute; reflexivity|].
  vm_compute in E. discriminate.
Qed.
Example C188_other_order : handle_all none noargs (new_container 0) [Item kHistogram lat 2; Item kGauge lat 1] = UB.
Proof. vm_compute. reflexivity. Qed.
Theorem C188_one_kind_per_name_partial kind its now : one_kind kind its -> moderate none its ->
  exists c, handle_all none noargs (new_container now) its = Ok c.
Proof.
  intros K M. destruct (filled kind noargs none its now) as (c & H & _); eauto. intros n _. exact default_from_zero.
Qed.
Example C188_nonvacuous : one_kind kinds sample /\ moderate none sample.
Proof. split; [exact sample_one_kind|exact sample_moderate]. Qed.

(** C189. Whatever the interleaving of recording threads, stash thread, turbo thread and Stop, every recorded value that no
    handler claimed is in exactly one place: printed, in a container on its way to a report, or still queued (histograms: with
    turbo mode off; with turbo mode on they are never counted twice). No schedule reaches undefined behaviour. *)
Theorem C189_each_value_once kind provider handler queues_n turbo interval now es o : (0 < queues_n)%nat -> safe_ranges kind provider ->
  one_kind kind (stashed es) -> moderate handler (stashed es) -> run handler provider (started queues_n turbo interval now) es o ->
  exists s, o = Ok s /\ forall n,
   (kind n = kGauge \/ turbo = false ->
    zsum (count_in n) (map snd (printed s)) + zsum (count_in n) (pending s) + count (vals handler n (queued s)) = count (vals handler n (stashed es)) /\
    zsum (total_in n) (map snd (printed s)) + zsum (total_in n) (pending s) + sum (vals handler n (queued s)) = sum (vals handler n (stashed es))) /\
    zsum (count_in n) (map snd (printed s)) + zsum (count_in n) (pending s) + count (vals handler n (queued s)) <= count (vals handler n (stashed es)).
Proof.
  intros N S K M R. destruct (run_conserves kind provider handler queues_n turbo interval now es o N S K M R) as (s & E & _ & H). eauto.
Qed.
(** A run: two values recorded, one pass over the two queues, a report 6 s later. *)
Definition memi (v : Z) := Item kGauge mem v.
Lemma run_step handler provider s e o s' es r : step handler provider s e o -> o = Ok s' -> run handler provider s' es r -> run handler provider s (e :: es) r.
Proof. intros H -> R. eapply run_cons; eauto. Qed.
Definition day : list event := [EStash (memi 4); EStash (memi 5); EThread 100; EThread 100; EThread 100; EThread 100; EThread 100; EThread 106].
Lemma day_runs : exists s, run none noargs (started 2 false 30 100) day (Ok s) /\ map fst (printed s) = [106] /\ zsum (count_in mem) (map snd (printed s)) = 2.
Proof.
  eexists. split.
  - unfold day. eapply run_step; [apply st_stash|vm_compute; reflexivity|]. eapply run_step; [apply st_stash|vm_compute; reflexivity|].
    eapply run_step; [apply st_top; reflexivity|vm_compute; reflexivity|].
    eapply run_step; [eapply st_take with (taken := [memi 5]) (rest := []); [reflexivity|reflexivity|apply Permutation_refl|cbn; lia]|vm_compute; reflexivity|].
    eapply run_step; [eapply st_take with (taken := [memi 4]) (rest := []); [reflexivity|reflexivity|apply Permutation_refl|cbn; lia]|vm_compute; reflexivity|].
    eapply run_step; [eapply st_took; [reflexivity|cbn; lia]|vm_compute; reflexivity|].
    eapply run_step; [apply st_merge; reflexivity|vm_compute; reflexivity|].
    eapply run_step; [apply st_report; reflexivity|vm_compute; reflexivity|]. apply run_nil.
  - vm_compute. auto.
Qed.
Example C189_nonvacuous : one_kind kinds (stashed day) /\ moderate none (stashed day) /\
  exists s, run none noargs (started 2 false 30 100) day (Ok s) /\ zsum (count_in mem) (map snd (printed s)) = 2.
Proof.
  split. { intros it I. cbn in I. intuition (subst; vm_compute; reflexivity). }
  split; [apply moderate_by; vm_compute; reflexivity|]. destruct day_runs as (s & R & _ & P). eauto.
Qed.

(** C190. SetReportInterval(d), d >= 5: reports are at least d seconds apart. Full statement (refuted: the interval is stored
    and never read; a constant 5 is used). *)
Definition C190_statement : Prop := forall provider handler n turbo d now es s, 5 <= d -> run handler provider (started n turbo d now) es (Ok s) ->
  spaced_by d now (map fst (printed s)).
Theorem C190_statement_refuted : ~ C190_statement.
Proof. intro H. destruct day_runs as (s & R & P & _). specialize (H noargs none 2%nat false 30 100 day s ltac:(lia) R). rewrite P in H. cbn in H. lia. Qed.
Theorem C190_five_seconds_partial provider handler n turbo d now es s : run handler provider (started n turbo d now) es (Ok s) ->
  spaced_by 5 now (map fst (printed s)).
Proof. intro R. eapply (run_spaced handler provider now); eauto. cbn. auto. Qed.
Example C190_nonvacuous : exists s, run none noargs (started 2 false 30 100) day (Ok s) /\ map fst (printed s) = [106].
Proof. destruct day_runs as (s & R & P & _). eauto. Qed.

(** C191. The average in a gauge's line lies between the smallest and the largest value. Full statement (refuted: a negative sum
    is converted to an unsigned number). *)
Definition C191_statement : Prop := forall its now c n mx mn cnt avg lo hi, one_kind (fun _ => kGauge) its -> moderate none its ->
  handle_all none noargs (new_container now) its = Ok c -> In (n, GaugeLine mx mn cnt avg) (report now c) ->
  is_min lo (vals none n its) -> is_max hi (vals none n its) -> lo <= avg <= hi.
Theorem C191_statement_refuted : ~ C191_statement.
Proof.
  intro H. assert (X : -5 <= 9223372036854775803 <= -5); [|lia].
  eapply (H [memi (-5); memi (-5)] 0 _ mem).
  - intros it I. cbn in I. intuition (subst; reflexivity).
  - apply moderate_by; vm_compute; reflexivity.
  - vm_compute. reflexivity.
  - vm_compute. left. reflexivity.
  - split; [vm_compute; auto|]. intros v I. vm_compute in I. intuition (subst; lia).
  - split; [vm_compute; auto|]. intros v I. vm_compute in I. intuition (subst; lia).
Qed.
Lemma sum_between vs lo hi : (forall v, In v vs -> lo <= v <= hi) -> count vs * lo <= sum vs <= count vs * hi.
Proof.
  induction vs as [|v vs IH]; intro H; [cbn; lia|]. rewrite count_cons. cbn [sum fold_right]. fold (sum vs).
  assert (A := H v (or_introl eq_refl)). assert (B := IH (fun x I => H x (or_intror I))). nia.
Qed.
Theorem C191_nonnegative_partial its now c n mx mn cnt avg lo hi : one_kind (fun _ => kGauge) its -> moderate none its ->
  handle_all none noargs (new_container now) its = Ok c -> In (n, GaugeLine mx mn cnt avg) (report now c) ->
  is_min lo (vals none n its) -> is_max hi (vals none n its) -> 0 <= sum (vals none n its) ->
  avg = sum (vals none n its) / count (vals none n its) /\ lo <= avg <= hi.
Proof.
  intros K M H I [L1 L2] [H1 H2] P. set (vs := vals none n its) in *.
  assert (S : safe_ranges (fun _ => kGauge) noargs) by (intros ? ?; exact default_from_zero).
  unfold report in I. apply in_map_iff in I. destruct I as ([k m] & E & I). cbn in E. injection E as -> E2.
  destruct (filled _ noargs none its now S K M) as (c' & H' & [D Su]). rewrite H in H'. inv H'.
  specialize (Su n). rewrite (find_in _ _ _ D I) in Su. destruct Su as (T & C & To & _). fold vs in C, To.
  unfold to_json in E2. rewrite T in E2. inv E2. rewrite C, To.
  assert (Sm := sum_magnitude vs). assert (Mm := M n). fold vs in Mm. rewrite u64_small by lia.
  assert (Cp : 0 < count vs). { destruct vs; [cbn in L1; tauto|]. rewrite count_cons. assert (Q := count_pos vs). lia. }
  destruct (Z.ltb_spec 0 (count vs)); [|lia]. split; auto.
  assert (B := sum_between vs lo hi (fun v I => conj (L2 v I) (H2 v I))).
  split; [apply Z.div_le_lower_bound; lia|]. apply Z.div_le_upper_bound; lia.
Qed.
Example C191_nonvacuous : match handle_all none noargs (new_container 0) [memi (-3); memi 9; memi 7] with
  | Ok c => In (mem, GaugeLine 9 (-3) 3 4) (report 0 c) | _ => False end /\ is_min (-3) [-3; 9; 7] /\ is_max 9 [-3; 9; 7].
Proof. split; [vm_compute; auto|]. split; (split; [cbn; auto|]; intros v I; cbn in I; intuition (subst; lia)). Qed.

(** C192. When StopSync has returned, every recorded value has been reported. Full statement (refuted: the threads leave without
    a last pass or report). *)
Definition C192_statement : Prop := forall n0 turbo d now es s n, (0 < n0)%nat -> one_kind (fun _ => kGauge) (stashed es) -> moderate none (stashed es) ->
  run none noargs (started n0 turbo d now) es (Ok s) -> stopped s ->
  zsum (count_in n) (map snd (printed s)) = count (vals none n (stashed es)).
Lemma stop_runs : exists s, run none noargs (started 2 false 30 100) [EStash (memi 4); EStop; EThread 100] (Ok s) /\ stopped s /\
  printed s = [] /\ queued s = [memi 4].
Proof.
  eexists. split.
  - eapply run_step; [apply st_stash|vm_compute; reflexivity|]. eapply run_step; [apply st_stop|vm_compute; reflexivity|]. eapply run_step; [apply st_top; reflexivity|vm_compute; reflexivity|]. apply run_nil.
  - vm_compute. auto.
Qed.
Theorem C192_statement_refuted : ~ C192_statement.
Proof.
  intro H. destruct stop_runs as (s & R & St & P & _). specialize (H 2%nat false 30 100 [EStash (memi 4); EStop; EThread 100] s mem ltac:(lia)).
  rewrite P in H. assert (X : zsum (count_in mem) (map snd (@nil (Z * container))) = 1); [|vm_compute in X; discriminate].
  apply H; auto.
  - intros it I. cbn in I. intuition (subst; reflexivity).
  - apply moderate_by; vm_compute; reflexivity.
Qed.
(** What holds: reported and unreported values add up to the recorded ones, and what was not reported by then never is. *)
Theorem C192_accounted_at_stop_partial n0 turbo d now es s n : (0 < n0)%nat -> one_kind (fun _ => kGauge) (stashed es) -> moderate none (stashed es) ->
  run none noargs (started n0 turbo d now) es (Ok s) -> stopped s ->
  zsum (count_in n) (map snd (printed s)) + zsum (count_in n) (pending s) + count (vals none n (queued s)) = count (vals none n (stashed es)) /\
  forall es' s', run none noargs s es' (Ok s') -> printed s' = printed s.
Proof.
  intros N K M R St. assert (S : safe_ranges (fun _ => kGauge) noargs) by (intros ? ?; exact default_from_zero). split.
  - destruct (C189_each_value_once _ _ _ _ _ _ _ _ _ N S K M R) as (s' & E & H). inv E. apply H. auto.
  - intros es' s' R'. eapply stopped_silent; eauto.
Qed.
Example C192_nonvacuous : exists s, run none noargs (started 2 false 30 100) [EStash (memi 4); EStop; EThread 100] (Ok s) /\ stopped s /\ count (vals none mem (queued s)) = 1.
Proof. destruct stop_runs as (s & R & St & _ & Q). exists s. rewrite Q. auto. Qed.

Print Assumptions C182_count_and_sum.
Print Assumptions C182_report.
Print Assumptions C183_statement_refuted.
Print Assumptions C183_min_max_with_zero_partial.
Print Assumptions C184_statement_refuted.
Print Assumptions C184_negative_range_refuted.
Print Assumptions C184_empty_range_refuted.
Print Assumptions C184_buckets_partial.
Print Assumptions C184_bucket_meaning_partial.
Print Assumptions C185_percentile.
Print Assumptions C186_statement_refuted.
Print Assumptions C186_median_and_lower_bound_partial.
Print Assumptions C187_statement_refuted.
Print Assumptions C187_gauges_partial.
Print Assumptions C188_statement_refuted.
Print Assumptions C188_one_kind_per_name_partial.
Print Assumptions C189_each_value_once.
Print Assumptions C190_statement_refuted.
Print Assumptions C190_five_seconds_partial.
Print Assumptions C191_statement_refuted.
Print Assumptions C191_nonnegative_partial.
Print Assumptions C192_statement_refuted.
Print Assumptions C192_accounted_at_stop_partial.
