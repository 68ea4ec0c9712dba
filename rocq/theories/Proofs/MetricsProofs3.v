From Verif.Model Require Import Common LogMetrics.
From Verif.Spec Require Import MetricsSpec.
From Verif.Proofs Require Import Tac MetricsProofs.
Local Open Scope Z_scope.

(** Prefix sums. *)
Lemma how_many_ext p q vs : (forall v, In v vs -> p v = q v) -> how_many p vs = how_many q vs.
Proof.
  unfold how_many. induction vs as [|x vs IH]; intro H; cbn; auto. rewrite (H x) by now left.
  assert (E := IH (fun v I => H v (or_intror I))). destruct (q x); cbn [length]; lia.
Qed.
Lemma how_many_le_imp p q vs : (forall v, In v vs -> p v = true -> q v = true) -> how_many p vs <= how_many q vs.
Proof.
  unfold how_many. induction vs as [|x vs IH]; intro H; cbn; [lia|].
  assert (E := IH (fun v I => H v (or_intror I))). assert (Hx := H x (or_introl eq_refl)).
  destruct (p x); [rewrite Hx by auto; cbn [length]; lia|]. destruct (q x); cbn [length]; lia.
Qed.
Lemma how_many_all p vs : (forall v, In v vs -> p v = true) -> how_many p vs = count vs.
Proof.
  unfold how_many, count. induction vs as [|x vs IH]; intro H; cbn; auto. rewrite H by now left. cbn [length].
  assert (E := IH (fun v I => H v (or_intror I))). lia.
Qed.
Lemma how_many_none p vs : (forall v, In v vs -> p v = false) -> how_many p vs = 0.
Proof.
  unfold how_many. induction vs as [|x vs IH]; intro H; cbn; auto. rewrite H by now left.
  apply IH. intros v I. apply H. now right.
Qed.
Lemma how_many_split p q r vs : (forall v, p v = q v || r v) -> (forall v, q v && r v = false) -> how_many p vs = how_many q vs + how_many r vs.
Proof.
  intros H1 H2. unfold how_many. induction vs as [|x vs IH]; cbn; auto. specialize (H1 x). specialize (H2 x). rewrite H1.
  destruct (q x), (r x); cbn [orb andb] in *; cbn [length]; try discriminate; lia.
Qed.
Lemma firstn_S_nth {A} (d : A) l : forall k, (k < length l)%nat -> firstn (S k) l = firstn k l ++ [nth k l d].
Proof.
  induction l as [|x l IH]; intros k H; cbn in H; [lia|]. destruct k; [reflexivity|]. cbn [firstn nth app]. f_equal. apply IH. lia.
Qed.
Lemma prefix_tally a vs k : from_zero a -> (k <= Z.to_nat (n_buckets a))%nat ->
  sum (firstn k (tally a vs)) = how_many (fun v => bucket_of a v <? Z.of_nat k) vs.
Proof.
  intros F. induction k; intro H.
  - cbn. symmetry. apply how_many_none. intros v _. assert (B := bucket_of_range a v F). destruct (Z.ltb_spec (bucket_of a v) 0); auto. lia.
  - assert (E : firstn (S k) (tally a vs) = firstn k (tally a vs) ++ [nth k (tally a vs) 0]).
    { apply firstn_S_nth. rewrite tally_length. lia. }
    rewrite E, sum_app, IHk by lia. cbn [sum fold_right]. rewrite tally_nth by lia. rewrite Z.add_0_r. symmetry. apply how_many_split.
    + intro v. destruct (Z.ltb_spec (bucket_of a v) (Z.of_nat (S k))), (Z.ltb_spec (bucket_of a v) (Z.of_nat k)),
        (Z.eqb_spec (bucket_of a v) (Z.of_nat k)); cbn; auto; lia.
    + intro v. destruct (Z.ltb_spec (bucket_of a v) (Z.of_nat k)), (Z.eqb_spec (bucket_of a v) (Z.of_nat k)); cbn; auto; lia.
Qed.
Lemma sum_tally a vs : from_zero a -> sum (tally a vs) = count vs.
Proof.
  intro F. assert (B := n_buckets_bounds a F). rewrite <- (firstn_all (tally a vs)), tally_length, prefix_tally by auto.
  apply how_many_all. intros v _. assert (H := bucket_of_range a v F). apply Z.ltb_lt. lia.
Qed.
Lemma below a vs k : from_zero a -> (k < Z.to_nat (n_buckets a))%nat ->
  how_many (fun v => bucket_of a v <? Z.of_nat k) vs = how_many (fun v => clamp a v <? dist_precise a * Z.of_nat k) vs.
Proof.
  intros F H. assert (NB := n_buckets_bounds a F). destruct F as (E & P & [R1 R2] & R3). apply how_many_ext. intros v _.
  unfold bucket_of, clamp. set (p := dist_precise a) in *. set (mx := dist_range_max a) in *.
  assert (p * Z.of_nat k < mx) by nia.
  destruct (Z.leb_spec mx v).
  - destruct (Z.ltb_spec (n_buckets a - 1) (Z.of_nat k)); [lia|].
    destruct (Z.ltb_spec (Z.max 0 (Z.min v mx)) (p * Z.of_nat k)); auto. lia.
  - destruct (Z.leb_spec v 0).
    + destruct (Z.ltb_spec 0 (Z.of_nat k)), (Z.ltb_spec (Z.max 0 (Z.min v mx)) (p * Z.of_nat k)); auto; nia.
    + replace (Z.max 0 (Z.min v mx)) with v by lia.
      destruct (Z.ltb_spec v (p * Z.of_nat k)).
      * apply Z.ltb_lt. apply Z.div_lt_upper_bound; lia.
      * apply Z.ltb_ge. apply Z.div_le_lower_bound; lia.
Qed.
Lemma within a vs k : from_zero a -> (k <= Z.to_nat (n_buckets a))%nat ->
  how_many (fun v => bucket_of a v <? Z.of_nat k) vs <= how_many (fun v => clamp a v <=? dist_precise a * Z.of_nat k) vs.
Proof.
  intros F H. assert (NB := n_buckets_bounds a F). destruct F as (E & P & [R1 R2] & R3). apply how_many_le_imp. intros v _.
  unfold bucket_of, clamp. set (p := dist_precise a) in *. set (mx := dist_range_max a) in *.
  intro L. apply Z.ltb_lt in L. apply Z.leb_le.
  destruct (Z.leb_spec mx v); [nia|].
  destruct (Z.leb_spec v 0); [nia|].
  assert (D := Z.div_mod v p ltac:(lia)). assert (M := Z.mod_pos_bound v p P). nia.
Qed.

(** The single percentile. *)
Lemma firstn_sum_le (l : list Z) k : Forall (fun x => 0 <= x) l -> 0 <= sum (firstn k l) <= sum l.
Proof.
  intro F. revert k. induction F as [|x l H F IH]; intros [|k]; unfold sum in *; cbn [firstn fold_right]; try lia.
  - specialize (IH 0%nat). cbn in IH. lia.
  - specialize (IH k). lia.
Qed.
Lemma pct_index_ok cnt bs : Forall (fun x => 0 <= x) bs -> forall i s, 0 <= s -> s + sum bs < 2 ^ 64 ->
  exists k, (k <= length bs)%nat /\ pct_index cnt i s bs = i + Z.of_nat k /\
    (k = length bs \/ cnt <= s + sum (firstn k bs)) /\ (k <> 0%nat -> s + sum (firstn (k - 1) bs) < cnt).
Proof.
  induction 1 as [|b bs Hb F IH]; intros i s Hs B; cbn [pct_index].
  - exists 0%nat. cbn. repeat split; auto; lia.
  - cbn [sum fold_right] in B. fold (sum bs) in B. assert (P := firstn_sum_le bs 0 F). cbn in P. fold (sum bs) in P.
    destruct (Z.ltb_spec s cnt).
    + rewrite u64_small by lia. destruct (IH (i + 1) (s + b)) as (k & K1 & K2 & K3 & K4); [lia|lia|].
      exists (S k). cbn [length firstn]. split; [lia|]. split; [rewrite K2; lia|]. split.
      * destruct K3 as [->|K3]; [auto|]. right. cbn [sum fold_right]. fold (sum (firstn k bs)). lia.
      * intros _. replace (S k - 1)%nat with k by lia. destruct k as [|k]; [cbn; lia|]. specialize (K4 ltac:(lia)).
        replace (S k - 1)%nat with k in K4 by lia. cbn [firstn sum fold_right]. fold (sum (firstn k bs)). lia.
    + exists 0%nat. cbn. repeat split; auto; lia.
Qed.
Lemma tally_nonneg a vs : Forall (fun x => 0 <= x) (tally a vs).
Proof.
  apply Forall_forall. intros x I. unfold tally in I. apply in_map_iff in I. destruct I as (i & <- & _). apply how_many_le.
Qed.
Lemma percentile_ok kind provider n vs m p : entry kind provider n vs m -> kind n = kHistogram -> from_zero (settings provider n) ->
  dist_range_max (settings provider n) + dist_precise (settings provider n) <= 2 ^ 32 -> count vs < 2 ^ 32 -> 0 <= p <= 100 ->
  let a := settings provider n in let need := count vs * p / 100 in
  exists r, CalculatePecentile m p = Ok r /\ need <= how_many (fun v => clamp a v <=? r) vs /\
    (0 < r -> how_many (fun v => clamp a v <? r - dist_precise a) vs < need).
Proof.
  intros (_ & C & _ & _ & _ & A) K F R B P. cbv zeta. destruct (A K) as [A1 A2]. set (a := settings provider n) in *.
  assert (NB := n_buckets_bounds a F). assert (CP := count_pos vs).
  unfold CalculatePecentile. rewrite C, A1, A2.
  assert (N1 : 0 <= count vs * p / 100) by (apply Z.div_pos; nia).
  assert (N2 : count vs * p / 100 <= count vs) by (apply Z.div_le_upper_bound; nia).
  rewrite u64_small, u32_small by nia. set (need := count vs * p / 100) in *.
  destruct (pct_index_ok need (tally a vs) (tally_nonneg a vs) 0 0) as (k & K1 & K2 & K3 & K4); [lia|rewrite sum_tally by auto; lia|].
  rewrite K2. rewrite tally_length in *. cbn [Z.add].
  assert (0 < dist_precise a) by apply F.
  assert (Hk : 0 <= dist_precise a * Z.of_nat k < 2 ^ 32). { assert (Z.of_nat k <= n_buckets a) by lia. nia. }
  rewrite int64_ok by lia. cbn [obind]. rewrite u32_small by lia. eexists. split; [reflexivity|].
  rewrite prefix_tally in K3 by auto. split.
  - etransitivity; [|apply within; auto].
    destruct K3 as [->|K3]; [|lia]. rewrite <- prefix_tally by auto.
    rewrite <- (tally_length a vs), firstn_all, sum_tally by auto. lia.
  - intro Hr. destruct k as [|k]; [lia|]. specialize (K4 ltac:(lia)). replace (S k - 1)%nat with k in K4 by lia.
    rewrite Z.add_0_l, prefix_tally, below in K4 by (auto; lia).
    replace (dist_precise a * Z.of_nat (S k) - dist_precise a) with (dist_precise a * Z.of_nat k) by lia. exact K4.
Qed.

(** The vector version. *)
Lemma pct_vec_ok cnt pr bs : Forall (fun x => 0 <= x) bs -> forall bucket s ps i p, 0 <= s -> s + sum bs < 2 ^ 64 ->
  Forall (fun p => 0 <= (cnt / 100) * p < 2 ^ 64) ps -> nth_error ps i = Some p ->
  exists r, nth_error (pct_vec cnt pr bucket s bs ps) i = Some r /\
   (r = 0 \/ exists k, (k < length bs)%nat /\ r = u32 (pr * (bucket + Z.of_nat k)) /\ (cnt / 100) * p < s + sum (firstn (S k) bs)) /\
   (i = 0%nat -> s <= (cnt / 100) * p < s + sum bs ->
      exists k, (k < length bs)%nat /\ r = u32 (pr * (bucket + Z.of_nat k)) /\
        s + sum (firstn k bs) <= (cnt / 100) * p < s + sum (firstn (S k) bs)).
Proof.
  induction 1 as [|b bs Hb F IH]; intros bucket s ps i p Hs B FP I.
  - destruct ps as [|p0 ps]; [destruct i; discriminate|]. cbn. exists 0. split.
    + destruct i; cbn in *; auto. rewrite nth_error_map, I. reflexivity.
    + split; auto. intros _. lia.
  - cbn [sum fold_right] in B. fold (sum bs) in B. assert (P := firstn_sum_le bs 0 F). cbn in P. fold (sum bs) in P.
    destruct ps as [|p0 ps]; [destruct i; discriminate|]. cbn [pct_vec]. cbv zeta. inv FP.
    rewrite (u64_small (s + b)) by lia. rewrite u64_small by auto.
    destruct (Z.ltb_spec (cnt / 100 * p0) (s + b)).
    + destruct i as [|i]; cbn in I.
      * inv I. cbn. eexists. split; [reflexivity|]. split.
        -- right. exists 0%nat. split; [lia|]. rewrite Z.add_0_r. split; auto. cbn. lia.
        -- intros _ R. exists 0%nat. split; [lia|]. rewrite Z.add_0_r. split; auto. cbn. lia.
      * destruct (IH (bucket + 1) (s + b) ps i p) as (r & E & [Z|(k & K1 & K2 & K3)] & _); [lia|lia|auto|auto| |]; exists r; cbn; (split; [exact E|]).
        -- split; [now left|discriminate].
        -- split; [right|discriminate]. exists (S k). split; [lia|]. split; [rewrite K2; do 2 f_equal; lia|].
           cbn [firstn sum fold_right] in *. fold (sum (firstn k bs)). unfold sum in K3. unfold sum. destruct bs; cbn in *; lia.
    + destruct (IH (bucket + 1) (s + b) (p0 :: ps) i p) as (r & E & D & Fst); [lia|lia|constructor; auto|auto|].
      exists r. split; [exact E|]. split.
      * destruct D as [Z|(k & K1 & K2 & K3)]; [now left|right]. exists (S k). cbn [length]. split; [lia|].
        split; [rewrite K2; do 2 f_equal; lia|].
        change (firstn (S (S k)) (b :: bs)) with (b :: firstn (S k) bs). cbn [sum fold_right]. fold (sum (firstn (S k) bs)). lia.
      * intros Ei R. subst i. cbn in I. inv I. destruct Fst as (k & K1 & K2 & K3); auto.
        { cbn [sum fold_right] in R. fold (sum bs) in R. lia. }
        exists (S k). cbn [length]. split; [lia|]. split; [rewrite K2; do 2 f_equal; lia|].
        change (firstn (S (S k)) (b :: bs)) with (b :: firstn (S k) bs). change (firstn (S k) (b :: bs)) with (b :: firstn k bs).
        cbn [sum fold_right]. fold (sum (firstn (S k) bs)). fold (sum (firstn k bs)). lia.
Qed.
Lemma report_percentiles kind provider n vs m : entry kind provider n vs m -> kind n = kHistogram -> from_zero (settings provider n) ->
  dist_range_max (settings provider n) + dist_precise (settings provider n) <= 2 ^ 32 -> 0 < count vs < 2 ^ 32 ->
  let a := settings provider n in
  forall i p, nth_error [50; 80; 90; 95; 99] i = Some p ->
  exists r, nth_error (CalculatePecentiles m [50; 80; 90; 95; 99]) i = Some r /\
    (r <> 0 -> count vs / 100 * p < how_many (fun v => clamp a v <=? r + dist_precise a) vs) /\
    (i = 0%nat -> how_many (fun v => clamp a v <? r) vs <= count vs / 100 * p < how_many (fun v => clamp a v <=? r + dist_precise a) vs).
Proof.
  intros (_ & C & _ & _ & _ & A) K F R B a i p I. destruct (A K) as [A1 A2]. fold a in A1, A2, F, R.
  assert (NB := n_buckets_bounds a F). assert (P : 0 < dist_precise a) by apply F.
  unfold CalculatePecentiles. rewrite C, A1, A2. replace (sort [50; 80; 90; 95; 99]) with [50; 80; 90; 95; 99] by reflexivity.
  assert (D0 : 0 <= count vs / 100) by (apply Z.div_pos; lia).
  assert (D1 : 100 * (count vs / 100) <= count vs) by (apply Z.mul_div_le; lia).
  assert (FP : Forall (fun p => 0 <= (count vs / 100) * p < 2 ^ 64) [50; 80; 90; 95; 99]).
  { repeat constructor; lia. }
  assert (Pp : 0 <= p <= 99). { apply nth_error_In in I. cbn in I. intuition subst; lia. }
  destruct (pct_vec_ok (count vs) (dist_precise a) (tally a vs) (tally_nonneg a vs) 0 0 [50; 80; 90; 95; 99] i p) as (r & E & D & Fst);
    [lia|rewrite sum_tally by auto; lia|auto|auto|].
  assert (U : forall k, (k < Z.to_nat (n_buckets a))%nat -> u32 (dist_precise a * (0 + Z.of_nat k)) = dist_precise a * Z.of_nat k).
  { intros k Hk. rewrite Z.add_0_l. apply u32_small. assert (Z.of_nat k < n_buckets a) by lia. nia. }
  assert (W : forall k, (k < Z.to_nat (n_buckets a))%nat -> count vs / 100 * p < 0 + sum (firstn (S k) (tally a vs)) ->
     count vs / 100 * p < how_many (fun v => clamp a v <=? dist_precise a * Z.of_nat k + dist_precise a) vs).
  { intros k Hk L. rewrite prefix_tally in L by (auto; lia). assert (Wi := within a vs (S k) F ltac:(lia)).
    replace (dist_precise a * Z.of_nat k + dist_precise a) with (dist_precise a * Z.of_nat (S k)) by lia. lia. }
  exists r. split; [exact E|]. rewrite tally_length in *. split.
  - intro N. destruct D as [?|(k & K1 & K2 & K3)]; [congruence|]. rewrite K2, U by auto. now apply W.
  - intro Ei. destruct Fst as (k & K1 & K2 & K3 & K4); auto.
    { rewrite sum_tally by auto. nia. }
    rewrite K2, U by auto. split; [|now apply W].
    rewrite <- below by auto. rewrite <- prefix_tally by (auto; lia). lia.
Qed.

(** Entries appear only for names that were used. *)
Lemma handle1_other handler provider c it c' n : handle1 handler provider c it = Ok c' ->
  name_eqb (it_name it) n && negb (handler it) = false -> find n (datas c') = find n (datas c).
Proof.
  unfold handle1. destruct (handler it); [intro H; inv H; auto|]. rewrite andb_true_r. intros H N.
  destruct (it_type it).
  - unfold HandleGuage in H. destruct (negb _); [discriminate|]. destruct (GetGuage _ _); try discriminate. cbn [obind] in H.
    destruct (count_total _ _); inv H. cbn. rewrite find_put, N. reflexivity.
  - unfold HandleHistogram in H. destruct (negb _); [discriminate|]. destruct (GetHistogram _ _ _); try discriminate. cbn [obind] in H.
    destruct (count_total _ _); try discriminate. cbn [obind] in H. destruct (IncrBucketByValue _ _ _); inv H. cbn. rewrite find_put, N. reflexivity.
Qed.
Lemma handle_all_other handler provider its n : forall c c', handle_all handler provider c its = Ok c' -> vals handler n its = [] ->
  find n (datas c') = find n (datas c).
Proof.
  induction its as [|it its IH]; cbn [handle_all]; intros c c' H V; [inv H; auto|].
  destruct (handle1 handler provider c it) as [c1| |] eqn:E; try discriminate. cbn [obind] in H.
  rewrite vals_cons in V. destruct (_ && _) eqn:N; [discriminate|]. cbn in V.
  rewrite (IH _ _ H V). eapply handle1_other; eauto.
Qed.
Lemma lmin_is_min vs : is_min (lmin vs) (0 :: vs).
Proof.
  unfold is_min, lmin. induction vs as [|v vs [I L] ]; cbn [fold_right].
  - split; [now left|]. intros v [<-|[] ]. lia.
  - split.
    + destruct (Z.min_spec v (fold_right Z.min 0 vs)) as [[_ ->]|[_ ->] ]; [right; now left|]. destruct I as [I|I]; [now left|right; now right].
    + intros x [<-|[<-|I'] ]; [specialize (L 0 (or_introl eq_refl)); lia|lia|]. specialize (L x (or_intror I')). lia.
Qed.
Lemma lmax_is_max vs : is_max (lmax vs) (0 :: vs).
Proof.
  unfold is_max, lmax. induction vs as [|v vs [I L] ]; cbn [fold_right].
  - split; [now left|]. intros v [<-|[] ]. lia.
  - split.
    + destruct (Z.max_spec v (fold_right Z.max 0 vs)) as [[_ ->]|[_ ->] ]; [|right; now left]. destruct I as [I|I]; [now left|right; now right].
    + intros x [<-|[<-|I'] ]; [specialize (L 0 (or_introl eq_refl)); lia|lia|]. specialize (L x (or_intror I')). lia.
Qed.

(** Reports: at least 5 seconds apart; nothing after the end. *)
Definition last_of (start : Z) (ts : list Z) := match ts with [] => start | t :: _ => t end.
Lemma step_spaced handler provider start s e s' : step handler provider s e (Ok s') ->
  spaced_by 5 start (map fst (printed s)) /\ last_report_time s = last_of start (map fst (printed s)) ->
  spaced_by 5 start (map fst (printed s')) /\ last_report_time s' = last_of start (map fst (printed s')).
Proof.
  intros St [H1 H2]. remember (Ok s') as o eqn:Eo. destruct St; try (inv Eo; cbn; auto; fail).
  - unfold Stash in Eo. destruct (length (queues s)); inv Eo. auto.
  - inv Eo. unfold stash_top. destruct (running s); auto.
  - unfold stash_take in Eo. destruct (handle_all _ _ _ _); inv Eo. auto.
  - unfold stash_merge in Eo. destruct (merger s); [inv Eo; auto|]. destruct (enable_turbo s) eqn:T; [|inv Eo; auto].
    destruct (Merge _ _ _); inv Eo. auto.
  - inv Eo. unfold GenerateReport. destruct (Z.ltb_spec (now - last_report_time s) 5); [auto|]. cbn. split; auto. split; auto.
    rewrite H2 in H0. unfold last_of in H0. destruct (map fst (printed s)); lia.
  - inv Eo. unfold turbo_top. destruct (running s); [destruct (dispatch s)|]; auto.
  - unfold turbo_take in Eo. destruct (handle_all _ _ _ _); inv Eo. auto.
Qed.
Lemma run_spaced handler provider start s es o : run handler provider s es o -> forall s', o = Ok s' ->
  spaced_by 5 start (map fst (printed s)) /\ last_report_time s = last_of start (map fst (printed s)) ->
  spaced_by 5 start (map fst (printed s')).
Proof.
  induction 1; intros s2 E I.
  - inv E. tauto.
  - eapply IHrun; eauto. eapply step_spaced; eauto.
  - exfalso. eapply H0; eauto.
Qed.
Lemma stopped_silent handler provider s es o : run handler provider s es o -> stopped s -> forall s', o = Ok s' ->
  printed s' = printed s /\ pending s' = pending s.
Proof.
  induction 1; intros [S1 [S2 S3] ] s2 E.
  - inv E. auto.
  - assert (G : stopped s' /\ printed s' = printed s /\ pending s' = pending s).
    { clear - H S1 S2 S3. unfold stopped, pending, in_turbo. remember (Ok s') as o eqn:Eo. destruct H; try congruence.
      - unfold Stash in Eo. destruct (length (queues s)); inv Eo. cbn. auto.
      - inv Eo. cbn. auto. }
    destruct G as (G & G1 & G2). destruct (IHrun G s2 E) as [-> ->]. auto.
  - exfalso. eapply H0; eauto.
Qed.
