From Verif.Model Require Import Common LogMetrics.
From Verif.Spec Require Import MetricsSpec.
From Verif.Proofs Require Import Tac.
Local Open Scope Z_scope.

Lemma name_eqb_spec a b : Bool.reflect (a = b) (name_eqb a b).
Proof. unfold name_eqb. destruct list_eq_dec; constructor; auto. Qed.
Lemma name_eqb_refl a : name_eqb a a = true. Proof. destruct (name_eqb_spec a a); auto. Qed.
Lemma name_eqb_neq a b : a <> b -> name_eqb a b = false. Proof. destruct (name_eqb_spec a b); tauto. Qed.

Lemma find_put n m l k : find k (put n m l) = if name_eqb n k then Some m else find k l.
Proof.
  induction l as [|[x y] l IH]; cbn.
  - destruct (name_eqb n k); auto.
  - destruct (name_eqb_spec x n) as [->|N]; cbn.
    + destruct (name_eqb_spec n k); auto.
    + rewrite IH. destruct (name_eqb_spec x k) as [->|]; auto. rewrite name_eqb_neq; auto.
Qed.
Lemma put_keys n m l : map fst (put n m l) = map fst l \/ (~ In n (map fst l) /\ map fst (put n m l) = map fst l ++ [n]).
Proof.
  induction l as [|[x y] l IH]; cbn; auto.
  destruct (name_eqb_spec x n) as [->|N]; cbn; auto.
  destruct IH as [->|[I ->] ]; auto. right. split; auto. intros [?|?]; auto.
Qed.
Lemma put_nodup n m l : NoDup (map fst l) -> NoDup (map fst (put n m l)).
Proof.
  intro H. destruct (put_keys n m l) as [->|[I ->] ]; auto.
  assert (P : Permutation (n :: map fst l) (map fst l ++ [n])) by apply Permutation_cons_append.
  eapply Permutation_NoDup; eauto. constructor; auto.
Qed.
Lemma find_in l n m : NoDup (map fst l) -> In (n, m) l -> find n l = Some m.
Proof.
  induction l as [|[x y] l IH]; cbn; intros D I; [tauto|]. inv D. destruct I as [E|I].
  - inv E. now rewrite name_eqb_refl.
  - rewrite name_eqb_neq; auto. intros ->. apply H1. now apply (in_map fst) in I.
Qed.
Lemma find_none l n : find n l = None <-> ~ In n (map fst l).
Proof.
  induction l as [|[x y] l IH]; cbn; [tauto|]. destruct (name_eqb_spec x n); [|rewrite IH; tauto].
  split; [congruence|tauto].
Qed.

Definition lmin (vs : list Z) := fold_right Z.min 0 vs.
Definition lmax (vs : list Z) := fold_right Z.max 0 vs.

Lemma count_nil : count [] = 0. Proof. reflexivity. Qed.
Lemma count_cons v vs : count (v :: vs) = count vs + 1. Proof. unfold count. cbn [length]. lia. Qed.
Lemma count_app a b : count (a ++ b) = count a + count b. Proof. unfold count. rewrite app_length. lia. Qed.
Lemma count_pos a : 0 <= count a. Proof. unfold count. lia. Qed.
Lemma sum_app a b : sum (a ++ b) = sum a + sum b.
Proof. unfold sum. induction a; cbn in *; lia. Qed.
Lemma magnitude_app a b : magnitude (a ++ b) = magnitude a + magnitude b.
Proof. unfold magnitude. induction a; cbn in *; lia. Qed.
Lemma magnitude_pos a : 0 <= magnitude a.
Proof. unfold magnitude. induction a; cbn in *; lia. Qed.
Lemma sum_magnitude a : Z.abs (sum a) <= magnitude a.
Proof. unfold sum, magnitude. induction a; cbn in *; lia. Qed.
Lemma lmin_app a b : lmin (a ++ b) = Z.min (lmin b) (lmin a).
Proof.
  assert (N : forall l, lmin l <= 0) by (unfold lmin, lmax; induction l; cbn in *; lia).
  unfold lmin in *. induction a; cbn [app fold_right] in *; [specialize (N b); lia|]. rewrite IHa. lia.
Qed.
Lemma lmax_app a b : lmax (a ++ b) = Z.max (lmax b) (lmax a).
Proof.
  assert (N : forall l, 0 <= lmax l) by (unfold lmin, lmax; induction l; cbn in *; lia).
  unfold lmax in *. induction a; cbn [app fold_right] in *; [specialize (N b); lia|]. rewrite IHa. lia.
Qed.
Lemma count_perm a b : Permutation a b -> count a = count b.
Proof. intro P. unfold count. now rewrite (Permutation_length P). Qed.
Lemma sum_perm a b : Permutation a b -> sum a = sum b.
Proof. unfold sum. induction 1; cbn in *; lia. Qed.
Lemma magnitude_perm a b : Permutation a b -> magnitude a = magnitude b.
Proof. unfold magnitude. induction 1; cbn in *; lia. Qed.
Lemma how_many_app p a b : how_many p (a ++ b) = how_many p a + how_many p b.
Proof. unfold how_many. rewrite filter_app, app_length. lia. Qed.
Lemma how_many_1 p v : how_many p [v] = if p v then 1 else 0.
Proof. unfold how_many. cbn. destruct (p v); reflexivity. Qed.
Lemma how_many_le p a : 0 <= how_many p a <= count a.
Proof. unfold how_many, count. induction a; cbn [filter length]; [lia|]. destruct (p a); cbn [length]; lia. Qed.

Lemma int64_ok z : - 2 ^ 63 <= z < 2 ^ 63 -> int64 z = Ok z.
Proof.
  intro H. unfold int64, int64b. destruct (Z.leb_spec (- 2 ^ 63) z); [|lia]. destruct (Z.ltb_spec z (2 ^ 63)); [auto|lia].
Qed.

(** Buckets. *)
Lemma n_buckets_ceil a : 0 < dist_precise a -> dist_range_min a = 0 ->
  ceil_div (dist_range_max a - dist_range_min a) (dist_precise a) = n_buckets a.
Proof.
  intros P ->. rewrite Z.sub_0_r. unfold ceil_div, n_buckets.
  assert (D1 := Z.div_mod (- dist_range_max a) (dist_precise a) ltac:(lia)).
  assert (D2 := Z.mod_pos_bound (- dist_range_max a) (dist_precise a) P).
  assert (D3 := Z.div_mod (dist_range_max a + dist_precise a - 1) (dist_precise a) ltac:(lia)).
  assert (D4 := Z.mod_pos_bound (dist_range_max a + dist_precise a - 1) (dist_precise a) P).
  set (p := dist_precise a) in *. set (q1 := (- dist_range_max a) / p) in *. set (q2 := (dist_range_max a + p - 1) / p) in *.
  assert (- q1 = q2); [|lia]. nia.
Qed.
Lemma n_buckets_bounds a : from_zero a -> 0 < n_buckets a < 2 ^ 32 /\
  dist_precise a * (n_buckets a - 1) < dist_range_max a <= dist_precise a * n_buckets a.
Proof.
  intros (E & P & [R1 R2] & R3). unfold n_buckets.
  assert (D3 := Z.div_mod (dist_range_max a + dist_precise a - 1) (dist_precise a) ltac:(lia)).
  assert (D4 := Z.mod_pos_bound (dist_range_max a + dist_precise a - 1) (dist_precise a) P).
  set (p := dist_precise a) in *. set (q2 := (dist_range_max a + p - 1) / p) in *.
  split; [split|split]; nia.
Qed.
Lemma bucket_count_ok a : from_zero a -> bucket_count a = Ok (n_buckets a).
Proof.
  intro F. assert (B := n_buckets_bounds a F). destruct F as (E & P & [R1 R2] & R3).
  unfold bucket_count. rewrite int64_ok by lia. cbn [obind]. destruct (Z.eqb_spec (dist_precise a) 0); [lia|].
  rewrite n_buckets_ceil by auto. cbv zeta.
  destruct (Z.ltb_spec (n_buckets a) 0); [lia|]. destruct (Z.leb_spec (2 ^ 32) (n_buckets a)); [lia|]. reflexivity.
Qed.
Lemma bucket_of_range a v : from_zero a -> 0 <= bucket_of a v < n_buckets a.
Proof.
  intro F. assert (B := n_buckets_bounds a F). destruct F as (E & P & [R1 R2] & R3). unfold bucket_of.
  destruct (Z.leb_spec (dist_range_max a) v); [lia|]. destruct (Z.leb_spec v 0); [lia|].
  split; [apply Z.div_pos; lia|]. apply Z.div_lt_upper_bound; lia.
Qed.
Lemma incr_at_ok bs : forall i, (i < length bs)%nat -> incr_at bs i = Ok (upd i (u32 (nth i bs 0 + 1)) bs).
Proof.
  induction bs as [|b bs IH]; intros i H; cbn in H; [lia|]. destruct i as [|i]; cbn; auto. rewrite IH by lia. reflexivity.
Qed.
Lemma upd_length {A} (x : A) l : forall i, length (upd i x l) = length l.
Proof. induction l as [|y l IH]; intros [|i]; cbn; auto. Qed.
Lemma nth_upd {A} (d x : A) l : forall i j, (i < length l)%nat -> nth j (upd i x l) d = if Nat.eqb i j then x else nth j l d.
Proof.
  induction l as [|y l IH]; intros i j H; cbn in H; [lia|]. destruct i, j; cbn; auto. apply IH. lia.
Qed.

Definition tally (a : dargs) (vs : list Z) : list Z :=
  map (fun i => how_many (fun v => bucket_of a v =? Z.of_nat i) vs) (seq 0 (Z.to_nat (n_buckets a))).
Lemma tally_length a vs : length (tally a vs) = Z.to_nat (n_buckets a).
Proof. unfold tally. now rewrite map_length, seq_length. Qed.
Lemma nth_map_seq {A} (f : nat -> A) d n : forall i k, (i < n)%nat -> nth i (map f (seq k n)) d = f (k + i)%nat.
Proof.
  induction n; intros i k H; [lia|]. destruct i; cbn; [f_equal; lia|]. rewrite IHn by lia. f_equal. lia.
Qed.
Lemma tally_nth a vs i : (i < Z.to_nat (n_buckets a))%nat -> nth i (tally a vs) 0 = how_many (fun v => bucket_of a v =? Z.of_nat i) vs.
Proof.
  intro H. unfold tally. now rewrite nth_map_seq.
Qed.
Lemma tally_nil a : tally a [] = repeat 0 (Z.to_nat (n_buckets a)).
Proof. unfold tally, how_many. cbn. generalize 0%nat. induction (Z.to_nat (n_buckets a)); intro k; cbn; [auto|]. now rewrite IHn. Qed.
Lemma u32_small z : 0 <= z < 2 ^ 32 -> u32 z = z. Proof. intro. now apply Z.mod_small. Qed.
Lemma u64_small z : 0 <= z < 2 ^ 64 -> u64 z = z. Proof. intro. now apply Z.mod_small. Qed.
Lemma incr_value_ok a vs v : from_zero a -> - 2 ^ 63 <= v < 2 ^ 63 -> count vs + 1 < 2 ^ 32 ->
  IncrBucketByValue a (tally a vs) v = Ok (tally a (vs ++ [v])).
Proof.
  intros F V C. assert (B := bucket_of_range a v F). assert (NB := n_buckets_bounds a F).
  assert (E : IncrBucketByValue a (tally a vs) v = incr_at (tally a vs) (Z.to_nat (bucket_of a v))).
  { unfold IncrBucketByValue, bucket_of in *. rewrite tally_length. destruct F as (E & P & [R1 R2] & R3). rewrite E.
    destruct (Z.leb_spec (dist_range_max a) v). { f_equal. lia. }
    destruct (Z.leb_spec v 0); [reflexivity|].
    destruct (Z.eqb_spec (dist_precise a) 0); [lia|].
    rewrite Z.quot_div_nonneg by lia.
    assert (v / dist_precise a <= v) by (apply Z.div_le_upper_bound; nia).
    rewrite int64_ok by lia. cbn [obind]. rewrite u32_small by lia. cbv zeta. rewrite Z2Nat.id by lia.
    destruct (Z.ltb_spec (v / dist_precise a) (n_buckets a)); [auto|lia]. }
  rewrite E, incr_at_ok by (rewrite tally_length; lia). f_equal.
  apply nth_ext with (d := 0) (d' := 0). { now rewrite upd_length, !tally_length. }
  intros i Hi. rewrite upd_length, tally_length in Hi. rewrite nth_upd by (rewrite tally_length; lia).
  rewrite !tally_nth by lia. rewrite how_many_app, how_many_1.
  assert (L := how_many_le (fun v0 => bucket_of a v0 =? bucket_of a v) vs).
  destruct (Nat.eqb_spec (Z.to_nat (bucket_of a v)) i) as [<-|N].
  - rewrite Z2Nat.id by lia. rewrite Z.eqb_refl. rewrite u32_small; lia.
  - destruct (Z.eqb_spec (bucket_of a v) (Z.of_nat i)); [lia|]. lia.
Qed.

(** What a container summarises: the values [f n] under each name [n]. *)
Section Summary.
Variable kind : name -> mtype.
Variable provider : name -> option dargs.
Variable handler : item -> bool.

Definition entry (n : name) (vs : list Z) (m : metric) : Prop :=
  m_type m = kind n /\ counter m = count vs /\ total_value m = sum vs /\ min_value m = lmin vs /\ max_value m = lmax vs /\
  (kind n = kHistogram -> args m = settings provider n /\ percentile_bucket m = tally (settings provider n) vs).
Definition summ (c : container) (f : name -> list Z) : Prop :=
  NoDup (map fst (datas c)) /\ forall n, match find n (datas c) with Some m => entry n (f n) m | None => f n = [] end.
Definition safe_settings := forall n, kind n = kHistogram -> from_zero (settings provider n).
Definition addv (f : name -> list Z) (n : name) (vs : list Z) : name -> list Z := fun k => if name_eqb n k then f k ++ vs else f k.

Lemma summ_new now : summ (new_container now) (fun _ => []).
Proof. split; cbn; [constructor|auto]. Qed.
Lemma summ_empty c : datas c = [] -> summ c (fun _ => []).
Proof. intro E. split; rewrite E; cbn; [constructor|auto]. Qed.
Lemma summ_store c f n m vs : summ c f -> entry n (f n ++ vs) m -> summ (store c n m) (addv f n vs).
Proof.
  intros [D S] E. unfold store, addv. split; cbn; [now apply put_nodup|]. intro k. rewrite find_put.
  destruct (name_eqb_spec n k) as [<-|]; auto. apply S.
Qed.
Lemma new_gauge_entry n ts : kind n = kGauge -> entry n [] (new_gauge ts).
Proof. intro K. unfold entry. cbn. rewrite K. repeat split; congruence. Qed.
Lemma get_gauge c f n : summ c f -> kind n = kGauge -> exists m, GetGuage c n = Ok m /\ entry n (f n) m.
Proof.
  intros [D S] K. unfold GetGuage. specialize (S n). destruct (find n (datas c)) as [m|].
  - destruct S as (T & S). exists m. rewrite T, K. cbn. split; auto. unfold entry. rewrite T. auto.
  - rewrite S. eexists. split; eauto. now apply new_gauge_entry.
Qed.
Lemma get_hist c f n : summ c f -> kind n = kHistogram -> safe_settings -> exists m, GetHistogram provider c n = Ok m /\ entry n (f n) m.
Proof.
  intros [D S] K SS. unfold GetHistogram. specialize (S n). destruct (find n (datas c)) as [m|].
  - destruct S as (T & S). exists m. rewrite T, K. cbn. split; auto. unfold entry. rewrite T. auto.
  - rewrite S. fold (settings provider n). unfold new_dist. rewrite bucket_count_ok by auto. cbn [obind].
    eexists. split; eauto. unfold entry. cbn. rewrite K. repeat split. now rewrite tally_nil.
Qed.
Lemma count_total_ok m vs v : counter m = count vs -> total_value m = sum vs -> count vs + 1 < 2 ^ 64 -> magnitude vs + Z.abs v < 2 ^ 63 ->
  count_total m v = Ok (Metric (m_type m) (count (vs ++ [v])) (min_value m) (max_value m) (sum (vs ++ [v])) (start_ts m) (latest_value m) (args m) (percentile_bucket m)).
Proof.
  intros C T B1 B2. unfold count_total. assert (S := sum_magnitude vs). assert (P := count_pos vs).
  rewrite T, int64_ok by lia. cbn [obind]. rewrite C, u64_small by lia. rewrite count_app, sum_app. cbn [sum fold_right].
  rewrite count_cons, count_nil, Z.add_0_r. reflexivity.
Qed.
Lemma min1 a v : Z.min (lmin a) v = lmin (a ++ [v]).
Proof.
  rewrite lmin_app. cbn. assert (N : forall l, lmin l <= 0) by (unfold lmin, lmax; induction l; cbn in *; lia). specialize (N a). lia.
Qed.
Lemma max1 a v : Z.max (lmax a) v = lmax (a ++ [v]).
Proof.
  rewrite lmax_app. cbn. assert (N : forall l, 0 <= lmax l) by (unfold lmin, lmax; induction l; cbn in *; lia). specialize (N a). lia.
Qed.
Lemma handle1_ok c f it : summ c f -> safe_settings -> handler it = false -> it_type it = kind (it_name it) ->
  count (f (it_name it)) + 1 < 2 ^ 32 -> magnitude (f (it_name it)) + Z.abs (it_value it) < 2 ^ 63 ->
  exists c', handle1 handler provider c it = Ok c' /\ summ c' (addv f (it_name it) [it_value it]).
Proof.
  intros S SS Hh K B1 B2. unfold handle1. rewrite Hh. destruct it as [t n v]. cbn in *. subst t.
  assert (P := magnitude_pos (f n)).
  destruct (kind n) eqn:K.
  - unfold HandleGuage. cbn. destruct (get_gauge c f n S K) as (m & -> & T & C & TT & Mi & Ma & _). cbn [obind].
    rewrite count_total_ok with (vs := f n) by (cbn; auto; lia). cbn [obind]. eexists. split; [reflexivity|].
    apply summ_store; auto. unfold entry. cbn. rewrite T, Mi, Ma, min1, max1, K. repeat split; congruence.
  - unfold HandleHistogram. cbn. destruct (get_hist c f n S K SS) as (m & -> & T & C & TT & Mi & Ma & A). cbn [obind].
    destruct (A K) as [A1 A2].
    rewrite count_total_ok with (vs := f n) by (cbn; auto; lia). cbn [obind UpdateMinMax args percentile_bucket].
    rewrite A1, A2, incr_value_ok by (auto; lia). cbn [obind]. eexists. split; [reflexivity|].
    apply summ_store; auto. unfold entry. cbn. rewrite T, Mi, Ma, min1, max1, K. repeat split; auto.
Qed.
Lemma handle1_skip c it : handler it = true -> handle1 handler provider c it = Ok c.
Proof. unfold handle1. now intros ->. Qed.

Lemma vals_cons n it its : vals handler n (it :: its) =
  (if name_eqb (it_name it) n && negb (handler it) then [it_value it] else []) ++ vals handler n its.
Proof. unfold vals. cbn. destruct (_ && _); reflexivity. Qed.
Lemma vals_app n a b : vals handler n (a ++ b) = vals handler n a ++ vals handler n b.
Proof. unfold vals. now rewrite filter_app, map_app. Qed.
Lemma vals_perm n a b : Permutation a b -> Permutation (vals handler n a) (vals handler n b).
Proof.
  intro P. unfold vals. apply Permutation_map. induction P; cbn; auto.
  - destruct (_ && _); auto.
  - destruct (name_eqb (it_name y) n && _), (name_eqb (it_name x) n && _); auto. apply perm_swap.
  - etransitivity; eauto.
Qed.

Lemma summ_ext c f g : (forall n, f n = g n) -> summ c f -> summ c g.
Proof. intros E [D S]. split; auto. intro n. rewrite <- E. apply S. Qed.
Lemma handle_all_ok its : forall c f, summ c f -> safe_settings -> one_kind kind its ->
  (forall n, count (f n ++ vals handler n its) < 2 ^ 32 /\ magnitude (f n ++ vals handler n its) < 2 ^ 63) ->
  exists c', handle_all handler provider c its = Ok c' /\ summ c' (fun n => f n ++ vals handler n its).
Proof.
  induction its as [|it its IH]; intros c f S SS K B; cbn [handle_all].
  - exists c. split; auto. eapply summ_ext; [|eauto]. intro n. unfold vals. cbn. now rewrite app_nil_r.
  - assert (K' : one_kind kind its) by (intros x Hx; apply K; now right).
    destruct (handler it) eqn:Hh.
    + rewrite handle1_skip by auto. cbn [obind]. destruct (IH c f S SS K') as (c' & H & S').
      * intro n. specialize (B n). rewrite vals_cons, Hh, andb_false_r in B. exact B.
      * exists c'. split; auto. eapply summ_ext; [|eauto]. intro n. cbv beta. rewrite vals_cons, Hh, andb_false_r. reflexivity.
    + assert (Bn := B (it_name it)). rewrite vals_cons, Hh, name_eqb_refl in Bn. cbn [negb andb] in Bn.
      rewrite !count_app, !magnitude_app in Bn.
      assert (M1 : magnitude [it_value it] = Z.abs (it_value it)) by (cbn; lia).
      assert (P1 := count_pos (vals handler (it_name it) its)). assert (P2 := magnitude_pos (vals handler (it_name it) its)).
      rewrite count_cons, count_nil, M1 in Bn.
      destruct (handle1_ok c f it S SS Hh) as (c1 & -> & S1); [apply K; now left|lia|lia|].
      cbn [obind]. destruct (IH c1 _ S1 SS K') as (c' & H & S').
      * intro n. specialize (B n). rewrite vals_cons, Hh in B. unfold addv.
        destruct (name_eqb (it_name it) n); cbn in *; auto. rewrite <- app_assoc. exact B.
      * exists c'. split; auto. eapply summ_ext; [|exact S']. intro n. unfold addv. rewrite vals_cons, Hh.
        destruct (name_eqb (it_name it) n); cbn; auto. now rewrite <- app_assoc.
Qed.

(** Merging. *)
Lemma dist_merge_same n vs ws m o : kind n = kHistogram -> entry n vs m -> entry n ws o -> dist_merge m o = Ok m.
Proof.
  intros K (_ & _ & _ & _ & _ & A) (_ & _ & _ & _ & _ & B). unfold dist_merge.
  destruct (A K) as [_ ->]. destruct (B K) as [_ ->]. rewrite !tally_length, Nat.eqb_refl. reflexivity.
Qed.
Lemma gauge_merge_ok n vs ws m o : kind n = kGauge -> entry n vs m -> entry n ws o -> count (vs ++ ws) < 2 ^ 32 -> magnitude (vs ++ ws) < 2 ^ 63 ->
  exists r, gauge_merge m o = Ok r /\ entry n (vs ++ ws) r.
Proof.
  intros K (T1 & C1 & S1 & I1 & A1 & _) (T2 & C2 & S2 & I2 & A2 & _) B1 B2. unfold gauge_merge.
  assert (M := sum_magnitude (vs ++ ws)). rewrite sum_app in M.
  rewrite S1, S2, int64_ok by lia. cbn [obind]. eexists. split; [reflexivity|].
  rewrite count_app in B1. assert (P1 := count_pos vs). assert (P2 := count_pos ws).
  unfold entry. cbn. rewrite C1, C2, I1, I2, A1, A2, u64_small by lia.
  rewrite count_app, sum_app, lmin_app, lmax_app. repeat split; auto; congruence.
Qed.
Definition gauges_of (l : list (name * metric)) (g : name -> list Z) : name -> list Z :=
  fun n => if mtype_eqb (kind n) kGauge then match find n l with Some _ => g n | None => [] end else [].
Lemma merge_all_ok g l : forall c f, NoDup (map fst l) -> (forall n m, In (n, m) l -> entry n (g n) m) -> summ c f -> safe_settings ->
  (forall n, In n (map fst l) -> count (f n ++ g n) < 2 ^ 32 /\ magnitude (f n ++ g n) < 2 ^ 63) ->
  exists c', merge_all provider c l = Ok c' /\ summ c' (fun n => f n ++ gauges_of l g n).
Proof.
  induction l as [|[n o] l IH]; intros c f D E S SS B; cbn.
  - exists c. split; auto. eapply summ_ext; [|eauto]. intro n. unfold gauges_of. cbn. destruct (mtype_eqb _ _); now rewrite app_nil_r.
  - inv D. assert (Eo := E n o ltac:(now left)). assert (To : m_type o = kind n) by apply Eo.
    assert (Nn : find n l = None) by now apply find_none.
    assert (E' : forall k x, In (k, x) l -> entry k (g k) x) by (intros k x I; apply E; now right).
    rewrite To. destruct (kind n) eqn:K.
    + destruct (get_gauge c f n S K) as (m & -> & Em). cbn [obind].
      destruct (gauge_merge_ok n (f n) (g n) m o K Em Eo) as (r & -> & Er); [apply B; now left|apply B; now left|]. cbn [obind].
      destruct (IH (store c n r) (addv f n (g n))) as (c' & H & S'); auto.
      * now apply summ_store.
      * intros k Ik. unfold addv. destruct (name_eqb_spec n k) as [->|]; [tauto|]. apply B. now right.
      * exists c'. split; auto. eapply summ_ext; [|exact S']. intro k. unfold addv, gauges_of. cbn.
        destruct (name_eqb_spec n k) as [<-|]; auto. rewrite K, Nn. cbn. now rewrite app_nil_r.
    + destruct (get_hist c f n S K SS) as (m & -> & Em). cbn [obind]. rewrite (dist_merge_same n (f n) (g n)) by auto. cbn [obind].
      destruct (IH (store c n m) f) as (c' & H & S'); auto.
      * eapply summ_ext; [|apply summ_store with (vs := []); eauto].
        { intro k. unfold addv. destruct (name_eqb n k); auto. now rewrite app_nil_r. }
        now rewrite app_nil_r.
      * intros k Ik. apply B. now right.
      * exists c'. split; auto. eapply summ_ext; [|exact S']. intro k. unfold gauges_of. cbn.
        destruct (name_eqb_spec n k) as [<-|]; auto. rewrite K. reflexivity.
Qed.
Lemma Merge_ok c o f g : summ c f -> summ o g -> safe_settings ->
  (forall n, count (f n ++ g n) < 2 ^ 32 /\ magnitude (f n ++ g n) < 2 ^ 63) ->
  exists c', Merge provider c o = Ok c' /\ summ c' (fun n => f n ++ (if mtype_eqb (kind n) kGauge then g n else [])).
Proof.
  intros S [D So] SS B. destruct (merge_all_ok g (datas o) c f) as (c' & H & S'); auto.
  - intros n m I. specialize (So n). now rewrite (find_in _ _ _ D I) in So.
  - exists c'. split; auto. eapply summ_ext; [|exact S']. intro n. unfold gauges_of. cbn.
    destruct (mtype_eqb _ _); auto. specialize (So n). destruct (find n (datas o)); auto. now rewrite So.
Qed.
End Summary.
