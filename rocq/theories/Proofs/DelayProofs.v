(** Delayed tasks and finalisation of the wheel. *)
From Coq Require FinFun.
From Verif.Model Require Import Common TimeWheel DelayTask.
From Verif.Spec Require Import TimerSpec DelaySpec.
From Verif.Proofs Require Import Tac WheelBits WheelProofs TimerTab.
Open Scope Z_scope.

Lemma u64_id x : 0 <= x < 2 ^ 64 -> u64 x = x.
Proof. intro H. unfold u64. now apply Z.mod_small. Qed.

Lemma helper_run_eq p ms r : 0 <= p <= r -> r < TB -> 0 <= ms < 2 ^ 32 ->
  helper_Run (NewTimerTaskHelper ms p) r = if p + ms <=? r then RunNow else ArmTimer (remaining p ms r).
Proof.
  intros Hp Hr Hm. unfold TB in Hr.
  assert (P62 : 2 ^ 62 = 4611686018427387904) by reflexivity.
  assert (P63 : 2 ^ 63 = 9223372036854775808) by reflexivity.
  assert (P64 : 2 ^ 64 = 18446744073709551616) by reflexivity.
  assert (P32 : 2 ^ 32 = 4294967296) by reflexivity.
  unfold helper_Run, NewTimerTaskHelper, remaining. cbn [h_delay h_sched].
  rewrite (u64_id ms), (u64_id p), (u64_id r) by lia.
  rewrite (u64_id (r - p)) by lia. unfold i64. cbv zeta.
  destruct (Z.leb_spec (p + ms) r) as [L|L].
  - destruct (Z.eq_dec (ms - (r - p)) 0) as [E|E].
    + rewrite E. rewrite (u64_id 0) by lia. destruct (Z.ltb_spec 0 (2 ^ 63)); [|lia]. reflexivity.
    + assert (X : u64 (ms - (r - p)) = ms - (r - p) + 2 ^ 64).
      { unfold u64. symmetry. apply (Z.mod_unique _ _ (-1)); lia. }
      rewrite X. destruct (Z.ltb_spec (ms - (r - p) + 2 ^ 64) (2 ^ 63)); [lia|].
      destruct (Z.leb_spec (ms - (r - p) + 2 ^ 64 - 2 ^ 64) 0); [reflexivity|lia].
  - rewrite (u64_id (ms - (r - p))) by lia.
    destruct (Z.ltb_spec (ms - (r - p)) (2 ^ 63)); [|lia].
    destruct (Z.leb_spec (ms - (r - p)) 0); [lia|]. rewrite u64_id by lia. f_equal. lia.
Qed.

(** An untouched one-shot timer is either installed and has not fired or has fired once and is gone. *)
Lemma oneshot_count rep i d h : rep i = false -> untouched i h ->
  forall S, legal rep S h -> (exists b, tb_armed S i = Some (d, b)) ->
  ((exists b, tb_armed (run rep h S) i = Some (d, b)) /\ fires i h = 0%nat) \/
  (tb_armed (run rep h S) i = None /\ fires i h = 1%nat).
Proof.
  intros Hr. induction h as [|o h IH]; intros Hn S HL HS; [left; split; [assumption|reflexivity]|].
  unfold untouched in *. simpl in Hn. b2p. cbn [legal] in HL. destruct HL as (Hp & HL).
  change (run rep (o :: h) S) with (run rep h (tab_step rep S o)). rewrite fires_cons.
  assert (C : (exists b, tb_armed (tab_step rep S o) i = Some (d, b)) /\
     (match o with OGet (Some j) => if Nat.eqb j i then 1 else 0 | _ => 0 end)%nat = 0%nat \/
     tb_armed (tab_step rep S o) i = None /\
     (match o with OGet (Some j) => if Nat.eqb j i then 1 else 0 | _ => 0 end)%nat = 1%nat).
  { destruct HS as (b & HS). destruct o as [j now|j|j ms|now|[j|]]; simpl in *.
    - left. unfold set1. rewrite Nat.eqb_sym, H. eauto.
    - left. unfold set1. rewrite Nat.eqb_sym, H. eauto.
    - eauto.
    - left. rewrite HS. eauto.
    - unfold set1. destruct (Nat.eqb_spec j i) as [->|n].
      + right. rewrite Nat.eqb_refl, HS, Hr. auto.
      + left. destruct (Nat.eqb_spec i j); [congruence|]. eauto.
    - left. eauto. }
  destruct C as [(C & ->)|(C & ->)]; [apply IH; assumption|].
  right. split; [apply untouched_none; assumption|]. rewrite (none_no_fire rep i h H0 _ HL C). reflexivity.
Qed.

Lemma tab_app rep ms t0 h1 h2 : tab rep ms t0 (h1 ++ h2) = run rep h2 (tab rep ms t0 h1).
Proof. apply run_app. Qed.

(** The table right after arming. *)
Lemma arm_armed rep ms t0 h i d now : rep i = false ->
  exists b, tb_armed (tab rep ms t0 (h ++ arm_ops i d now)) i = Some (now + d, b).
Proof.
  intro Hr. rewrite tab_app. unfold arm_ops, run. cbn [fold_left tab_step tb_armed tb_ival tb_now]. unfold set1.
  rewrite Nat.eqb_refl, Hr. eauto.
Qed.

(** * Finalisation *)
Lemma in_zrange x n : In x (zrange n) <-> 0 <= x < Z.of_nat n.
Proof.
  unfold zrange. rewrite in_map_iff. split.
  - intros (k & <- & Hk). apply in_seq in Hk. lia.
  - intro H. exists (Z.to_nat x). split; [lia|]. apply in_seq. lia.
Qed.
Lemma nodup_zrange n : NoDup (zrange n).
Proof. unfold zrange. apply FinFun.Injective_map_NoDup; [intros a b; lia|apply seq_NoDup]. Qed.


Lemma nodup_app {A} (l1 l2 : list A) : NoDup l1 -> NoDup l2 -> (forall a, In a l1 -> ~ In a l2) -> NoDup (l1 ++ l2).
Proof.
  induction l1 as [|a l1 IH]; intros H1 H2 H; [assumption|]. inversion H1; subst. simpl. constructor.
  - rewrite in_app_iff. intros [X|X]; [contradiction|]. exact (H a (or_introl eq_refl) X).
  - apply IH; auto. intros b Hb. apply H. now right.
Qed.

Lemma nodup_flat {A} (f : Z -> list A) l : NoDup l -> (forall x, NoDup (f x)) ->
  (forall x y a, In a (f x) -> In a (f y) -> x = y) -> NoDup (flat_map f l).
Proof.
  intros Hl Hf Hd. induction Hl as [|x l Hx Hl IH]; [constructor|]. cbn [flat_map].
  apply nodup_app; auto. intros a Ha Hb. apply in_flat_map in Hb. destruct Hb as (y & Hy & Hb).
  assert (x = y) by (eapply Hd; eauto). subst. contradiction.
Qed.

Lemma in_all_timers T i : Cons T [] -> (In i (all_timers T) <-> to_pending (heap T i) <> None).
Proof.
  intro HC. unfold all_timers. rewrite in_app_iff. split.
  - intros [H|H].
    + destruct (c_exp _ _ HC _ H) as (A & _). congruence.
    + apply in_flat_map in H. destruct H as (w & Hw & H). apply in_flat_map in H. destruct H as (s & Hs & H).
      destruct (c_wheel _ _ HC _ _ _ H) as (A & _). congruence.
  - intro H. destruct (to_pending (heap T i)) as [[|w s]|] eqn:E; [| |congruence].
    + left. apply (c_exp' _ _ HC); auto.
    + right. assert (W : In i (wheel T w s)) by (apply (c_wheel' _ _ HC); auto).
      destruct (c_wheel _ _ HC _ _ _ W) as (_ & _ & A & B).
      apply in_flat_map. exists w. split; [apply in_zrange; exact A|].
      apply in_flat_map. exists s. split; [apply in_zrange; exact B|assumption].
Qed.

Lemma nodup_all_timers T : Cons T [] -> NoDup (all_timers T).
Proof.
  intro HC. unfold all_timers. apply nodup_app.
  - apply (c_nd2 _ _ HC).
  - apply nodup_flat; [apply nodup_zrange| |].
    + intro w. apply nodup_flat; [apply nodup_zrange|apply (c_nd1 _ _ HC)|].
      intros x y a H1 H2. destruct (c_wheel _ _ HC _ _ _ H1) as (A & _). destruct (c_wheel _ _ HC _ _ _ H2) as (B & _). congruence.
    + intros x y a H1 H2. apply in_flat_map in H1. apply in_flat_map in H2.
      destruct H1 as (s1 & _ & H1). destruct H2 as (s2 & _ & H2).
      destruct (c_wheel _ _ HC _ _ _ H1) as (A & _). destruct (c_wheel _ _ HC _ _ _ H2) as (B & _). congruence.
  - intros a Ha Hb. apply in_flat_map in Hb. destruct Hb as (w & _ & Hb). apply in_flat_map in Hb. destruct Hb as (s & _ & Hb).
    destruct (c_exp _ _ HC _ Ha) as (A & _). destruct (c_wheel _ _ HC _ _ _ Hb) as (B & _). congruence.
Qed.

Lemma finalize_fold (auto : nat -> bool) l : forall T (dels : list nat), Cons T [] -> Placed (curtime T) T ->
  let R := fold_left (fun '(T, dels) (i : nat) => (timeouts_del T i, if auto i then dels ++ [i] else dels)) l (T, dels) in
  Cons (fst R) [] /\ snd R = dels ++ filter auto l /\
  (forall j, to_pending (heap (fst R) j) = if in_dec Nat.eq_dec j l then None else to_pending (heap T j)).
Proof.
  induction l as [|i l IH]; intros T dels HC HP; cbn [fold_left filter].
  - simpl. rewrite app_nil_r. auto.
  - destruct (del_cons T i HC HP) as (C' & P' & E & Hh). rewrite <- E in P'.
    specialize (IH (timeouts_del T i) (if auto i then dels ++ [i] else dels) C' P'). cbv zeta in IH |- *.
    destruct IH as (A & B & C). split; [exact A|]. split.
    + rewrite B. destruct (auto i); [rewrite <- app_assoc; reflexivity|reflexivity].
    + intro j. rewrite C, Hh. destruct (in_dec Nat.eq_dec j l) as [I|I], (in_dec Nat.eq_dec j (i :: l)) as [I2|I2]; auto.
      * exfalso. apply I2. now right.
      * destruct I2 as [->|I2]; [|contradiction]. rewrite Nat.eqb_refl. reflexivity.
      * destruct (Nat.eqb_spec j i) as [->|]; [|reflexivity]. exfalso. apply I2. now left.
Qed.

Lemma finalize_ok auto T : Cons T [] -> Placed (curtime T) T ->
  let R := FinalizeTimeWheel auto T in
  snd R = filter auto (all_timers T) /\ (forall j, to_pending (heap (fst R) j) = None) /\ all_timers (fst R) = [].
Proof.
  intros HC HP R. destruct (finalize_fold auto (all_timers T) T [] HC HP) as (A & B & C). fold (FinalizeTimeWheel auto T) in A, B, C.
  fold R in A, B, C. split; [exact B|].
  assert (D : forall j, to_pending (heap (fst R) j) = None).
  { intro j. rewrite C. destruct (in_dec Nat.eq_dec j (all_timers T)) as [I|I]; [reflexivity|].
    rewrite (in_all_timers T j HC) in I. destruct (to_pending (heap T j)); [|reflexivity]. exfalso. apply I. discriminate. }
  split; [exact D|]. destruct (all_timers (fst R)) as [|j l] eqn:E; [reflexivity|]. exfalso.
  apply (proj1 (in_all_timers _ j A)); [rewrite E; now left|apply D].
Qed.

Lemma alive_none T i : alive T i = None <-> to_pending (heap T i) = None.
Proof. unfold alive. destruct (to_pending (heap T i)) as [[|]|]; split; intro; try discriminate; reflexivity. Qed.

Lemma count_nodup l (i : nat) : NoDup l -> count_occ Nat.eq_dec l i = if in_dec Nat.eq_dec i l then 1%nat else 0%nat.
Proof.
  intro H. destruct (in_dec Nat.eq_dec i l) as [I|I].
  - now apply NoDup_count_occ'.
  - now apply count_occ_not_In.
Qed.
