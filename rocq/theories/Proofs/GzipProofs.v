From Verif.Model Require Import Common Gzip.
From Verif.Proofs Require Import Tac.
Local Open Scope Z_scope.
Local Opaque kInit.

Lemma kInit_Z : Z.of_nat kInit = 16384.
Proof. Local Transparent kInit. unfold kInit. Local Opaque kInit. rewrite Z2Nat.id; lia. Qed.
Lemma resize_length n s : length (resize n s) = n.
Proof. unfold resize. rewrite app_length, firstn_length, repeat_length. lia. Qed.
Lemma resize_cut k s : (k <= length s)%nat -> resize k s = firstn k s.
Proof. intros H. unfold resize. replace (k - length s)%nat with 0%nat by lia. apply app_nil_r. Qed.
Lemma resize_double s : resize (2 * length s) s = s ++ repeat 0 (length s).
Proof. unfold resize. rewrite firstn_all2 by lia. do 2 f_equal. lia. Qed.
Lemma uint_small n : Z.of_nat n < 2 ^ 32 -> uint n = n.
Proof. intros H. unfold uint. rewrite Z.mod_small by lia. apply Nat2Z.id. Qed.

(** outstring's bytes that zlib never writes: what was there, then zeros. *)
Fixpoint base (old : list Z) (j : nat) : list Z :=
  match j with O => resize kInit old | S j => base old j ++ repeat 0 (length (base old j)) end.
Lemma base_length old j : Z.of_nat (length (base old j)) = 16384 * 2 ^ Z.of_nat j.
Proof.
  induction j as [|j IH]; cbn [base]; [rewrite resize_length; exact kInit_Z|].
  rewrite app_length, repeat_length, Nat2Z.inj_add, IH, Nat2Z.inj_succ, Z.pow_succ_r by lia. lia.
Qed.
Lemma skipn_app_le {A} k (a b : list A) : (k <= length a)%nat -> skipn k (a ++ b) = skipn k a ++ b.
Proof. intros H. rewrite skipn_app. replace (k - length a)%nat with 0%nat by lia. reflexivity. Qed.

Lemma skipn_twice {A} w k (l : list A) : skipn w (skipn k l) = skipn (k + w) l.
Proof. revert l. induction k as [|k IH]; intros l; [reflexivity|]. destruct l as [|x l]; [now rewrite !skipn_nil|apply IH]. Qed.

Section Loop.
Variables (lt : bool) (p : list Z) (fin : Z) (old : list Z).
Hypothesis Hp : Z.of_nat (length p) < 2 ^ 32.
Hypothesis Hfin : fin <> 0.
Definition here (j k : nat) (out : list Z) : Prop :=
  out = firstn k p ++ skipn k (base old j) /\ (k <= length p)%nat /\ (k <= length (base old j))%nat.
Definition final (out : list Z) (k : nat) (ret : Z) : Prop :=
  ret = fin /\ k = length p /\
  (fin = Z_STREAM_END -> exists j, out = p ++ skipn (length p) (base old j) /\ (length p <= length (base old j))%nat /\
     (j = 0%nat \/ (length (base old j) <= 2 * length p)%nat)).

Lemma write_here j k w out : here j k out -> (k + w <= length p)%nat -> (k + w <= length (base old j))%nat ->
  firstn k out ++ firstn w (skipn k p) ++ skipn (k + w) out = firstn (k + w) p ++ skipn (k + w) (base old j).
Proof.
  intros (-> & A & B) H1 H2.
  assert (L : length (firstn k p) = k) by (rewrite firstn_length; lia).
  rewrite firstn_app, L, Nat.sub_diag, firstn_O, app_nil_r, firstn_firstn, Nat.min_id.
  rewrite skipn_app, L. rewrite (skipn_all2 (firstn k p)) by (rewrite L; lia). replace (k + w - k)%nat with w by lia. cbn [app].
  rewrite skipn_twice. rewrite app_assoc. f_equal.
  rewrite <- (firstn_skipn k (firstn (k + w) p)). rewrite firstn_firstn, Nat.min_l by lia. f_equal.
  rewrite skipn_firstn_comm. f_equal. lia.
Qed.
Lemma here_length j k out : here j k out -> length out = length (base old j).
Proof. intros (-> & A & B). rewrite app_length, firstn_length, skipn_length. lia. Qed.

Lemma loop_done fuel j out : here j (length p) out -> (1 <= fuel)%nat -> (j = 0%nat \/ (length (base old j) <= 2 * length p)%nat) ->
  exists out' k r, zloop fuel lt p fin out (length p) = Some (out', k, r) /\ final out' k r.
Proof.
  intros H F B. destruct fuel as [|fuel]; [lia|]. cbn [zloop].
  rewrite Nat.sub_diag, Nat.min_0_r. change (0 <? Z.of_nat 0) with false. cbn [andb negb]. rewrite !Nat.add_0_r, Nat.eqb_refl. cbn [andb].
  pose proof (write_here j (length p) 0 out H ltac:(lia) ltac:(destruct H; lia)) as W. rewrite !Nat.add_0_r in W. rewrite W, firstn_all.
  destruct (Z.eqb_spec fin Z_STREAM_END) as [E|E].
  - eexists _, _, _. split; [reflexivity|]. split; [reflexivity|]. split; [reflexivity|]. intros _. exists j. destruct H as (_ & _ & H). auto.
  - destruct (Z.eqb_spec fin 0) as [E0|E0]; [contradiction|]. eexists _, _, _. split; [reflexivity|]. split; [reflexivity|]. split; [reflexivity|]. intros X. contradiction.
Qed.

Lemma loop_runs : forall m j fuel k out, (j + m = 18)%nat -> (m + 3 <= fuel)%nat -> here j k out ->
  (j = 0%nat \/ (length (base old j) <= 2 * k)%nat) -> (k < length (base old j))%nat ->
  exists out' k' r, zloop fuel lt p fin out k = Some (out', k', r) /\ final out' k' r.
Proof.
  induction m as [m IH] using lt_wf_ind. intros j fuel k out Hj Hf H Hb Hk.
  pose proof (base_length old j) as BL. pose proof (base_length old 0) as B0. change (16384 * 2 ^ Z.of_nat 0) with 16384 in B0.
  destruct (Nat.eq_dec k (length p)) as [->|Ne].
  { apply (loop_done fuel j); auto. lia. }
  destruct fuel as [|fuel]; [lia|]. pose proof H as (Ho & H1 & H2). pose proof (here_length _ _ _ H) as HL.
  cbn [zloop]. rewrite HL.
  assert (HA : uint (length (base old j) - k) = (length (base old j) - k)%nat).
  { apply uint_small. assert (P2 : 2 ^ Z.of_nat j <= 2 ^ 18) by (apply Z.pow_le_mono_r; lia). change (2 ^ 18) with 262144 in P2.
    destruct Hb as [->|Hb]; [lia|]. change (2 ^ 32) with 4294967296. lia. }
  rewrite HA. set (av := (length (base old j) - k)%nat) in *. set (w := Nat.min av (length p - k)).
  assert (Hw : (0 < w)%nat) by (unfold w, av; lia).
  rewrite (write_here j k w out H ltac:(unfold w; lia) ltac:(unfold w, av; lia)).
  assert (LB : length (firstn (k + w) p ++ skipn (k + w) (base old j)) = length (base old j)) by (rewrite app_length, firstn_length, skipn_length; unfold w, av; lia).
  rewrite LB. rewrite (proj2 (Z.ltb_lt 0 (Z.of_nat w))) by lia. cbn [andb]. rewrite (proj2 (Nat.eqb_neq w 0)) by lia.
  assert (G : here j (k + w) (firstn (k + w) p ++ skipn (k + w) (base old j))) by (split; [reflexivity|unfold w, av; lia]).
  (* continuing after a full buffer *)
  assert (K1 : (k + w = length (base old j))%nat -> exists out' k' r,
     zloop fuel lt p fin (resize (2 * length (base old j)) (firstn (k + w) p ++ skipn (k + w) (base old j))) (k + w) = Some (out', k', r) /\ final out' k' r).
  { intros E. assert (J : (j < 18)%nat).
    { assert (Z.of_nat (length (base old j)) < 2 ^ 32) by (unfold w in E; lia). rewrite BL in H0. change (2 ^ 32) with (16384 * 2 ^ 18) in H0.
      assert (X : 2 ^ Z.of_nat j < 2 ^ 18) by lia. apply Z.pow_lt_mono_r_iff in X; lia. }
    replace (2 * length (base old j))%nat with (2 * length (firstn (k + w) p ++ skipn (k + w) (base old j)))%nat by lia.
    rewrite resize_double, LB.
    apply (IH (m - 1)%nat ltac:(lia) (S j)); try lia.
    - split; [|split; [unfold w; lia|cbn [base]; rewrite app_length, repeat_length; lia]].
      cbn [base]. rewrite skipn_app_le by lia. now rewrite app_assoc.
    - right. cbn [base]. rewrite app_length, repeat_length. lia.
    - cbn [base]. rewrite app_length, repeat_length. lia. }
  destruct (Nat.eqb_spec (k + w) (length p)) as [E|E].
  - assert (HD : here j (length p) (firstn (k + w) p ++ skipn (k + w) (base old j))) by (rewrite <- E at 1; exact G).
    destruct ((lt && Nat.eqb w av) || (fin =? Z_BUF_ERROR)) eqn:Eh; cbn [andb negb].
    + change (0 =? Z_STREAM_END) with false. change (0 =? 0) with true. cbv iota.
      destruct (Nat.eqb_spec (length (base old j)) (k + w)) as [E2|E2].
      * now apply K1.
      * rewrite E in *. apply (loop_done fuel j); auto; try lia.
    + destruct (Z.eqb_spec fin Z_STREAM_END) as [Ef|Ef].
      * eexists _, _, _. split; [reflexivity|]. split; [reflexivity|]. split; [exact E|]. intros _. exists j. rewrite E, firstn_all.
        split; [reflexivity|]. split; [lia|]. destruct Hb; [auto|right; lia].
      * destruct (Z.eqb_spec fin 0) as [E0|E0]; [contradiction|]. eexists _, _, _. split; [reflexivity|]. split; [reflexivity|]. split; [exact E|]. intros X. contradiction.
  - cbn [andb]. change (0 =? Z_STREAM_END) with false. change (0 =? 0) with true. cbv iota.
    assert (E2 : (k + w = length (base old j))%nat) by (unfold w, av in *; lia).
    destruct (Nat.eqb_spec (length (base old j)) (k + w)) as [_|X]; [|lia]. now apply K1.
Qed.
Lemma loop_ok : exists out k r, zloop rounds lt p fin (resize kInit old) 0 = Some (out, k, r) /\ final out k r.
Proof.
  assert (L0 : (0 < length (base old 0))%nat) by (pose proof (base_length old 0) as B0; change (16384 * 2 ^ Z.of_nat 0) with 16384 in B0; lia).
  apply (loop_runs 18 0); auto.
  - unfold rounds. lia.
  - split; [cbn [firstn skipn app base]; exact eq_refl|split; lia].
Qed.
End Loop.

Lemma base_fresh j : base [] j = repeat 0 (length (base [] j)).
Proof.
  induction j as [|j IH]; cbn [base].
  - unfold resize. rewrite firstn_nil. cbn [length app]. rewrite Nat.sub_0_r. now rewrite repeat_length.
  - rewrite app_length, repeat_length, repeat_app, <- IH. reflexivity.
Qed.
Lemma skipn_repeat {A} (x : A) n m : skipn n (repeat x m) = repeat x (m - n).
Proof. revert n. induction m as [|m IH]; intros [|n]; cbn; auto. Qed.
