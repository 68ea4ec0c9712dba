From Verif.Model Require Import Common IOBuffer.
From Verif.Spec Require Import ByteQueue.
From Verif.Proofs Require Import Tac.

Lemma binv_new : binv new_buf.
Proof. unfold binv, new_buf; cbn [rd wr data]. rewrite repeat_length. unfold init_size; lia. Qed.

Lemma as_string_length b : binv b -> length (as_string b) = can_read b.
Proof. intros [H1 H2]. unfold as_string, can_read. apply slice_length. lia. Qed.

Lemma vec_resize_length l n : length (vec_resize l n) = n.
Proof. unfold vec_resize. rewrite app_length, firstn_length, repeat_length. lia. Qed.

Lemma ensure_spec b n : binv b ->
  exists b', ensure_writable b n = Ok b' /\ binv b' /\ as_string b' = as_string b /\ n <= can_write b'.
Proof.
  intros [H1 H2]. unfold ensure_writable. destruct b as [r w d]; cbn [rd wr data] in *.
  destruct (n <=? length d - w) eqn:E1; b2p.
  - eexists; split; [reflexivity|]. unfold binv, can_write; cbn [rd wr data]. repeat split; auto.
  - unfold can_write, can_read; cbn [rd wr data].
    assert (Hl : length (slice d r (w - r)) = w - r) by (apply slice_length; lia).
    destruct (n <=? length d - w + r) eqn:E2; b2p.
    + assert (Hc : length (compact (mkbuf r w d)) = length d).
      { unfold compact; cbn [rd wr data]. rewrite app_length, skipn_length, Hl. lia. }
      rewrite Hc. destruct (n <=? length d - (w - r)) eqn:E3; b2p; [|lia].
      eexists; split; [reflexivity|]. unfold binv, as_string; cbn [rd wr data]. rewrite Hc.
      repeat split; try lia.
      rewrite Nat.sub_0_r. unfold compact; cbn [rd wr data].
      rewrite slice_app_l by lia. rewrite <- Hl at 2. apply slice_all.
    + eexists; split; [reflexivity|]. unfold binv, as_string; cbn [rd wr data].
      rewrite vec_resize_length. repeat split; try lia.
      unfold vec_resize. rewrite firstn_all2 by lia. apply slice_app_l. lia.
Qed.

Lemma store_spec b bs : binv b -> length bs <= can_write b ->
  exists b', store_at_write b bs = Ok b' /\ rd b' = rd b /\ wr b' = wr b /\
             length (data b') = length (data b) /\
             slice (data b') (rd b) (wr b + length bs - rd b) = as_string b ++ bs.
Proof.
  intros [H1 H2] H3. unfold can_write in H3. destruct b as [r w d]; unfold store_at_write, as_string, mem_write; cbn [rd wr data] in *.
  destruct (w + length bs <=? length d) eqn:E; b2p; [|lia].
  eexists; split; [reflexivity|]; cbn [rd wr data]. repeat split.
  - rewrite !app_length, firstn_length, skipn_length. lia.
  - replace (w + length bs - r) with ((w - r) + length bs) by lia.
    rewrite slice_add. f_equal.
    + rewrite slice_app_l by (rewrite firstn_length; lia).
      unfold slice. rewrite skipn_firstn_comm, firstn_firstn. f_equal. lia.
    + replace (r + (w - r)) with (length (firstn w d)) by (rewrite firstn_length; lia).
      apply slice_mid.
Qed.

Lemma fill_spec b n bs : binv b -> length bs <= n ->
  exists b', fill b n bs = Ok b' /\ binv b' /\ as_string b' = as_string b ++ bs.
Proof.
  intros Hb Hn. destruct (ensure_spec b n Hb) as (b1 & E1 & I1 & S1 & W1).
  destruct (store_spec b1 bs I1) as (b2 & E2 & R2 & W2 & L2 & S2); [lia|].
  unfold fill. rewrite E1; cbn [obind]. rewrite E2; cbn [obind].
  eexists; split; [reflexivity|]. destruct I1 as [I1 I1']. unfold can_write in W1.
  unfold binv, as_string, produce; cbn [rd wr data].
  rewrite R2, W2, L2, S2, S1. repeat split; lia.
Qed.

Lemma write_spec b bs : binv b ->
  exists b', write_bytes b bs = Ok b' /\ binv b' /\ as_string b' = as_string b ++ bs.
Proof. intro Hb. apply (fill_spec b (length bs) bs Hb (le_n _)). Qed.

Lemma consume_spec b n : binv b -> binv (consume b n) /\ as_string (consume b n) = skipn n (as_string b).
Proof.
  intros [H1 H2]. unfold consume, can_read. destruct b as [r w d]; cbn [rd wr data] in *.
  destruct (r + Nat.min n (w - r) =? w) eqn:E; b2p; unfold binv, as_string; cbn [rd wr data].
  - split; [lia|]. rewrite skipn_slice. replace (w - r - n) with 0 by lia. now rewrite slice_nil.
  - split; [lia|]. rewrite skipn_slice. replace (Nat.min n (w - r)) with n by lia. f_equal. lia.
Qed.

Lemma step_spec b o : binv b -> op_ok o = true ->
  exists b', buf_step b o = Ok b' /\ binv b' /\ as_string b' = queue_step (as_string b) o.
Proof.
  intros Hb Ho. destruct o; simpl in *.
  - apply write_spec; auto.
  - destruct (ensure_spec b n Hb) as (b' & ? & ? & ? & ?); eauto.
  - apply fill_spec; auto. now b2p.
  - destruct (consume_spec b n Hb). eauto.
  - exists (mkbuf (rd b) (wr b) (data b)). destruct b; auto.
Qed.

Lemma run_spec os : forall b, binv b -> forallb op_ok os = true ->
  exists b', buf_run b os = Ok b' /\ binv b' /\ as_string b' = fold_left queue_step os (as_string b).
Proof.
  induction os as [|o os IH]; intros b Hb Ho; simpl in *.
  - eauto.
  - b2p. destruct (step_spec b o Hb) as (b1 & E1 & I1 & S1); auto. rewrite E1; cbn [obind].
    destruct (IH b1 I1) as (b2 & E2 & I2 & S2); auto. exists b2. rewrite S2, S1. auto.
Qed.

Lemma queue_prefix os : forall q,
  exists p, q ++ concat (map written os) = p ++ fold_left queue_step os q.
Proof.
  induction os as [|o os IH]; intro q; simpl.
  - exists []. now rewrite app_nil_r.
  - destruct (IH (queue_step q o)) as [p Hp]. destruct o; simpl in *;
      try (exists p; rewrite <- Hp, ?app_assoc; reflexivity).
    exists (firstn n q ++ p). rewrite <- app_assoc, <- Hp, app_assoc, firstn_skipn. reflexivity.
Qed.

Lemma fifo os : forallb op_ok os = true ->
  exists b, buf_run new_buf os = Ok b /\ as_string b = fold_left queue_step os [] /\ (exists consumed, concat (map written os) = consumed ++ as_string b).
Proof.
  intro H. destruct (run_spec os new_buf binv_new H) as (b & E & I & S).
  exists b. split; auto. split; auto. destruct (queue_prefix os []) as [p Hp].
  exists p. rewrite S. exact Hp.
Qed.

Lemma reach_inv os b : forallb op_ok os = true -> buf_run new_buf os = Ok b -> binv b.
Proof.
  intros H E. destruct (run_spec os new_buf binv_new H) as (b' & E' & I & S). congruence.
Qed.

Lemma consume_exact os b n : forallb op_ok os = true -> buf_run new_buf os = Ok b ->
  as_string (consume b n) = skipn n (as_string b) /\
  can_read (consume b n) = can_read b - Nat.min n (can_read b).
Proof.
  intros H E. pose proof (reach_inv _ _ H E) as I.
  destruct (consume_spec b n I) as [I' S]. split; auto.
  rewrite <- (as_string_length _ I'), <- (as_string_length _ I), S, skipn_length. lia.
Qed.

Lemma bounds os : forallb op_ok os = true ->
  exists b, buf_run new_buf os = Ok b /\ rd b <= wr b <= length (data b).
Proof.
  intro H. destruct (run_spec os new_buf binv_new H) as (b & E & I & S).
  exists b. destruct I; auto.
Qed.

Lemma reserve os b n : forallb op_ok os = true -> buf_run new_buf os = Ok b ->
  exists b', ensure_writable b n = Ok b' /\ n <= can_write b' /\ as_string b' = as_string b.
Proof.
  intros H E. destruct (ensure_spec b n (reach_inv _ _ H E)) as (b' & ? & ? & ? & ?). eauto.
Qed.
