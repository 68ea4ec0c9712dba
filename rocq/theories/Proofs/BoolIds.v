(** Proofs about boolean-index identifiers and cursors. *)
From Coq Require Import List Arith ZArith Bool Lia Sorting.
From Verif.Model Require Import Common BoolIndex.
From Verif.Proofs Require Import Tac.
Import ListNotations.
Local Open Scope Z_scope.

Lemma lor_shift a b n : 0 <= n -> 0 <= b < 2 ^ n -> Z.lor (a * 2 ^ n) b = a * 2 ^ n + b.
Proof.
  intros N B. assert (E : Z.land (a * 2 ^ n) b = 0).
  { apply Z.bits_inj'. intros i I. rewrite Z.land_spec, Z.bits_0, <- Z.shiftl_mul_pow2, Z.shiftl_spec by lia.
    destruct (Z.lt_ge_cases i n).
    - rewrite Z.testbit_neg_r by lia. reflexivity.
    - replace (Z.testbit b i) with false; [apply andb_false_r|]. symmetry.
      rewrite Z.testbit_eqb by lia. rewrite Z.div_small; [reflexivity|]. split; [lia|].
      apply Z.lt_le_trans with (2 ^ n); [lia|]. apply Z.pow_le_mono_r; lia. }
  rewrite <- Z.lxor_lor by auto. rewrite Z.add_nocarry_lxor by auto. reflexivity.
Qed.
Lemma land_ones' x n m : m = Z.ones n -> 0 <= n -> Z.land x m = x mod 2 ^ n.
Proof. intros -> N. now apply Z.land_ones. Qed.

Definition docbits (d : Z) : Z := if d <? 0 then 2 ^ 43 - d else d.
Lemma docbits_range d : - 2 ^ 43 < d < 2 ^ 43 -> 0 <= docbits d < 2 ^ 44.
Proof. unfold docbits. intro D. destruct (Z.ltb_spec d 0); lia. Qed.
Lemma gen_conj_id_eq d i s : - 2 ^ 43 < d < 2 ^ 43 -> 0 <= i < 256 -> 0 <= s < 256 ->
  gen_conj_id d i s = s * 2 ^ 52 + i * 2 ^ 44 + docbits d.
Proof.
  intros D I S. unfold gen_conj_id, u64.
  assert (E : (if d <? 0 then Z.lor (2 ^ 43) ((- d) mod 2 ^ 64) else d) = docbits d).
  { unfold docbits. destruct (Z.ltb_spec d 0); auto. rewrite (Z.mod_small (- d)) by lia.
    rewrite <- (Z.mul_1_l (2 ^ 43)) at 1. rewrite lor_shift by lia. lia. }
  rewrite E. pose proof (docbits_range d D).
  rewrite !Z.shiftl_mul_pow2 by lia. rewrite !Z.mod_small by lia.
  rewrite lor_shift by lia. 
  replace (s * 2 ^ 52 + i * 2 ^ 44) with ((s * 2 ^ 8 + i) * 2 ^ 44) by lia. rewrite lor_shift by lia. lia.
Qed.
Lemma gen_conj_id_range d i s : - 2 ^ 43 < d < 2 ^ 43 -> 0 <= i < 256 -> 0 <= s < 256 -> 0 <= gen_conj_id d i s < 2 ^ 60.
Proof. intros D I S. rewrite gen_conj_id_eq by auto. pose proof (docbits_range d D). lia. Qed.
Lemma conj_doc_gen d i s : - 2 ^ 43 < d < 2 ^ 43 -> 0 <= i < 256 -> 0 <= s < 256 -> conj_doc (gen_conj_id d i s) = d.
Proof.
  intros D I S. rewrite gen_conj_id_eq by auto. unfold conj_doc.
  rewrite (land_ones' _ 43 0x7FFFFFFFFFF), (land_ones' _ 1 1) by (auto; lia).
  rewrite Z.shiftr_div_pow2 by lia. change (2 ^ 1) with 2.
  unfold docbits. destruct (Z.ltb_spec d 0).
  - replace (s * 2 ^ 52 + i * 2 ^ 44 + (2 ^ 43 - d)) with (- d + ((s * 2 ^ 8 + i) * 2 + 1) * 2 ^ 43) by lia.
    rewrite Z_mod_plus_full, Z.div_add by lia. rewrite (Z.mod_small (- d)), (Z.div_small (- d)) by lia.
    rewrite Z.add_0_l, Z.add_comm, Z_mod_plus_full. cbn. lia.
  - replace (s * 2 ^ 52 + i * 2 ^ 44 + d) with (d + ((s * 2 ^ 8 + i) * 2) * 2 ^ 43) by lia.
    rewrite Z_mod_plus_full, Z.div_add by lia. rewrite (Z.mod_small d), (Z.div_small d) by lia.
    rewrite Z.add_0_l, Z_mod_mult. reflexivity.
Qed.
Lemma conj_index_gen d i s : - 2 ^ 43 < d < 2 ^ 43 -> 0 <= i < 256 -> 0 <= s < 256 -> conj_index (gen_conj_id d i s) = i.
Proof.
  intros D I S. rewrite gen_conj_id_eq by auto. unfold conj_index. rewrite (land_ones' _ 8 0xFF) by (auto; lia).
  rewrite Z.shiftr_div_pow2 by lia. pose proof (docbits_range d D).
  replace (s * 2 ^ 52 + i * 2 ^ 44 + docbits d) with (docbits d + (i + s * 2 ^ 8) * 2 ^ 44) by lia.
  rewrite Z.div_add, (Z.div_small (docbits d)) by lia. rewrite Z.add_0_l, Z_mod_plus_full. apply Z.mod_small. lia.
Qed.
Lemma conj_size_gen d i s : - 2 ^ 43 < d < 2 ^ 43 -> 0 <= i < 256 -> 0 <= s < 256 -> conj_size_of (gen_conj_id d i s) = s.
Proof.
  intros D I S. rewrite gen_conj_id_eq by auto. unfold conj_size_of. rewrite (land_ones' _ 8 0xFF) by (auto; lia).
  rewrite Z.shiftr_div_pow2 by lia. pose proof (docbits_range d D).
  replace (s * 2 ^ 52 + i * 2 ^ 44 + docbits d) with ((docbits d + i * 2 ^ 44) + s * 2 ^ 52) by lia.
  rewrite Z.div_add by lia. rewrite Z.div_small by lia. rewrite Z.add_0_l. apply Z.mod_small. lia.
Qed.
Lemma docbits_inj a b : - 2 ^ 43 < a < 2 ^ 43 -> - 2 ^ 43 < b < 2 ^ 43 -> docbits a = docbits b -> a = b.
Proof. unfold docbits. intros A B. destruct (Z.ltb_spec a 0), (Z.ltb_spec b 0); lia. Qed.

Lemma gen_entry_id_eq c x : 0 <= c < 2 ^ 60 -> gen_entry_id c x = c * 16 + (if x then 0 else 1).
Proof.
  intro C. unfold gen_entry_id, u64. rewrite Z.shiftl_mul_pow2 by lia. rewrite Z.mod_small by lia.
  change 16 with (2 ^ 4). destruct x; [lia|]. rewrite lor_shift; lia.
Qed.
Lemma entry_conj_gen c x : 0 <= c < 2 ^ 60 -> entry_conj (gen_entry_id c x) = c.
Proof.
  intro C. rewrite gen_entry_id_eq by auto. unfold entry_conj. rewrite Z.shiftr_div_pow2 by lia. change (2 ^ 4) with 16.
  rewrite Z.add_comm, Z.div_add by lia. rewrite Z.div_small; [lia|]. destruct x; lia.
Qed.
Lemma is_include_gen c x : 0 <= c < 2 ^ 60 -> is_include (gen_entry_id c x) = negb x.
Proof.
  intro C. rewrite gen_entry_id_eq by auto. unfold is_include. rewrite (land_ones' _ 1 1) by (auto; lia).
  replace (c * 16 + (if x then 0 else 1)) with ((if x then 0 else 1) + (c * 8) * 2 ^ 1) by (destruct x; lia).
  rewrite Z_mod_plus_full. destruct x; reflexivity.
Qed.

(** * Cursors *)
Section Skip.
Variable below : Z -> bool.
(** below an element of the list, everything earlier is below too *)
Definition down (l : list Z) : Prop :=
  forall i j, (i <= j)%nat -> (j < length l)%nat -> below (nth j l NULLENTRY) = true -> below (nth i l NULLENTRY) = true.

Lemma linear_spec l : forall rest idx, (forall i, nth i rest NULLENTRY = nth (idx + i) l NULLENTRY) -> (idx + length rest = length l)%nat ->
  let r := linear below rest idx in
  (idx <= r <= length l)%nat /\ (forall i, (idx <= i < r)%nat -> below (nth i l NULLENTRY) = true) /\
  ((r < length l)%nat -> below (nth r l NULLENTRY) = false).
Proof.
  induction rest as [|x rest IH]; intros idx N L; cbn [linear length] in *.
  - split; [lia|]. split; [intros; lia|lia].
  - pose proof (N 0%nat) as N0. rewrite Nat.add_0_r in N0. cbn in N0. destruct (below x) eqn:B.
    + destruct (IH (S idx)) as (A & P & Q).
      * intro i. replace (S idx + i)%nat with (idx + S i)%nat by lia. rewrite <- N. reflexivity.
      * lia.
      * split; [lia|]. split; [|exact Q]. intros i I. destruct (Nat.eq_dec i idx) as [->|]; [congruence|apply P; lia].
    + split; [lia|]. split; [intros; lia|]. intros _. congruence.
Qed.

Lemma skip_loop_spec l : down l -> forall fuel i0 idx right,
  (right - idx < fuel)%nat -> (i0 <= idx)%nat -> (idx <= length l)%nat -> (idx <= right <= length l)%nat ->
  (forall i, (i0 <= i < idx)%nat -> below (nth i l NULLENTRY) = true) ->
  ((right < length l)%nat -> below (nth right l NULLENTRY) = false) ->
  let r := skip_loop fuel below l idx right in
  (idx <= r <= length l)%nat /\ (forall i, (i0 <= i < r)%nat -> below (nth i l NULLENTRY) = true) /\
  ((r < length l)%nat -> below (nth r l NULLENTRY) = false).
Proof.
  intros D fuel. induction fuel as [|f IH]; intros i0 idx right FU I0 IL RR LO HI; [lia|]. cbn [skip_loop].
  destruct (Nat.ltb_spec idx right) as [LT|GE].
  2:{ assert (idx = right) by lia. subst. split; [lia|]. auto. }
  destruct (Nat.ltb_spec (right - idx) 64) as [SM|BG].
  { destruct (linear_spec l (skipn idx l) idx) as (A & P & Q).
    - intro i. rewrite <- (firstn_skipn idx l) at 2. rewrite app_nth2; rewrite firstn_length_le by lia; [f_equal; lia|lia].
    - rewrite skipn_length. lia.
    - cbn zeta. split; [lia|]. split; [|exact Q]. intros i I. destruct (Nat.lt_ge_cases i idx); [apply LO; lia|apply P; lia]. }
  set (mid := Nat.div2 (idx + right)).
  assert (M : (idx <= mid < right)%nat).
  { unfold mid. rewrite Nat.div2_div. split; [apply Nat.div_le_lower_bound; lia|apply Nat.div_lt_upper_bound; lia]. }
  destruct (below (nth mid l NULLENTRY)) eqn:B.
  - assert (LO' : forall i, (i0 <= i < S mid)%nat -> below (nth i l NULLENTRY) = true).
    { intros i I. apply (D i mid); [lia|lia|auto]. }
    destruct (Nat.leb_spec (length l) (S mid)); cbn [orb].
    + split; [lia|]. split; [auto|lia].
    + destruct (below (nth (S mid) l NULLENTRY)) eqn:B2; cbn [negb].
      * destruct (IH i0 (S mid) right) as (A & P & Q); auto; try lia. split; [lia|auto].
      * split; [lia|]. split; [auto|auto].
  - destruct (Nat.leb_spec (length l) idx); [lia|]. cbn [orb].
    destruct (below (nth idx l NULLENTRY)) eqn:B2; cbn [negb].
    + destruct (IH i0 idx mid) as (A & P & Q); auto; try lia.
    + split; [lia|]. auto.
Qed.

Lemma cu_move_spec c : down (cu_list c) -> (cu_idx c <= length (cu_list c))%nat ->
  let c' := cu_move below c in
  cu_list c' = cu_list c /\ (cu_idx c <= cu_idx c' <= length (cu_list c))%nat /\
  (forall i, (cu_idx c <= i < cu_idx c')%nat -> below (nth i (cu_list c) NULLENTRY) = true) /\
  ((cu_idx c' < length (cu_list c))%nat -> below (nth (cu_idx c') (cu_list c) NULLENTRY) = false).
Proof.
  intros D I. cbn zeta. unfold cu_move. cbn [cu_list cu_idx]. split; auto.
  apply skip_loop_spec; auto; try lia.
Qed.
End Skip.

Lemma sorted_nth l : StronglySorted Z.le l -> forall i j, (i <= j)%nat -> (j < length l)%nat -> nth i l NULLENTRY <= nth j l NULLENTRY.
Proof.
  induction 1 as [|x l S IH F]; intros i j IJ JL; cbn [length] in JL; [lia|].
  rewrite Forall_forall in F. destruct i as [|i], j as [|j]; cbn; try lia.
  - apply F. apply nth_In. lia.
  - apply IH; lia.
Qed.
Lemma down_lt l id : StronglySorted Z.le l -> down (fun x => x <? id) l.
Proof. intros S i j IJ JL B. pose proof (sorted_nth l S i j IJ JL). lia. Qed.
Lemma down_le l id : StronglySorted Z.le l -> down (fun x => x <=? id) l.
Proof. intros S i j IJ JL B. pose proof (sorted_nth l S i j IJ JL). lia. Qed.

(** what a cursor has left *)
Definition rest (c : cursor) : list Z := skipn (cu_idx c) (cu_list c).
Record cuok (c : cursor) : Prop := {
  cu_sorted : StronglySorted Z.le (cu_list c);
  cu_in : (cu_idx c <= length (cu_list c))%nat;
  cu_small : forall e, In e (cu_list c) -> 0 <= e < NULLENTRY
}.
Lemma in_rest c e : In e (rest c) <-> exists i, (cu_idx c <= i < length (cu_list c))%nat /\ nth i (cu_list c) NULLENTRY = e.
Proof.
  unfold rest. set (n := cu_idx c). set (l := cu_list c). clearbody n l. revert l. induction n as [|n IH]; intros [|x l]; cbn.
  - split; [tauto|]. intros (i & I & _). lia.
  - split.
    + intros [<-|I]; [exists 0%nat; cbn; split; [lia|auto]|]. apply In_nth with (d := NULLENTRY) in I as (i & L & E). exists (S i). split; [lia|auto].
    + intros ([|i] & I & E); [auto|]. right. rewrite <- E. apply nth_In. lia.
  - split; [tauto|]. intros (i & I & _). lia.
  - rewrite IH. split.
    + intros (i & I & E). exists (S i). split; [lia|auto].
    + intros ([|i] & I & E); [lia|]. exists i. split; [lia|auto].
Qed.
Lemma cu_cur_min c : cuok c ->
  (rest c = [] /\ cu_cur c = NULLENTRY) \/ (In (cu_cur c) (rest c) /\ forall e, In e (rest c) -> cu_cur c <= e).
Proof.
  intros [S I SM]. destruct (Nat.eq_dec (cu_idx c) (length (cu_list c))) as [E|N].
  - left. unfold rest, cu_cur. rewrite E, skipn_all, nth_overflow by lia. auto.
  - right. split.
    + apply in_rest. exists (cu_idx c). split; [lia|reflexivity].
    + intros e J. apply in_rest in J as (i & L & <-). unfold cu_cur. apply sorted_nth; auto; lia.
Qed.
Lemma cu_move_rest below c : cuok c -> down below (cu_list c) ->
  cuok (cu_move below c) /\ (forall e, In e (rest (cu_move below c)) <-> In e (rest c) /\ below e = false).
Proof.
  intros [S I SM] D. destruct (cu_move_spec below c D I) as (EL & RG & LO & HI). split.
  - split; [now rewrite EL|rewrite EL; lia|now rewrite EL].
  - intro e. rewrite !in_rest, EL. split.
    + intros (i & L & <-). split; [exists i; split; [lia|auto]|].
      destruct (below (nth i (cu_list c) NULLENTRY)) eqn:B; auto.
      rewrite (D (cu_idx (cu_move below c)) i) in HI; [|lia|lia|auto]. apply HI. lia.
    + intros [(i & L & <-) B]. exists i. split; auto. split; [|lia].
      destruct (Nat.lt_ge_cases i (cu_idx (cu_move below c))); [|lia]. rewrite LO in B by lia. discriminate.
Qed.

(** * Field cursors *)
Definition rem (f : fcursor) : list Z := flat_map rest (fc_cursors f).
Definition ismin (l : list Z) (m : Z) : Prop :=
  (l = [] /\ m = NULLENTRY) \/ (In m l /\ forall e, In e l -> m <= e).
Record fcok (f : fcursor) : Prop := {
  fc_ok : forall c, In c (fc_cursors f) -> cuok c;
  fc_some : (fc_cur f < length (fc_cursors f))%nat;
  fc_min : ismin (rem f) (fc_id f)
}.

(** [cur] is a cursor of the list [l] with the smallest id *)
Lemma pick_min_spec l : forall i cur m,
  let (cur', m') := pick_min l i cur m in
  m' <= m /\ (forall c, In c l -> m' <= cu_cur c) /\
  ((cur' = cur /\ m' = m) \/ exists j, (j < length l)%nat /\ cur' = (i + j)%nat /\ m' = cu_cur (cursor_at l j)).
Proof.
  induction l as [|c l IH]; intros i cur m; cbn [pick_min].
  - split; [lia|]. split; [intros ? []|auto].
  - destruct (Z.ltb_spec (cu_cur c) m).
    + specialize (IH (S i) i (cu_cur c)). destruct (pick_min l (S i) i (cu_cur c)) as [cur' m']. destruct IH as (A & B & C).
      split; [lia|]. split; [intros x [->|J]; [lia|auto]|]. right. destruct C as [[-> ->]|(j & L & -> & ->)].
      * exists 0%nat. cbn. split; [lia|]. split; [lia|auto].
      * exists (S j). cbn. split; [lia|]. split; [lia|auto].
    + specialize (IH (S i) cur m). destruct (pick_min l (S i) cur m) as [cur' m']. destruct IH as (A & B & C).
      split; [lia|]. split; [intros x [->|J]; [lia|auto]|]. destruct C as [C|(j & L & -> & ->)]; [auto|]. right.
      exists (S j). cbn. split; [lia|]. split; [lia|auto].
Qed.
Lemma rest_small c e : cuok c -> In e (rest c) -> 0 <= e < NULLENTRY.
Proof. intros [S I SM] J. apply SM. apply in_rest in J as (i & L & <-). apply nth_In. lia. Qed.
Lemma cu_cur_le c e : cuok c -> In e (rest c) -> cu_cur c <= e.
Proof. intros OK I. destruct (cu_cur_min c OK) as [[E _]|[_ M]]; [rewrite E in I; destruct I|auto]. Qed.
Lemma cu_cur_null c : cuok c -> cu_cur c <= NULLENTRY /\ (cu_cur c = NULLENTRY -> rest c = []).
Proof.
  intro OK. destruct (cu_cur_min c OK) as [[E N]|[I _]]; [rewrite N; split; [lia|auto]|].
  pose proof (rest_small c _ OK I). split; lia.
Qed.

Lemma cursor_at_in l i : (i < length l)%nat -> In (cursor_at l i) l.
Proof. intro L. now apply nth_In. Qed.

Lemma min_of_cursors l m : (forall c, In c l -> cuok c) -> (exists c, In c l /\ m = cu_cur c) ->
  (forall c, In c l -> m <= cu_cur c) -> ismin (flat_map rest l) m.
Proof.
  intros OK (c & I & ->) MIN. destruct (cu_cur_min c (OK c I)) as [[E N]|[J M]].
  - left. split; auto. destruct (flat_map rest l) as [|e r] eqn:F; auto. exfalso.
    assert (X : In e (flat_map rest l)) by (rewrite F; left; auto). apply in_flat_map in X as (c' & I' & J').
    pose proof (rest_small c' e (OK c' I') J'). pose proof (cu_cur_le c' e (OK c' I') J'). specialize (MIN c' I'). lia.
  - right. split.
    + apply in_flat_map. eauto.
    + intros e X. apply in_flat_map in X as (c' & I' & J'). pose proof (cu_cur_le c' e (OK c' I') J'). specialize (MIN c' I'). lia.
Qed.

Lemma fc_init_ok l : l <> [] -> (forall c, In c l -> cuok c) -> fcok (fc_init l) /\ fc_cursors (fc_init l) = l.
Proof.
  intros NE OK. unfold fc_init. pose proof (pick_min_spec l 0 0 (cu_cur (cursor_at l 0))) as P.
  destruct (pick_min l 0 0 (cu_cur (cursor_at l 0))) as [cur m]. destruct P as (A & B & C). cbn [fc_cursors]. split; auto.
  assert (L0 : (0 < length l)%nat) by (destruct l; [congruence|cbn; lia]).
  assert (W : exists j, (j < length l)%nat /\ cur = j /\ m = cu_cur (cursor_at l j)).
  { destruct C as [[-> ->]|(j & L & -> & ->)]; [exists 0%nat; auto|exists j; auto]. }
  destruct W as (j & L & -> & ->). split; cbn [fc_cursors fc_cur fc_id]; auto.
  unfold rem. cbn [fc_cursors]. apply min_of_cursors; auto. exists (cursor_at l j). split; [now apply cursor_at_in|auto].
Qed.

Lemma fc_move_ok mv (keep : Z -> bool) f : fcok f ->
  (forall c, In c (fc_cursors f) -> cuok (mv c) /\ (forall e, In e (rest (mv c)) <-> In e (rest c) /\ keep e = true)) ->
  fcok (fc_move mv f) /\ (forall e, In e (rem (fc_move mv f)) <-> In e (rem f) /\ keep e = true).
Proof.
  intros [OK SO _] MV. unfold fc_move. set (l := map mv (fc_cursors f)).
  pose proof (pick_min_spec l 0 (fc_cur f) NULLENTRY) as P. destruct (pick_min l 0 (fc_cur f) NULLENTRY) as [cur m].
  destruct P as (A & B & C).
  assert (LL : length l = length (fc_cursors f)) by apply map_length.
  assert (OKL : forall c, In c l -> cuok c). { intros c I. apply in_map_iff in I as (c0 & <- & I). apply MV; auto. }
  assert (CUR : (cur < length l)%nat /\ forall c, In c l -> cu_cur (cursor_at l cur) <= cu_cur c).
  { destruct C as [[-> ->]|(j & L & -> & ->)].
    - split; [lia|]. intros c I. specialize (B c I). pose proof (cu_cur_null c (OKL c I)) as [N _].
      assert (X : In (cursor_at l (fc_cur f)) l) by (apply cursor_at_in; lia). pose proof (cu_cur_null _ (OKL _ X)) as [N' _]. lia.
    - split; [lia|]. intros c I. rewrite Nat.add_0_l in *. auto. }
  destruct CUR as [CL CM]. split.
  - split; cbn [fc_cursors fc_cur fc_id]; auto. unfold rem. cbn [fc_cursors]. apply min_of_cursors; auto.
    exists (cursor_at l cur). split; [now apply cursor_at_in|auto].
  - intro e. unfold rem. cbn [fc_cursors]. rewrite !in_flat_map. split.
    + intros (c & I & J). apply in_map_iff in I as (c0 & <- & I). apply MV in J as [J K]; auto. split; eauto.
    + intros [(c & I & J) K]. exists (mv c). split; [now apply in_map|]. apply MV; auto.
Qed.
Lemma fc_skip_to_ok id f : fcok f -> fcok (fc_skip_to id f) /\ (forall e, In e (rem (fc_skip_to id f)) <-> In e (rem f) /\ id <= e).
Proof.
  intro OK. destruct (fc_move_ok (cu_skip_to id) (fun e => id <=? e) f OK) as [A B].
  - intros c I. pose proof (fc_ok f OK c I) as CO. destruct (cu_move_rest (fun x => x <? id) c CO (down_lt _ _ (cu_sorted c CO))) as [X Y].
    split; [exact X|]. intro e. unfold cu_skip_to. rewrite Y. rewrite Z.ltb_ge, Z.leb_le. tauto.
  - split; [exact A|]. intro e. unfold fc_skip_to. rewrite B, Z.leb_le. tauto.
Qed.
Lemma fc_skip_ok id f : fcok f -> fcok (fc_skip id f) /\ (forall e, In e (rem (fc_skip id f)) <-> In e (rem f) /\ id < e).
Proof.
  intro OK. destruct (fc_move_ok (cu_skip id) (fun e => id <? e) f OK) as [A B].
  - intros c I. pose proof (fc_ok f OK c I) as CO. destruct (cu_move_rest (fun x => x <=? id) c CO (down_le _ _ (cu_sorted c CO))) as [X Y].
    split; [exact X|]. intro e. unfold cu_skip. rewrite Y. rewrite Z.leb_gt, Z.ltb_lt. tauto.
  - split; [exact A|]. intro e. unfold fc_skip. rewrite B, Z.ltb_lt. tauto.
Qed.
