(** Proofs about bitmap posting lists and the posting list manager. *)
From Coq Require Import Sorted Permutation.
From Verif.Model Require Import Common InvIndex.
From Verif.Spec Require Import InvIndexSpec.
From Verif.Proofs Require Import Tac.
Open Scope nat_scope.

(** * Bits *)
Definition bit (b : bitmap) (i : nat) : bool := Z.testbit (nth (i / 64) (bm_words b) 0%Z) (63 - Z.of_nat (i mod 64)).
Definition word (w : Z) : Prop := (0 <= w < 2 ^ 64)%Z.
Definition wfb (b : bitmap) : Prop := Forall word (bm_words b).
Definition cap (b : bitmap) : nat := length (bm_words b) * 64.

Lemma divmod64 i : i = 64 * (i / 64) + i mod 64 /\ i mod 64 < 64.
Proof. split; [apply Nat.div_mod; lia|apply Nat.mod_upper_bound; lia]. Qed.

Lemma mask_test k j : (0 <= k)%Z -> (0 <= j)%Z -> Z.testbit (Z.shiftl 1 k) j = (j =? k)%Z.
Proof.
  intros K J. rewrite Z.shiftl_mul_pow2, Z.mul_1_l by auto. rewrite Z.pow2_bits_eqb by auto. apply Z.eqb_sym.
Qed.
Lemma mask_word i : word (bit_mask i).
Proof.
  unfold word, bit_mask. pose proof (divmod64 i). rewrite Z.shiftl_mul_pow2, Z.mul_1_l by lia. split; [apply Z.pow_nonneg; lia|].
  apply Z.pow_lt_mono_r; lia.
Qed.
Lemma land_mask w i : negb (Z.land w (bit_mask i) =? 0)%Z = Z.testbit w (63 - Z.of_nat (i mod 64)).
Proof.
  pose proof (divmod64 i) as [_ L]. set (k := (63 - Z.of_nat (i mod 64))%Z) in *. assert (K : (0 <= k)%Z) by lia.
  unfold bit_mask. fold k. destruct (Z.testbit w k) eqn:T.
  - apply negb_true_iff, Z.eqb_neq. intro E. assert (X : Z.testbit (Z.land w (Z.shiftl 1 k)) k = false) by (rewrite E; apply Z.bits_0).
    rewrite Z.land_spec, mask_test, T, Z.eqb_refl in X by auto. discriminate.
  - apply negb_false_iff, Z.eqb_eq. apply Z.bits_inj'. intros j J. rewrite Z.land_spec, mask_test, Z.bits_0 by auto.
    destruct (Z.eqb_spec j k); [subst; now rewrite T|apply andb_false_r].
Qed.

Lemma IsBitSet_spec b i : IsBitSet b i = if i <? cap b then Ok (bit b i) else CheckFail.
Proof. unfold IsBitSet, cap. destruct (_ <? _); auto. now rewrite land_mask. Qed.

Lemma bit_outside b i : cap b <= i -> bit b i = false.
Proof.
  unfold cap, bit. intro H. rewrite nth_overflow; [apply Z.bits_0|]. pose proof (divmod64 i). lia.
Qed.

Lemma nth_upd n v l k : n < length l -> nth k (upd n v l) 0%Z = if k =? n then v else nth k l 0%Z.
Proof.
  intro H. unfold upd. destruct (Nat.eqb_spec k n) as [->|N].
  - rewrite app_nth2; rewrite firstn_length_le by lia; [|lia]. now rewrite Nat.sub_diag.
  - destruct (Nat.lt_ge_cases k n) as [L|G].
    + rewrite app_nth1 by (rewrite firstn_length_le; lia). rewrite <- (firstn_skipn n l) at 2. rewrite app_nth1 by (rewrite firstn_length_le; lia). auto.
    + rewrite app_nth2; rewrite firstn_length_le by lia; [|lia]. destruct (k - n) eqn:E; [lia|]. cbn [nth].
      rewrite <- (firstn_skipn (S n) l) at 2. rewrite app_nth2; rewrite firstn_length_le by lia; [|lia]. f_equal. lia.
Qed.
Lemma upd_length n v l : n < length l -> length (upd n v l) = length l.
Proof. intro H. unfold upd. rewrite app_length, firstn_length_le by lia. cbn [length]. rewrite skipn_length. lia. Qed.
Lemma upd_Forall (P : Z -> Prop) n v (l : list Z) : P v -> Forall P l -> Forall P (upd n v l).
Proof.
  intros A B. unfold upd. apply Forall_app. split.
  - rewrite <- (firstn_skipn n l) in B. apply Forall_app in B. tauto.
  - constructor; auto. rewrite <- (firstn_skipn (S n) l) in B. apply Forall_app in B. tauto.
Qed.

Lemma word_bits_inj w : (0 <= w)%Z -> (forall j, (64 <= j)%Z -> Z.testbit w j = false) -> word w.
Proof.
  intros A B. split; auto. destruct (Z.eq_dec w 0) as [->|N]; [reflexivity|]. apply Z.log2_lt_pow2; [lia|].
  destruct (Z.lt_ge_cases (Z.log2 w) 64); auto. assert (X := B _ H). rewrite Z.bit_log2 in X by lia. discriminate.
Qed.
Lemma word_high w j : word w -> (64 <= j)%Z -> Z.testbit w j = false.
Proof.
  intros [A B] J. destruct (Z.eq_dec w 0) as [->|N]; [apply Z.bits_0|].
  apply Z.bits_above_log2; auto. apply Z.log2_lt_pow2 in B; lia.
Qed.
Lemma word_lor a b : word a -> word b -> word (Z.lor a b).
Proof.
  intros A B. apply word_bits_inj; [apply Z.lor_nonneg; split; [apply A|apply B]|].
  intros j J. rewrite Z.lor_spec, !word_high; auto.
Qed.
Lemma word_land a b : word a -> (0 <= b)%Z -> word (Z.land a b).
Proof.
  intros A B. apply word_bits_inj; [apply Z.land_nonneg; left; apply A|].
  intros j J. rewrite Z.land_spec, word_high; auto.
Qed.
Lemma compl_bits w j : word w -> (0 <= j < 64)%Z -> Z.testbit (2 ^ 64 - 1 - w) j = negb (Z.testbit w j).
Proof.
  intros [A B] J. replace (2 ^ 64 - 1 - w)%Z with (2 ^ 64 + Z.lnot w)%Z by (unfold Z.lnot; lia).
  rewrite <- Z.lnot_spec by lia. rewrite <- (Z.mod_pow2_bits_low (2 ^ 64 + Z.lnot w) 64) by lia.
  rewrite <- (Z.mod_pow2_bits_low (Z.lnot w) 64) by lia. f_equal.
  rewrite Z.add_comm. replace (2 ^ 64)%Z with (1 * 2 ^ 64)%Z at 1 by lia. apply Z.mod_add. lia.
Qed.

Lemma nth_word l k : Forall word l -> word (nth k l 0%Z).
Proof. intro W. destruct (Nat.lt_ge_cases k (length l)); [rewrite Forall_forall in W; now apply W, nth_In|rewrite nth_overflow by auto; split; [lia|reflexivity]]. Qed.

Lemma SetBit_spec b i : i < cap b -> wfb b -> exists b', SetBit b i = Ok b' /\ wfb b' /\ cap b' = cap b /\
  bm_ids b' = bm_ids b /\ bm_bits b' = bm_bits b /\ length (bm_words b') = length (bm_words b) /\ forall j, bit b' j = (j =? i) || bit b j.
Proof.
  intros H W. unfold SetBit. assert (E : (i <? length (bm_words b) * 64) = true) by (apply Nat.ltb_lt; exact H). rewrite E.
  unfold cap in H. pose proof (divmod64 i) as [DI MI]. assert (LW : i / 64 < length (bm_words b)) by lia.
  eexists. split; [reflexivity|]. unfold wfb, cap, with_words. cbn [bm_words bm_ids bm_bits]. rewrite upd_length by auto. repeat split.
  - apply upd_Forall; auto. apply word_lor; [|apply mask_word]. now apply nth_word.
  - intro j. unfold bit. cbn [bm_words]. rewrite nth_upd by auto. pose proof (divmod64 j) as [DJ MJ].
    destruct (Nat.eqb_spec (j / 64) (i / 64)) as [Q|Q].
    + rewrite Z.lor_spec. unfold bit_mask. rewrite mask_test by lia. rewrite Q, orb_comm. f_equal.
      destruct (Nat.eqb_spec j i) as [->|N]; [apply Z.eqb_refl|]. apply Z.eqb_neq. lia.
    + destruct (Nat.eqb_spec j i) as [->|N]; [congruence|]. auto.
Qed.
Lemma ClearBit_spec b i : i < cap b -> wfb b -> exists b', ClearBit b i = Ok b' /\ wfb b' /\ cap b' = cap b /\
  bm_ids b' = bm_ids b /\ bm_bits b' = bm_bits b /\ length (bm_words b') = length (bm_words b) /\ forall j, bit b' j = negb (j =? i) && bit b j.
Proof.
  intros H W. unfold ClearBit. assert (E : (i <? length (bm_words b) * 64) = true) by (apply Nat.ltb_lt; exact H). rewrite E.
  unfold cap in H. pose proof (divmod64 i) as [DI MI]. assert (LW : i / 64 < length (bm_words b)) by lia.
  eexists. split; [reflexivity|]. unfold wfb, cap, with_words. cbn [bm_words bm_ids bm_bits]. rewrite upd_length by auto. repeat split.
  - apply upd_Forall; auto. apply word_land; [|pose proof (mask_word i) as [? ?]; lia]. now apply nth_word.
  - intro j. unfold bit. cbn [bm_words]. rewrite nth_upd by auto. pose proof (divmod64 j) as [DJ MJ].
    destruct (Nat.eqb_spec (j / 64) (i / 64)) as [Q|Q].
    + rewrite Z.land_spec, compl_bits by (auto using mask_word; lia). unfold bit_mask. rewrite mask_test by lia. rewrite Q, andb_comm. f_equal. f_equal.
      destruct (Nat.eqb_spec j i) as [->|N]; [apply Z.eqb_refl|]. apply Z.eqb_neq. lia.
    + destruct (Nat.eqb_spec j i) as [->|N]; [congruence|]. auto.
Qed.

Lemma zip_length f a b : length (zip_words f a b) = length a.
Proof. revert b. induction a; intros [|y b]; cbn; auto. Qed.
Lemma zip_nth f a b k : (forall x, word x -> f x 0%Z = x) -> Forall word a -> k < length a ->
  nth k (zip_words f a b) 0%Z = f (nth k a 0%Z) (nth k b 0%Z).
Proof.
  intro F. revert b k. induction a as [|x a IH]; intros [|y b] k W L; cbn [length] in L; try lia; inv W; destruct k; cbn [zip_words nth]; auto.
  - now rewrite F.
  - rewrite F; auto. rewrite Forall_forall in H2. apply H2, nth_In. lia.
  - apply IH; auto. lia.
Qed.
Lemma zip_wf f a b : (forall x y, word x -> word y -> word (f x y)) -> Forall word a -> Forall word b -> Forall word (zip_words f a b).
Proof. intro F. revert b. induction a; intros [|y b] A B; cbn; auto. inv A. inv B. constructor; auto. Qed.


Lemma Union_spec a b : wfb a -> wfb b -> wfb (Union a b) /\ cap (Union a b) = cap a /\ bm_bits (Union a b) = bm_bits a /\
  forall i, i < cap a -> bit (Union a b) i = bit a i || bit b i.
Proof.
  intros A B. unfold wfb, cap, Union, with_words. cbn [bm_words bm_bits]. rewrite zip_length. repeat split.
  - apply zip_wf; auto using word_lor.
  - intros i I. unfold bit. cbn [bm_words]. pose proof (divmod64 i). rewrite zip_nth; auto; [|now intros; apply Z.lor_0_r|lia].
    apply Z.lor_spec.
Qed.
Lemma Substract_spec a b : wfb a -> wfb b -> wfb (Substract a b) /\ cap (Substract a b) = cap a /\ bm_bits (Substract a b) = bm_bits a /\
  forall i, i < cap a -> bit (Substract a b) i = bit a i && negb (bit b i).
Proof.
  intros A B. unfold wfb, cap, Substract, with_words. cbn [bm_words bm_bits]. rewrite zip_length. repeat split.
  - apply zip_wf; auto. intros x y X [Y Y']. apply word_land; auto. lia.
  - intros i I. unfold bit. cbn [bm_words]. pose proof (divmod64 i). rewrite zip_nth; auto; [| |lia].
    + rewrite Z.land_spec, compl_bits; auto; [|lia]. now apply nth_word.
    + intros x X. replace (2 ^ 64 - 1 - 0)%Z with (Z.ones 64) by reflexivity. rewrite Z.land_ones by lia. now apply Z.mod_small.
Qed.
Lemma zip_land_nth a b k : k < length a -> k < length b -> nth k (zip_words Z.land a b) 0%Z = Z.land (nth k a 0%Z) (nth k b 0%Z).
Proof. revert b k. induction a; intros [|y b] [|k] A B; cbn [length] in *; try lia; cbn; auto. apply IHa; lia. Qed.
Lemma Intersect_spec a b : wfb a -> wfb b -> length (bm_words a) <= length (bm_words b) ->
  wfb (Intersect a b) /\ cap (Intersect a b) = cap a /\ bm_bits (Intersect a b) = bm_bits a /\
  forall i, bit (Intersect a b) i = bit a i && bit b i.
Proof.
  intros A B L.
  assert (E : Intersect a b = with_words a (zip_words Z.land (bm_words a) (bm_words b))).
  { unfold Intersect. f_equal. rewrite Nat.min_l by auto. set (z := zip_words _ _ _).
    assert (Z : length (bm_words a) = length z) by (symmetry; apply zip_length). rewrite Z, Nat.sub_diag, firstn_all, skipn_all.
    cbn [zero_bytes]. apply app_nil_r. }
  rewrite E. unfold wfb, cap, with_words. cbn [bm_words bm_bits]. rewrite zip_length.
  split; [|split; [auto|split; [auto|]]].
  - apply zip_wf; auto. intros x y X [Y _]. now apply word_land.
  - intro i. unfold bit at 1. cbn [bm_words]. destruct (Nat.lt_ge_cases i (cap a)) as [I|I].
    + unfold cap in I. pose proof (divmod64 i). rewrite zip_land_nth by lia. apply Z.land_spec.
    + rewrite (bit_outside a) by auto. rewrite nth_overflow; [apply Z.bits_0|]. rewrite zip_length. unfold cap in I. pose proof (divmod64 i). lia.
Qed.
Lemma ResetBits_spec b : wfb (ResetBits b) /\ cap (ResetBits b) = cap b /\ bm_bits (ResetBits b) = bm_bits b /\ forall i, bit (ResetBits b) i = false.
Proof.
  unfold wfb, cap, ResetBits, with_words. cbn [bm_words bm_bits]. rewrite map_length. repeat split.
  - apply Forall_forall. intros x X. apply in_map_iff in X. destruct X as (? & <- & _). split; [lia|reflexivity].
  - intro i. unfold bit. cbn [bm_words]. replace (nth _ _ 0%Z) with 0%Z; [apply Z.bits_0|].
    generalize (i / 64). induction (bm_words b); intros [|n]; cbn; auto.
Qed.

Lemma words_cap n : n <= (n + 63) / 64 * 64 /\ ((n < (n + 63) / 64 * 64) <-> n mod 64 <> 0).
Proof.
  pose proof (divmod64 (n + 63)) as [D M]. pose proof (divmod64 n) as [D' M']. split; [lia|]. split; [|lia].
  intros H E. assert (n / 64 < (n + 63) / 64) by lia. assert (64 * ((n + 63) / 64) <= n + 63) by lia. lia.
Qed.
Lemma new_bitmap_spec n k v : word v -> wfb (new_bitmap n k v) /\ cap (new_bitmap n k v) = (n + 63) / 64 * 64 /\
  (forall i, i < cap (new_bitmap n k v) -> bit (new_bitmap n k v) i = Z.testbit v (63 - Z.of_nat (i mod 64))).
Proof.
  intro V. unfold wfb, cap, new_bitmap. cbn [bm_words]. rewrite repeat_length. repeat split.
  - apply Forall_forall. intros x X. apply repeat_spec in X. now subst.
  - intros i I. unfold bit. cbn [bm_words]. pose proof (divmod64 i).
    assert (L : i / 64 < (n + 63) / 64) by lia. clear -L. revert L. generalize (i / 64) ((n + 63) / 64). intros a b. revert a.
    induction b; intros [|a] L; cbn [repeat nth]; auto; try lia. apply IHb. lia.
Qed.
Lemma full_bit i : Z.testbit (2 ^ 64 - 1) (63 - Z.of_nat (i mod 64)) = true.
Proof. pose proof (divmod64 i). replace (2 ^ 64 - 1)%Z with (Z.ones 64) by reflexivity. apply Z.ones_spec_low. lia. Qed.

(** * Sets of ids *)
Lemma zinsert_in x l y : In y (zinsert x l) <-> y = x \/ In y l.
Proof.
  induction l as [|a l IH]; cbn [zinsert]; [cbn; intuition|].
  destruct (x <? a)%Z; [cbn; intuition|]. destruct (Z.eqb_spec x a); [subst; cbn; intuition|]. cbn [In]. rewrite IH. intuition.
Qed.
Lemma zinsert_sorted x l : idset l -> idset (zinsert x l).
Proof.
  unfold idset. induction l as [|a l IH]; intro S; cbn [zinsert]; [repeat constructor|].
  inv S. destruct (Z.ltb_spec x a).
  - constructor; [constructor; auto|]. constructor; auto. eapply Forall_impl; [|exact H2]. intros; lia.
  - destruct (Z.eqb_spec x a); [subst; constructor; auto|]. constructor; auto.
    apply Forall_forall. intros y Y. apply zinsert_in in Y. rewrite Forall_forall in H2. destruct Y as [->|Y]; [lia|auto].
Qed.
Lemma idset_ext a b : idset a -> idset b -> (forall x, In x a <-> In x b) -> a = b.
Proof.
  unfold idset. revert b. induction a as [|x a IH]; intros [|y b] A B E; auto.
  - exfalso. apply (proj2 (E y)). now left.
  - exfalso. apply (proj1 (E x)). now left.
  - inv A. inv B. rewrite Forall_forall in *.
    assert (x = y).
    { destruct (proj1 (E x) (or_introl eq_refl)) as [X|X]; auto. destruct (proj2 (E y) (or_introl eq_refl)) as [Y|Y]; auto.
      specialize (H4 _ X). specialize (H2 _ Y). lia. }
    subst y. f_equal. apply IH; auto. intro z. split; intro Z0.
    + destruct (proj1 (E z) (or_intror Z0)) as [->|]; auto. specialize (H2 _ Z0). lia.
    + destruct (proj2 (E z) (or_intror Z0)) as [->|]; auto. specialize (H4 _ Z0). lia.
Qed.
Lemma idset_NoDup l : idset l -> NoDup l.
Proof. induction 1; constructor; auto. intro X. rewrite Forall_forall in H0. specialize (H0 _ X). lia. Qed.
Lemma idset_nth l i j : idset l -> i < j -> j < length l -> (nth i l 0 < nth j l 0)%Z.
Proof.
  unfold idset. intro S. revert i j. induction S as [|x l S IH F]; intros i j I J; cbn [length] in J; [lia|].
  destruct j; [lia|]. destruct i; cbn [nth]; [|apply IH; lia]. rewrite Forall_forall in F. apply F, nth_In. lia.
Qed.
Lemma idset_last l x : idset l -> In x l -> (x <= last l 0)%Z.
Proof.
  unfold idset. intro S. revert x. induction S as [|y l S IH F]; intros x I; [easy|]. destruct l as [|z l]; [destruct I as [->|[]]; cbn; lia|].
  change (last (y :: z :: l) 0%Z) with (last (z :: l) 0%Z). destruct I as [->|I]; [|auto].
  rewrite Forall_forall in F. specialize (IH z (or_introl eq_refl)). specialize (F z (or_introl eq_refl)). lia.
Qed.
Lemma last_In (l : list Z) : l <> [] -> In (last l 0%Z) l.
Proof. destruct l as [|x l]; [easy|]. intros _. revert x. induction l as [|y l IH]; intro x; [now left|]. right. apply IH. Qed.

Lemma zsort_id l : idset l -> zsort l = l.
Proof.
  unfold idset, zsort. induction 1 as [|x l S IH F]; auto. cbn [fold_right]. rewrite IH. destruct l as [|y l]; auto.
  cbn [zins]. inv F. replace (x <=? y)%Z with true by (symmetry; apply Z.leb_le; lia). auto.
Qed.

(** * get_ids *)
Definition keep_id (sorted : list Z) (b : bitmap) (res : list Z) (i : nat) : list Z :=
  if bit b i && (i <? length sorted) then zinsert (nth i sorted 0%Z) res else res.
Lemma get_ids_spec sorted b is res :
  get_ids sorted b is res = if forallb (fun i => i <? cap b) is then Ok (fold_left (keep_id sorted b) is res) else CheckFail.
Proof.
  revert res. induction is as [|i is IH]; intro res; auto. cbn [get_ids forallb fold_left]. rewrite IsBitSet_spec.
  destruct (i <? cap b); auto. cbn [obind andb]. apply IH.
Qed.
Lemma seq_bound n c : forallb (fun i => i <? c) (seq 0 (S n)) = (n <? c).
Proof.
  destruct (Nat.ltb_spec n c).
  - apply forallb_forall. intros x X. apply in_seq in X. apply Nat.ltb_lt. lia.
  - destruct (forallb _ _) eqn:E; auto. rewrite forallb_forall in E. specialize (E n). rewrite in_seq in E. assert (X := E ltac:(lia)). b2p. lia.
Qed.
Lemma GetIds_spec m b : GetIds m b = if bm_bits b <? cap b then Ok (fold_left (keep_id (m_sorted m) b) (seq 0 (S (bm_bits b))) []) else CheckFail.
Proof. unfold GetIds. now rewrite get_ids_spec, seq_bound. Qed.
Lemma keep_in sorted b is res x : In x (fold_left (keep_id sorted b) is res) <->
  In x res \/ exists i, In i is /\ bit b i = true /\ i < length sorted /\ nth i sorted 0%Z = x.
Proof.
  revert res. induction is as [|i is IH]; intro res; cbn [fold_left].
  - split; auto. intros [|(i & [] & _)]; auto.
  - rewrite IH. unfold keep_id. destruct (bit b i && (i <? length sorted)) eqn:E.
    + b2p. rewrite zinsert_in. split.
      * intros [[->|]|(j & J & Q)]; auto; right; [exists i|exists j]; cbn; tauto.
      * intros [|(j & [->|J] & Q)]; auto; [left; left; now symmetry|right; eauto].
    + split.
      * intros [|(j & J & Q)]; auto. right. exists j. cbn. tauto.
      * intros [|(j & [->|J] & Q)]; auto; [|right; eauto]. destruct Q as (A & B & _). apply Nat.ltb_lt in B. now rewrite A, B in E.
Qed.
Lemma keep_sorted sorted b is res : idset res -> idset (fold_left (keep_id sorted b) is res).
Proof.
  revert res. induction is as [|i is IH]; intros res S; cbn [fold_left]; auto. apply IH. unfold keep_id.
  destruct (_ && _); auto using zinsert_sorted.
Qed.
