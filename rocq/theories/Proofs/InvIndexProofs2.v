(** The posting list manager: building a list for a set of ids. *)
From Coq Require Import Sorted Permutation.
From Verif.Model Require Import Common InvIndex.
From Verif.Spec Require Import InvIndexSpec.
From Verif.Proofs Require Import Tac InvIndexProofs.
Open Scope nat_scope.

Lemma assocZ_In {V} k (l : list (Z * V)) v t : NoDup (map fst l) -> In (k, v) l -> assocZ k (l ++ t) = Some v.
Proof.
  induction l as [|[a b] l IH]; intros N I; [easy|]. cbn [app assocZ map fst] in *. inv N.
  destruct I as [I|I]; [inv I; now rewrite Z.eqb_refl|]. destruct (Z.eqb_spec a k); [|auto].
  subst. exfalso. apply H1. apply in_map_iff. exists (k, v). auto.
Qed.
Lemma fold_cons {A} (l t : list A) : fold_left (fun t p => p :: t) l t = rev l ++ t.
Proof. revert t. induction l; intro t; cbn; auto. now rewrite IHl, <- app_assoc. Qed.

Definition idx_ok (L : list Z) (m : manager) : Prop :=
  m_sorted m = L /\ forall i, i < length L -> assocZ (nth i L 0%Z) (m_idx m) = Some i.
Lemma combine_fst {A B} (a : list A) (b : list B) : length a = length b -> map fst (combine a b) = a.
Proof. revert b. induction a; intros [|y b] H; cbn in *; try discriminate; auto. f_equal. auto. Qed.
Lemma SetSorted_ok m L : idset L -> idx_ok L (SetSortedIndexedIds m L) /\ m_table (SetSortedIndexedIds m L) = m_table m.
Proof.
  intro S. unfold SetSortedIndexedIds. rewrite zsort_id by auto. cbn [m_sorted m_idx m_table]. split; auto. split; auto.
  intros i I. cbn [m_idx]. rewrite fold_cons. apply assocZ_In.
  - rewrite map_rev, combine_fst by (now rewrite seq_length). apply NoDup_rev. now apply idset_NoDup.
  - apply -> in_rev. assert (E : (nth i L 0%Z, i) = nth i (combine L (seq 0 (length L))) (0%Z, 0)).
    { rewrite combine_nth by (now rewrite seq_length). now rewrite seq_nth. }
    rewrite E. apply nth_In. rewrite combine_length, seq_length. lia.
Qed.

Lemma set_ids_ok L m ids : forall b, idset L -> idx_ok L m -> wfb b ->
  (forall d, In d ids -> exists i, i < length L /\ i < cap b /\ nth i L 0%Z = d) ->
  exists b', set_ids (m_idx m) b ids = Ok b' /\ wfb b' /\ bm_ids b' = bm_ids b /\ bm_bits b' = bm_bits b /\
    length (bm_words b') = length (bm_words b) /\
    forall i, i < length L -> (bit b' i = true <-> bit b i = true \/ In (nth i L 0%Z) ids).
Proof.
  induction ids as [|d ids IH]; intros b S M W H; cbn [set_ids].
  - exists b. repeat split; auto. intros [|[]]; auto.
  - destruct (H d (or_introl eq_refl)) as (i & I & C & D). destruct M as [ML M]. rewrite <- D, M by auto.
    destruct (SetBit_spec b i C W) as (b1 & E1 & W1 & C1 & I1 & B1 & L1 & T1). rewrite E1. cbn [obind].
    destruct (IH b1) as (b2 & E2 & W2 & I2 & B2 & L2 & T2); auto; [split; auto| |].
    + intros d' D'. rewrite C1. apply H. now right.
    + exists b2. rewrite E2. split; auto. split; auto. split; [congruence|]. split; [congruence|]. split; [congruence|].
      intros j J. rewrite T2 by auto. rewrite T1. cbn [In]. rewrite orb_true_iff. rewrite Nat.eqb_eq. split; [|intros [|[E|]]; auto].
      * intros [[->|]|]; auto. 
      * left. left. destruct (Nat.lt_total i j) as [Q|[Q|Q]]; auto; exfalso; [pose proof (idset_nth L i j S Q J)|pose proof (idset_nth L j i S Q I)]; lia.
Qed.

(** [b] is a posting list for the set [s]. *)
Definition repr (L : list Z) (b : bitmap) (s : list Z) : Prop :=
  wfb b /\ bm_ids b = length s /\ length (bm_words b) = (bm_bits b + 63) / 64 /\
  (exists i, i < length L /\ nth i L 0%Z = last s 0%Z /\ bm_bits b = i + 1) /\
  forall i, i < length L -> (bit b i = true <-> In (nth i L 0%Z) s).
Section B.
Context (crc : list Z -> Z) (L : list Z) (F : list Z -> Prop).
Hypothesis SL : idset L.
Hypothesis FL : forall s, F s -> s <> [] /\ idset s /\ forall x, In x s -> In x L.
Hypothesis NC : forall a b, F a -> F b -> crc a = crc b -> a = b.
Definition mgr_ok (m : manager) : Prop :=
  idx_ok L m /\ forall k b, assocZ k (m_table m) = Some b -> exists s, F s /\ k = crc s /\ repr L b s.
Definition has (m : manager) (p : Z) (s : list Z) : Prop := exists b, assocZ p (m_table m) = Some b /\ repr L b s.

Lemma BuildPl_ok m s : mgr_ok m -> F s -> exists m', BuildPl crc m s = Ok (m', Some (crc s)) /\ mgr_ok m' /\
  has m' (crc s) s /\ (forall p t, has m p t -> has m' p t).
Proof.
  intros [[ML MI] T] Fs. destruct (FL s Fs) as (NE & S & SUB).
  unfold BuildPl. assert (X : forall A (x y : A), (match s with [] => x | _ :: _ => y end) = y) by (destruct s; congruence). rewrite X. clear X.
  destruct (assocZ (crc s) (m_table m)) as [b|] eqn:A.
  - destruct (T _ _ A) as (s' & F' & K & R). apply NC in K; auto. subst s'.
    assert (EI : bm_ids b = length s) by apply R. rewrite EI, Nat.eqb_refl. exists m. split; auto. split; [split; [split; auto|exact T]|]. split; auto. exists b. auto.
  - assert (IL : In (last s 0%Z) L) by (apply SUB, last_In; auto). apply (In_nth _ _ 0%Z) in IL. destruct IL as (i & I & E).
    assert (AL : assocZ (last s 0%Z) (m_idx m) = Some i) by (rewrite <- E; auto). rewrite !AL.
    set (b0 := new_bitmap (i + 1) (length s) 0%Z). assert (Wd : word 0%Z) by (split; [lia|reflexivity]).
    destruct (new_bitmap_spec (i + 1) (length s) 0%Z Wd) as (W0 & C0 & T0). fold b0 in W0, C0, T0.
    pose proof (words_cap (i + 1)) as [WC _].
    destruct (set_ids_ok L m s b0 SL (conj ML MI) W0) as (b & EB & W & BI & BB & BL & BT).
    { intros d D. assert (LE := idset_last s d S D). assert (DL := SUB _ D). apply (In_nth _ _ 0%Z) in DL. destruct DL as (j & J & EJ).
      exists j. split; auto. split; auto. destruct (Nat.lt_ge_cases i j) as [Q|Q]; [|lia]. pose proof (idset_nth L i j SL Q J). lia. }
    rewrite EB. cbn [obind]. eexists. split; [reflexivity|].
    assert (R : repr L b s).
    { split; auto. split; [rewrite BI; reflexivity|]. split; [rewrite BL, BB; unfold b0, new_bitmap; cbn [bm_words bm_bits]; apply repeat_length|].
      split; [exists i; rewrite BB; auto|]. intros j J. rewrite BT by auto. split; [|auto]. intros [H|]; auto.
      destruct (Nat.lt_ge_cases j (cap b0)) as [Q|Q]; [rewrite T0 in H by auto|rewrite bit_outside in H by auto; discriminate]. rewrite Z.bits_0 in H. discriminate. }
    split; [split; [split; auto|]|split].
    + intros k b' K. cbn [m_table assocZ] in K. destruct (Z.eqb_spec (crc s) k); [inv K; exists s; auto|eauto].
    + exists b. cbn [m_table assocZ]. rewrite Z.eqb_refl. auto.
    + intros p t (b' & P & Q). exists b'. cbn [m_table assocZ]. destruct (Z.eqb_spec (crc s) p) as [<-|]; [congruence|auto].
Qed.

(** Reading a list back works unless it ends at a word boundary. *)
Lemma GetIds_repr m b s : idset s -> (forall x, In x s -> In x L) -> mgr_ok m -> repr L b s ->
  (bm_bits b mod 64 <> 0 -> GetIds m b = Ok s) /\ (bm_bits b mod 64 = 0 -> GetIds m b = CheckFail).
Proof.
  intros S SUB [[ML _] _] (W & _ & LW & (i & I & E & BB) & T). rewrite GetIds_spec, ML. unfold cap. rewrite LW.
  pose proof (words_cap (bm_bits b)) as [WC WI]. split; intro H.
  - assert (X : (bm_bits b <? (bm_bits b + 63) / 64 * 64) = true) by (apply Nat.ltb_lt, WI, H). rewrite X. f_equal.
    apply idset_ext; auto; [apply keep_sorted; constructor|]. intro x. rewrite keep_in. split.
    + intros [[]|(j & _ & Bj & J & Ej)]. rewrite <- Ej. now apply T.
    + intro D. right. assert (LE := idset_last s x S D). assert (DL := SUB _ D). apply (In_nth _ _ 0%Z) in DL. destruct DL as (j & J & EJ).
      exists j. rewrite T, EJ by auto. split; auto. apply in_seq. destruct (Nat.lt_ge_cases i j) as [Q|Q]; [|lia]. pose proof (idset_nth L i j SL Q J). lia.
  - destruct (Nat.ltb_spec (bm_bits b) ((bm_bits b + 63) / 64 * 64)) as [Q|Q]; auto. apply WI in Q. congruence.
Qed.
End B.
