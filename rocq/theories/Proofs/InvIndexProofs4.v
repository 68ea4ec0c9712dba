(** Queries. *)
From Coq Require Import Sorted Permutation.
From Verif.Model Require Import Common StrUtil InvIndex.
From Verif.Spec Require Import InvIndexSpec.
From Verif.Proofs Require Import Tac StrProofs InvIndexProofs InvIndexProofs2 InvIndexProofs3.
Open Scope nat_scope.

Section Q.
Context (crc : list Z -> Z) (fs : list str) (ds : list document) (L : list Z).
Hypothesis IL : ids_of ds (fun _ => True) L.
Context (m : manager).
Hypothesis M : Mok crc fs ds L m.
Context (ordp : list Z -> list Z).
Hypothesis OP : forall l, Permutation l (ordp l).
Notation n := (length L).
Notation has := (has L m).
Definition shape (b : bitmap) : Prop := wfb b /\ cap b = (n + 63) / 64 * 64 /\ bm_bits b = n.

Lemma deref_has p s : has p s -> exists b, deref m p = Ok b /\ repr L b s.
Proof. intros (b & A & R). exists b. unfold deref. now rewrite A. Qed.
Lemma has_mem p s s' i : has p s -> has p s' -> i < n -> In (nth i L 0%Z) s -> In (nth i L 0%Z) s'.
Proof.
  intros (b & A & (_ & _ & _ & _ & R)) (b' & A' & (_ & _ & _ & _ & R')) I X. rewrite A in A'. inv A'. apply R'; auto. now apply R.
Qed.
Lemma n_cap : n <= (n + 63) / 64 * 64.
Proof. apply words_cap. Qed.

Lemma merge_union ps : forall g, shape g -> (forall p, In p ps -> exists s, has p s) ->
  exists g', merge_all m Union g ps = Ok g' /\ shape g' /\
    forall i, i < n -> (bit g' i = true <-> bit g i = true \/ exists p s, In p ps /\ has p s /\ In (nth i L 0%Z) s).
Proof.
  induction ps as [|p ps IH]; intros g G H; cbn [merge_all].
  - exists g. split; auto. split; auto. intros i I. split; [auto|]. intros [|(p & s & [] & _)]; auto.
  - destruct (H p (or_introl eq_refl)) as (s & Hs). destruct (deref_has p s Hs) as (b & D & R). rewrite D. cbn [obind].
    destruct G as (W & C & B). destruct (Union_spec g b W (proj1 R)) as (W1 & C1 & B1 & T1).
    destruct (IH (Union g b)) as (g' & E & G' & T); [split; [auto|split; congruence]|intros; apply H; now right|].
    exists g'. split; auto. split; auto. intros i I. rewrite T by auto. rewrite T1 by (pose proof n_cap; lia).
    assert (RB : bit b i = true <-> In (nth i L 0%Z) s) by (apply R; auto). rewrite orb_true_iff, RB. split.
    + intros [[|]|(p' & s' & P & Q)]; auto; right; [exists p, s|exists p', s']; cbn; tauto.
    + intros [X0|(p' & s' & [<-|P] & Q & X)]; [now left; left|left; right; eapply has_mem; eauto|right; eauto].
Qed.
Lemma merge_sub ps : forall g, shape g -> (forall p, In p ps -> exists s, has p s) ->
  exists g', merge_all m Substract g ps = Ok g' /\ shape g' /\
    forall i, i < n -> (bit g' i = true <-> bit g i = true /\ forall p s, In p ps -> has p s -> ~ In (nth i L 0%Z) s).
Proof.
  induction ps as [|p ps IH]; intros g G H; cbn [merge_all].
  - exists g. split; auto. split; auto. intros i I. split; [|tauto]. intro X. split; [auto|]. intros ? ? [].
  - destruct (H p (or_introl eq_refl)) as (s & Hs). destruct (deref_has p s Hs) as (b & D & R). rewrite D. cbn [obind].
    destruct G as (W & C & B). destruct (Substract_spec g b W (proj1 R)) as (W1 & C1 & B1 & T1).
    destruct (IH (Substract g b)) as (g' & E & G' & T); [split; [auto|split; congruence]|intros; apply H; now right|].
    exists g'. split; auto. split; auto. intros i I. rewrite T by auto. rewrite T1 by (pose proof n_cap; lia).
    assert (RB : bit b i = true <-> In (nth i L 0%Z) s) by (apply R; auto). rewrite andb_true_iff, negb_true_iff.
    assert (RN : bit b i = false <-> ~ In (nth i L 0%Z) s) by (rewrite <- RB; destruct (bit b i); intuition congruence). rewrite RN. split.
    + intros [[X Y] Z]. split; auto. intros p' s' [->|P] Q; [|eauto]. intro V. apply Y. eapply has_mem; eauto.
    + intros [X Y]. split; [split; auto|].
      * apply (Y p); auto. now left.
      * intros p' s' P. apply Y. now right.
Qed.

Lemma GetIds_shape b : shape b -> (n mod 64 = 0 -> GetIds m b = CheckFail) /\
  (n mod 64 <> 0 -> exists r, GetIds m b = Ok r /\ idset r /\ forall id, In id r <-> exists i, i < n /\ bit b i = true /\ nth i L 0%Z = id).
Proof.
  intros (W & C & B). rewrite GetIds_spec, B, C. assert (ML : m_sorted m = L) by apply M. pose proof (words_cap n) as [_ WI]. split; intro H.
  - destruct (Nat.ltb_spec n ((n + 63) / 64 * 64)) as [Q|Q]; auto. apply WI in Q. tauto.
  - assert (X : (n <? (n + 63) / 64 * 64) = true) by (apply Nat.ltb_lt, WI, H). rewrite X. eexists. split; [reflexivity|].
    split; [apply keep_sorted; constructor|]. intro id. rewrite keep_in, ML. split.
    + intros [[]|(i & _ & Bi & I & E)]. eauto.
    + intros (i & I & Bi & E). right. exists i. split; [apply in_seq; lia|auto].
Qed.

Definition wild_mem (w : option Z) (x : Z) : Prop := exists p s, w = Some p /\ has p s /\ In x s.
Lemma calc_ok res g incs excs w : n mod 64 <> 0 -> shape res -> shape g ->
  (forall p, In p incs -> exists s, has p s) -> (forall p, In p excs -> exists s, has p s) -> (forall p, w = Some p -> exists s, has p s) ->
  (w = None -> CalculateMergerGroup ordp m res g incs excs w = UB) /\
  (w <> None -> exists res' g', CalculateMergerGroup ordp m res g incs excs w = Ok (res', g') /\ shape res' /\ shape g' /\
     forall i, i < n -> (bit res' i = true <-> bit res i = true /\
        ((exists p s, In p incs /\ has p s /\ In (nth i L 0%Z) s) \/ wild_mem w (nth i L 0%Z)) /\
        forall p s, In p excs -> has p s -> ~ In (nth i L 0%Z) s)).
Proof.
  intros N R G HI HX HW. unfold CalculateMergerGroup.
  destruct (ResetBits_spec g) as (RW & RC & RB & RT). destruct G as (GW & GC & GB).
  destruct (merge_union (ordp incs) (ResetBits g)) as (g1 & E1 & G1 & T1).
  { split; [auto|split; congruence]. } { intros p P. apply HI. eapply Permutation_in; [apply Permutation_sym, OP|exact P]. }
  rewrite E1. cbn [obind]. destruct (proj2 (GetIds_shape g1 G1) N) as (r1 & S1 & _). rewrite S1. cbn [obind].
  destruct w as [p|]; (split; intro Hw; [try discriminate|try congruence]).
  - cbn [union_wild]. destruct (HW p eq_refl) as (s & Hs). destruct (deref_has p s Hs) as (b & D & Rb). rewrite D. cbn [obind].
    destruct G1 as (W1 & C1 & B1). destruct (Union_spec g1 b W1 (proj1 Rb)) as (W2 & C2 & B2 & T2).
    assert (G2 : shape (Union g1 b)) by (split; [auto|split; congruence]).
    destruct (proj2 (GetIds_shape _ G2) N) as (r2 & S2 & _). rewrite S2. cbn [obind].
    destruct (merge_sub (ordp excs) (Union g1 b) G2) as (g3 & E3 & G3 & T3).
    { intros q P. apply HX. eapply Permutation_in; [apply Permutation_sym, OP|exact P]. }
    rewrite E3. cbn [obind]. destruct (proj2 (GetIds_shape _ G3) N) as (r3 & S3 & _). rewrite S3. cbn [obind].
    destruct R as (RWf & RCap & RBits). destruct (Intersect_spec res g3 RWf (proj1 G3)) as (W4 & C4 & B4 & T4).
    { destruct G3 as (_ & C3 & _). unfold cap in *. lia. }
    exists (Intersect res g3), g3. split; auto. split; [split; [auto|split; congruence]|]. split; auto.
    intros i I. rewrite T4, andb_true_iff, T3 by auto. rewrite T2 by (pose proof n_cap; lia). rewrite orb_true_iff, T1 by auto. rewrite RT.
    assert (RBi : bit b i = true <-> In (nth i L 0%Z) s) by (apply Rb; auto). rewrite RBi.
    split.
    + intros (A & B & C). split; auto. split.
      * destruct B as [[X|(q & t & P & Q)]|X]; [discriminate|left; exists q, t; split; [eapply Permutation_in; [apply Permutation_sym, OP|exact P]|exact Q]|].
        right. exists p, s. auto.
      * intros q t P. apply C. eapply Permutation_in; [apply OP|exact P].
    + intros (A & B & C). split; auto. split.
      * destruct B as [(q & t & P & Q)|(q & t & P & Q & X)]; [left; right; exists q, t; split; [eapply Permutation_in; [apply OP|exact P]|exact Q]|].
        right. inv P. eapply has_mem; eauto.
      * intros q t P. apply C. eapply Permutation_in; [apply Permutation_sym, OP|exact P].
  - cbn [union_wild]. destruct (Nat.eqb_spec (length (bm_words g1)) 0) as [Z0|Z0]; auto. exfalso.
    destruct G1 as (_ & C1 & _). unfold cap in C1. rewrite Z0 in C1. pose proof n_cap. assert (X : n = 0) by lia. rewrite X in N. now apply N.
Qed.

(** * Reading lists for display *)
Definition rd (o : option Z) : Prop := show_ids m o = Ok tt.
Lemma show_not o : ~ rd o -> forall u, show_ids m o <> Ok u.
Proof. unfold rd. intros H [] E. auto. Qed.
Lemma show_all_opt o : show_all m (opt_list o) = show_ids m o.
Proof. destruct o as [p|]; [|reflexivity]. cbn [opt_list show_all]. destruct (show_ids m (Some p)) as [[]| |]; reflexivity. Qed.
Lemma padd_in p l q : In q (padd p l) <-> q = p \/ In q l.
Proof.
  unfold padd. destruct (existsb (Z.eqb p) l) eqn:E; [|cbn; intuition].
  apply existsb_exists in E. destruct E as (x & X & Y). apply Z.eqb_eq in Y. subst. intuition congruence.
Qed.
Lemma fold_padd o l q : In q (fold_left (fun l p => padd p l) (opt_list o) l) <-> o = Some q \/ In q l.
Proof. destruct o as [p|]; cbn [opt_list fold_left]; [rewrite padd_in; intuition congruence|intuition discriminate]. Qed.

Lemma collect_ok f vs : f_kind f = KStr -> forall incs excs,
  ((forall v, In v vs -> rd (assocS v (f_sinc f)) /\ rd (assocS v (f_sexc f))) ->
    exists i e, collect m f vs incs excs = Ok (i, e) /\
      (forall p, In p i <-> In p incs \/ exists v, In v vs /\ assocS v (f_sinc f) = Some p) /\
      (forall p, In p e <-> In p excs \/ exists v, In v vs /\ assocS v (f_sexc f) = Some p)) /\
  (forall r, collect m f vs incs excs = Ok r -> forall v, In v vs -> rd (assocS v (f_sinc f)) /\ rd (assocS v (f_sexc f))).
Proof.
  intros K. assert (GI : forall v, GetInclude f v = opt_list (assocS v (f_sinc f))) by (intro v; unfold GetInclude; now rewrite K).
  assert (GX : forall v, GetExclude f v = opt_list (assocS v (f_sexc f))) by (intro v; unfold GetExclude; now rewrite K).
  induction vs as [|v vs IH]; intros incs excs; cbn [collect]; (split; [intro H|intros r H]).
  - exists incs, excs. split; auto. split; intro p; (split; [auto|intros [|(v & [] & _)]; auto]).
  - intros v [].
  - rewrite GI, GX, !show_all_opt. destruct (H v (or_introl eq_refl)) as [A B]. rewrite A, B. cbn [obind].
    destruct (proj1 (IH (fold_left (fun l p => padd p l) (opt_list (assocS v (f_sinc f))) incs) (fold_left (fun l p => padd p l) (opt_list (assocS v (f_sexc f))) excs)) (fun w W => H w (or_intror W))) as (i & e & E & PI & PX). rewrite E. exists i, e. split; auto.
    split; intro p; [rewrite PI, fold_padd|rewrite PX, fold_padd]; split.
    + intros [[X|X]|(w & W & X)]; auto; right; [exists v|exists w]; cbn; tauto.
    + intros [X|(w & [->|W] & X)]; auto. right. eauto.
    + intros [[X|X]|(w & W & X)]; auto; right; [exists v|exists w]; cbn; tauto.
    + intros [X|(w & [->|W] & X)]; auto. right. eauto.
  - rewrite GI, GX, !show_all_opt in H. destruct (show_ids m (assocS v (f_sinc f))) as [[]| |] eqn:A; try discriminate.
    cbn [obind] in H. destruct (show_ids m (assocS v (f_sexc f))) as [[]| |] eqn:B; try discriminate. cbn [obind] in H.
    intros w [<-|W]; [split; auto|]. eapply (proj2 (IH _ _)); eauto.
Qed.

(** When a list can be read. *)
Hypothesis ND : NoDup (map d_id ds).
Lemma ids_perm : Permutation (map d_id ds) L.
Proof.
  apply NoDup_Permutation; auto; [apply idset_NoDup, IL|]. intro x. rewrite (proj2 IL), in_map_iff. split.
  - intros (d & A & B). eauto.
  - intros (d & A & B & _). eauto.
Qed.
Lemma n_docs : n = length ds.
Proof. rewrite <- (Permutation_length ids_perm). apply map_length. Qed.
Lemma filter_perm {A} (f : A -> bool) l l' : Permutation l l' -> length (filter f l) = length (filter f l').
Proof. induction 1; cbn [filter]; auto; dmatch; cbn [length]; congruence. Qed.
Lemma filter_map_len {A B} (g : A -> B) f l : length (filter f (map g l)) = length (filter (fun x => f (g x)) l).
Proof. induction l; cbn [map filter]; auto. destruct (f (g a)); cbn; auto. Qed.
Lemma filter_sorted l i : idset l -> i < length l -> length (filter (fun x => x <=? nth i l 0%Z)%Z l) = i + 1.
Proof.
  unfold idset. intro S. revert i. induction S as [|x l S IH Fx]; intros i I; cbn [length] in I; [lia|]. rewrite Forall_forall in Fx.
  destruct i; cbn [nth filter].
  - rewrite Z.leb_refl. cbn [length]. replace (filter _ l) with (@nil Z); auto. symmetry. clear -Fx. induction l as [|y l IH]; auto. cbn [filter].
    assert (x < y)%Z by (apply Fx; now left). replace (y <=? x)%Z with false by (symmetry; apply Z.leb_gt; lia). apply IH. intros; apply Fx; now right.
  - assert (X : In (nth i l 0%Z) l) by (apply nth_In; lia). apply Fx in X. replace (x <=? nth i l 0%Z)%Z with true by (symmetry; apply Z.leb_le; lia).
    cbn [length]. rewrite IH by lia. lia.
Qed.
Lemma rd_iff P o : pl_ok ds L m P o -> (rd o <-> ~ at_word_end ds P).
Proof.
  destruct o as [p|]; cbn [pl_ok].
  - intros (s & NE & Hs & S & PS). destruct (deref_has p s Hs) as (b & D & R).
    assert (SUB : forall x, In x s -> In x L). { intros x X. apply IL. apply PS in X. destruct X as (d & A & B & _). eauto. }
    assert (GI := GetIds_repr crc L (F fs ds) (proj1 IL) m b s S SUB M R).
    assert (AE : at_word_end ds P <-> bm_bits b mod 64 = 0).
    { destruct R as (_ & _ & _ & (i & I & Ei & Eb) & _).
      assert (CNT : length (filter (fun d => d_id d <=? last s 0%Z)%Z ds) = bm_bits b).
      { rewrite <- filter_map_len with (f := fun x => (x <=? last s 0)%Z). rewrite (filter_perm _ _ _ ids_perm). rewrite <- Ei. rewrite filter_sorted by (auto; apply IL). lia. }
      split.
      - intros (d & A & B & Mx & C). assert (IS : In (d_id d) s) by (apply PS; eauto). assert (LE := idset_last s _ S IS).
        assert (LS := last_In s NE). apply PS in LS. destruct LS as (d' & A' & B' & C'). specialize (Mx d' A' C').
        replace (d_id d) with (last s 0%Z) in C by lia. congruence.
      - intro C. assert (LS := last_In s NE). apply PS in LS. destruct LS as (d & A & B & C'). exists d. split; auto. split; auto. split.
        + intros d' A' P'. rewrite B. apply idset_last; auto. apply PS. eauto.
        + rewrite B. congruence. }
    unfold rd. cbn [show_ids]. rewrite D. cbn [obind]. destruct GI as [G1 G2]. destruct (Nat.eq_dec (bm_bits b mod 64) 0) as [Z0|Z0].
    + rewrite (G2 Z0). cbn [obind]. split; [discriminate|]. tauto.
    + rewrite (G1 Z0). cbn [obind]. tauto.
  - intros H. split; [|reflexivity]. intros _ (d & A & B & _). exact (H d A B).
Qed.

(** * The loop over the fields *)
Definition asked_of (q : query) (nm : str) : option (list str) := assocS nm q.
Definition field_safe (q : query) (nm : str) : Prop :=
  (exists d, In d ds /\ open_in d nm) /\
  forall vs, assocS nm q = Some vs ->
      ~ at_word_end ds (fun d => open_in d nm) /\
      forall v, In v vs -> ~ at_word_end ds (fun d => wants d nm v) /\ ~ at_word_end ds (fun d => refuses d nm v).
Lemma doc_unique d d' : In d ds -> In d' ds -> d_id d = d_id d' -> d = d'.
Proof.
  intros A B E. clear -ND A B E. induction ds as [|x l IH]; [easy|]. cbn [map] in ND. inv ND.
  destruct A as [->|A], B as [->|B]; auto; exfalso; apply H1; [rewrite E|rewrite <- E]; now apply in_map.
Qed.
Lemma pl_mem P p s d : pl_ok ds L m P (Some p) -> has p s -> In d ds -> (In (d_id d) s <-> P d).
Proof.
  intros (s' & NE & Hs' & S' & PS) Hs D.
  assert (IN : In (d_id d) L) by (apply IL; eauto). apply (In_nth _ _ 0%Z) in IN. destruct IN as (i & I & E).
  rewrite <- E. split; intro X.
  - apply (has_mem p s s') in X; auto. rewrite E in X. apply PS in X. destruct X as (d' & A & B & C). now rewrite (doc_unique d d').
  - apply (has_mem p s' s); auto. rewrite E. apply PS. eauto.
Qed.
Lemma pl_has P p : pl_ok ds L m P (Some p) -> exists s, has p s.
Proof. intros (s & _ & H & _). eauto. Qed.

Lemma query_fields_ok q ts : n mod 64 <> 0 -> (forall nm f, In (nm, f) ts -> fld_ok ds L m nm f) -> forall res g, shape res -> shape g ->
  ((forall nm, In nm (map fst ts) -> field_safe q nm) ->
     exists res', query_fields ordp m q ts res g = Ok res' /\ shape res' /\
       forall d i, In d ds -> i < n -> nth i L 0%Z = d_id d ->
         (bit res' i = true <-> bit res i = true /\ forall nm, In nm (map fst ts) -> matches_in d q nm)) /\
  (forall r, query_fields ordp m q ts res g = Ok r -> forall nm, In nm (map fst ts) -> field_safe q nm).
Proof.
  intros N. induction ts as [|[nm f] ts IH]; intros FO res g R G; cbn [query_fields map fst]; (split; [intro H|intros r H]).
  - exists res. split; auto. split; auto. intros d i D I E. split; [intro X; split; auto; intros ? []|tauto].
  - intros ? [].
  - destruct (FO nm f (or_introl eq_refl)) as (K & W & FI & FX). destruct (H nm (or_introl eq_refl)) as ((dw & Dw & Ow) & Sf).
    assert (WN : exists p, f_wild f = Some p) by (destruct (f_wild f); [eauto|exfalso; exact (W dw Dw Ow)]). destruct WN as (pw & WN).
    set (vs := match assocS nm q with Some vs => vs | None => [] end).
    assert (PRE : exists i e, match assocS nm q with None => Ok ([], []) | Some vs => obind (collect m f vs [] []) (fun r => obind (show_ids m (f_wild f)) (fun _ => Ok r)) end = Ok (i, e) /\
       (forall p, In p i <-> exists v, In v vs /\ assocS v (f_sinc f) = Some p) /\ (forall p, In p e <-> exists v, In v vs /\ assocS v (f_sexc f) = Some p)).
    { unfold vs. destruct (assocS nm q) as [vs'|] eqn:Q.
      - destruct (Sf vs' eq_refl) as [SW SV]. destruct (proj1 (collect_ok f vs' K [] [])) as (i & e & E & PI & PX).
        + intros v V. split; [eapply rd_iff; [apply FI|]|eapply rd_iff; [apply FX|]]; now apply SV.
        + rewrite E. cbn [obind]. assert (RW : rd (f_wild f)) by (eapply rd_iff; [exact W|exact SW]). rewrite RW. cbn [obind].
          exists i, e. split; auto. split; intro p; [rewrite PI|rewrite PX]; split; auto; intros [[]|]; auto.
      - exists [], []. split; auto. split; intro p; split; try easy; intros (v & [] & _). }
    destruct PRE as (i & e & E & PI & PX). rewrite E. cbn [obind].
    destruct (calc_ok res g i e (f_wild f) N R G) as [_ CK].
    { intros p P. apply PI in P. destruct P as (v & _ & A). eapply pl_has. rewrite <- A. apply FI. }
    { intros p P. apply PX in P. destruct P as (v & _ & A). eapply pl_has. rewrite <- A. apply FX. }
    { intros p P. eapply pl_has. rewrite <- P. exact W. }
    destruct CK as (res1 & g1 & E1 & R1 & G1 & T1); [congruence|]. rewrite E1. cbn [obind].
    destruct (proj2 (GetIds_shape res1 R1) N) as (r1 & S1 & _). rewrite S1. cbn [obind].
    destruct (proj1 (IH (fun nm f X => FO nm f (or_intror X)) res1 g1 R1 G1) (fun nm X => H nm (or_intror X))) as (res2 & E2 & R2 & T2).
    exists res2. split; auto. split; auto. intros d j D J Ej. rewrite (T2 d j), T1 by auto. rewrite Ej.
    assert (MI : (((exists p s, In p i /\ has p s /\ In (d_id d) s) \/ wild_mem (f_wild f) (d_id d)) /\ (forall p s, In p e -> has p s -> ~ In (d_id d) s)) <-> matches_in d q nm).
    { assert (A1 : (exists p s, In p i /\ has p s /\ In (d_id d) s) <-> exists v, In v vs /\ wants d nm v).
      { split.
        - intros (p & s & P & Hs & X). apply PI in P. destruct P as (v & V & A). exists v. split; auto.
          assert (PO := FI v). rewrite A in PO. exact (proj1 (pl_mem _ p s d PO Hs D) X).
        - intros (v & V & X). assert (PO := FI v). destruct (assocS v (f_sinc f)) as [p|] eqn:A; [|exfalso; exact (PO d D X)].
          destruct (pl_has _ p PO) as (s & Hs). exists p, s. split; [apply PI; eauto|]. split; auto. exact (proj2 (pl_mem _ p s d PO Hs D) X). }
      assert (A2 : wild_mem (f_wild f) (d_id d) <-> open_in d nm).
      { rewrite WN in W. split.
        - intros (p & s & P & Hs & X). rewrite WN in P. inv P. exact (proj1 (pl_mem _ p s d W Hs D) X).
        - intro X. destruct (pl_has _ pw W) as (s & Hs). exists pw, s. split; auto. split; auto. exact (proj2 (pl_mem _ pw s d W Hs D) X). }
      assert (A3 : (forall p s, In p e -> has p s -> ~ In (d_id d) s) <-> forall v, In v vs -> ~ refuses d nm v).
      { split.
        - intros X v V Rf. assert (PO := FX v). destruct (assocS v (f_sexc f)) as [p|] eqn:A; [|exact (PO d D Rf)].
          destruct (pl_has _ p PO) as (s & Hs). apply (X p s); auto; [apply PX; eauto|]. exact (proj2 (pl_mem _ p s d PO Hs D) Rf).
        - intros X p s P Hs Q. apply PX in P. destruct P as (v & V & A). apply (X v V). assert (PO := FX v). rewrite A in PO. exact (proj1 (pl_mem _ p s d PO Hs D) Q). }
      rewrite A1, A2, A3.
      assert (AV : forall v, In v vs <-> asked q nm v).
      { intro v. unfold vs, asked. destruct (assocS nm q) as [vs'|]; split; [eauto|intros (? & X & Y); inv X; auto|intros []|intros (? & X & _); discriminate]. }
      assert (WR : forall v v', wants d nm v -> ~ refuses d nm v').
      { intros v v' (e1 & B1 & C1 & _) (e2 & B2 & C2 & _). unfold cond_of in *. congruence. }
      assert (FR : free_in d nm -> forall v, ~ refuses d nm v).
      { intros Fr v (e2 & B2 & C2 & D2). unfold cond_of in *. destruct Fr as [Fr|(e1 & B1 & C1)]; [congruence|]. unfold cond_of in *. rewrite B2 in B1. inv B1. rewrite C1 in D2. easy. }
      unfold matches_in, open_in. split.
      - intros [[(v & V & X)|[X|X]] Y]; auto.
        + right. left. exists v. split; auto. now apply AV.
        + right. right. split; auto. intros v V. apply Y. now apply AV.
      - intros [X|[(v & V & X)|[X Y]]].
        + split; auto. all: try (intros v _; now apply FR).
        + split; [left; exists v; split; auto; now apply AV|]. intros v' _. eapply WR; eauto.
        + split; auto. intros v V. apply Y. now apply AV. }
    split.
    + intros [(X & Y) Z0]. split; auto. intros nm' [<-|I']; auto. now apply MI.
    + intros [X Y]. split; [|intros nm' I'; apply Y; now right]. split; [exact X|]. apply MI. apply Y. now left.
  - destruct (FO nm f (or_introl eq_refl)) as (K & W & FI & FX).
    assert (HAS : forall (o : option Z) P, pl_ok ds L m P o -> forall p, o = Some p -> exists s, has p s) by (intros o P PO p ->; eapply pl_has; eauto).
    destruct (match assocS nm q with None => Ok ([], []) | Some vs => obind (collect m f vs [] []) (fun r => obind (show_ids m (f_wild f)) (fun _ => Ok r)) end) as [[i e]| |] eqn:E; try discriminate.
    cbn [obind] in H.
    assert (CE : (forall p, In p i -> exists s, has p s) /\ (forall p, In p e -> exists s, has p s) /\
                 (forall vs, assocS nm q = Some vs -> rd (f_wild f) /\ forall v, In v vs -> rd (assocS v (f_sinc f)) /\ rd (assocS v (f_sexc f)))).
    { destruct (assocS nm q) as [vs|].
      - destruct (collect m f vs [] []) as [[i0 e0]| |] eqn:C; try discriminate. cbn [obind] in E.
        assert (RW : rd (f_wild f)) by (unfold rd; destruct (show_ids m (f_wild f)) as [[]| |]; auto; discriminate). rewrite RW in E. cbn [obind] in E. inv E.
        assert (RV := proj2 (collect_ok f vs K [] []) _ C). destruct (proj1 (collect_ok f vs K [] []) RV) as (i1 & e1 & C1 & PI & PX). rewrite C in C1. inv C1.
        split; [|split].
        + intros p P. apply PI in P. destruct P as [[]|(v & _ & A)]. exact (HAS _ _ (FI v) p A).
        + intros p P. apply PX in P. destruct P as [[]|(v & _ & A)]. exact (HAS _ _ (FX v) p A).
        + intros vs' X. inv X. auto.
      - inv E. split; [intros ? []|]. split; [intros ? []|]. discriminate. }
    destruct CE as (CI & CX & CV).
    destruct (calc_ok res g i e (f_wild f) N R G CI CX (HAS _ _ W)) as [CU CK].
    assert (WN : f_wild f <> None) by (intro WN; rewrite (CU WN) in H; discriminate).
    destruct (CK WN) as (res1 & g1 & E1 & R1 & G1 & _). rewrite E1 in H. cbn [obind] in H.
    destruct (proj2 (GetIds_shape res1 R1) N) as (r1 & S1 & _). rewrite S1 in H. cbn [obind] in H.
    intros nm' [<-|I']; [|eapply (proj2 (IH (fun nm f X => FO nm f (or_intror X)) res1 g1 R1 G1)); eauto].
    split.
    + destruct (f_wild f) as [pw|]; [|congruence]. destruct W as (s & NE & _ & _ & PS). destruct s as [|x s]; [congruence|].
      destruct (proj1 (PS x) (or_introl eq_refl)) as (d & A & _ & B). eauto.
    + intros vs V. destruct (CV vs V) as [RW RV]. split; [exact (proj1 (rd_iff _ _ W) RW)|]. intros v Vi. destruct (RV v Vi) as [A B].
      split; [exact (proj1 (rd_iff _ _ (FI v)) A)|exact (proj1 (rd_iff _ _ (FX v)) B)].
Qed.
End Q.

Lemma survivable_split fs ds q : survivable fs ds q <-> length ds mod 64 <> 0 /\ forall f, In f fs -> field_safe ds q f.
Proof. reflexivity. Qed.

Theorem answer_ok crc ordm ordp ordf fs ds q :
  (forall l, Permutation l (ordm l)) -> (forall l, Permutation l (ordp l)) -> (forall l, Permutation l (ordf l)) ->
  NoDup fs -> NoDup (map d_id ds) -> no_collision crc fs ds ->
  (survivable fs ds q -> exists r, answer crc ordm ordp ordf fs ds q = Ok r /\ ids_of ds (fun d => matches fs d q) r) /\
  (forall r, answer crc ordm ordp ordf fs ds q = Ok r -> survivable fs ds q).
Proof.
  intros OM OP OF NF ND NC. destruct (build_index_ok crc ordm fs ds OM NC NF) as (x & L & E & IL & M & T & FO & _).
  unfold answer. rewrite E. cbn [obind]. unfold UnifyQuery.
  assert (ML : m_sorted (x_mgr x) = L) by apply M.
  assert (Wd : word (2 ^ 64 - 1)%Z) by (split; [vm_compute; discriminate|reflexivity]).
  destruct (new_bitmap_spec (length L) 0 (2 ^ 64 - 1)%Z Wd) as (W0 & C0 & T0).
  assert (E0 : CreateMergePostingList (x_mgr x) = new_bitmap (length L) 0 (2 ^ 64 - 1)%Z) by (unfold CreateMergePostingList; now rewrite ML).
  rewrite E0. set (all := new_bitmap (length L) 0 (2 ^ 64 - 1)%Z) in *.
  assert (SH : shape L all) by (split; auto).
  assert (ON := n_docs ds L IL ND). rewrite survivable_split, <- ON.
  destruct (GetIds_shape crc fs ds L (x_mgr x) M all SH) as [GB GG].
  destruct (Nat.eq_dec (length L mod 64) 0) as [Z0|Z0].
  { rewrite (GB Z0). cbn [obind]. split; [tauto|discriminate]. }
  destruct (GG Z0) as (r0 & S0 & _). rewrite S0. cbn [obind].
  assert (PT := OF (x_tab x)).
  assert (NM : forall nm, In nm (map fst (ordf (x_tab x))) <-> In nm fs).
  { intro nm. rewrite <- T. split; apply Permutation_in; apply Permutation_map; [apply Permutation_sym|]; auto. }
  destruct (query_fields_ok crc fs ds L IL (x_mgr x) M ordp OP ND q (ordf (x_tab x)) Z0) with (res := all) (g := all) as [QA QB]; auto.
  { intros nm f I. apply FO. eapply Permutation_in; [apply Permutation_sym; eauto|auto]. }
  split.
  - intros [_ SF]. destruct QA as (res & EQ & R & TR); [intros nm I; apply SF; now apply NM|]. rewrite EQ. cbn [obind].
    destruct (proj2 (GetIds_shape crc fs ds L (x_mgr x) M res R) Z0) as (r & S & SS & SI). exists r. split; auto. split; auto.
    intro id. rewrite SI. split.
    + intros (i & I & B & EI). assert (IN : In (nth i L 0%Z) L) by (now apply nth_In). apply IL in IN. destruct IN as (d & D & ED & _).
      exists d. split; auto. split; [congruence|]. apply (TR d i) in B; auto. destruct B as [_ B]. intros f If. apply B. now apply NM.
    + intros (d & D & ED & MT). assert (IN : In id L) by (apply IL; eauto). apply (In_nth _ _ 0%Z) in IN. destruct IN as (i & I & EI).
      exists i. split; auto. split; auto. apply (TR d i); auto; [congruence|]. split; [|intros nm In'; apply MT; now apply NM].
      rewrite T0, full_bit; auto. rewrite C0. pose proof (words_cap (length L)). lia.
  - intros r H. apply survivable_split. rewrite <- ON. split; [exact Z0|]. intros f If. destruct (query_fields ordp (x_mgr x) q (ordf (x_tab x)) all all) as [res| |] eqn:EQ; try discriminate.
    eapply QB; [reflexivity|]. now apply NM.
Qed.
