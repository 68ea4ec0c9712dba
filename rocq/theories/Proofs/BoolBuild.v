(** Proofs about building the boolean index and starting a query. *)
From Coq Require Import List Arith ZArith Bool Lia Sorting Permutation.
From Verif.Model Require Import Common BoolIndex.
From Verif.Spec Require Import BoolSpec.
From Verif.Proofs Require Import Tac BoolIds BoolScan.
Import ListNotations.
Local Open Scope Z_scope.

Lemma fold_left_or {S A} (P : S -> Prop) (Q : A -> Prop) (f : S -> A -> S) l : forall s,
  (forall s a, In a l -> (P (f s a) <-> P s \/ Q a)) -> (P (fold_left f l s) <-> P s \/ exists a, In a l /\ Q a).
Proof.
  induction l as [|a l IH]; intros s H; cbn [fold_left].
  - split; [auto|]. intros [X|(a & [] & _)]; auto.
  - rewrite IH by (intros; apply H; right; auto). rewrite H by (left; auto). split.
    + intros [[X|X]|(b & I & X)]; auto; right; [exists a|exists b]; split; auto; [left|right]; auto.
    + intros [X|(b & [->|I] & X)]; auto. right. eauto.
Qed.

Lemma isort_in l e : In e (isort l) <-> In e l.
Proof.
  assert (G : forall x l, In e (insert_sorted x l) <-> e = x \/ In e l).
  { intros x m. induction m as [|y m IH]; cbn; [intuition|]. destruct (x <=? y); cbn; [intuition|]. rewrite IH. tauto. }
  unfold isort. induction l as [|x l IH]; cbn; [tauto|]. rewrite G, IH. intuition.
Qed.
Lemma isort_sorted l : StronglySorted Z.le (isort l).
Proof.
  assert (G : forall x m e, In e (insert_sorted x m) -> e = x \/ In e m).
  { intros x m e. induction m as [|y m IH]; cbn; [intuition|]. destruct (x <=? y); cbn; intuition. }
  unfold isort. induction l as [|x l IH]; cbn; [constructor|]. revert IH. generalize (fold_right insert_sorted [] l). clear l.
  induction 1 as [|y m S IH F]; cbn; [repeat constructor|]. destruct (Z.leb_spec x y).
  - constructor; [constructor; auto|]. constructor; auto. rewrite Forall_forall in *. intros e I. specialize (F e I). lia.
  - constructor; auto. rewrite Forall_forall in *. intros e I. apply G in I as [->|I]; [lia|auto].
Qed.

Definition phas (p : list ((Z * Z) * list Z)) (a : Z * Z) (e : Z) : Prop := exists l, post_find a p = Some l /\ In e l.
Lemma post_add_spec a eid p b e : phas (post_add a eid p) b e <-> phas p b e \/ (b = a /\ e = eid).
Proof.
  unfold phas. destruct a as [a1 a2], b as [b1 b2]. induction p as [|[[c1 c2] l] p IH]; cbn.
  - destruct (Z.eqb_spec b1 a1) as [->|]; cbn; [destruct (Z.eqb_spec b2 a2) as [->|]; cbn|].
    + split; [intros (l & E & I); inv E; destruct I as [<-|[]]; auto|]. intros [(l & E & _)|[_ ->]]; [discriminate|]. eexists. split; [reflexivity|left; auto].
    + split; [intros (l & E & _); discriminate|]. intros [(l & E & _)|[E _]]; [discriminate|]. inv E. congruence.
    + split; [intros (l & E & _); discriminate|]. intros [(l & E & _)|[E _]]; [discriminate|]. inv E. congruence.
  - destruct ((a1 =? c1) && (a2 =? c2)) eqn:EA; cbn.
    + apply andb_prop in EA as [E1 E2]. b2p. subst. destruct ((b1 =? c1) && (b2 =? c2)) eqn:EB; cbn.
      * apply andb_prop in EB as [E1 E2]. b2p. subst. split.
        { intros (m & E & I). inv E. apply in_app_iff in I as [I|[<-|[]]]; eauto. }
        { intros [(m & E & I)|[_ ->]].
          - inv E. eexists. split; [reflexivity|]. apply in_app_iff. auto.
          - eexists. split; [reflexivity|]. apply in_app_iff. right; left; auto. }
      * split; [auto|]. intros [X|[X _]]; auto. inv X. rewrite !Z.eqb_refl in EB. discriminate.
    + destruct ((b1 =? c1) && (b2 =? c2)) eqn:EB; cbn; [|exact IH].
      split; [auto|]. intros [X|[X _]]; auto. inv X. congruence.
Qed.
Lemma post_find_sorted p a : post_find a (map (fun q => (fst q, isort (snd q))) p) = option_map isort (post_find a p).
Proof. induction p as [|[b l] p IH]; cbn; auto. destruct ((fst a =? fst b) && (snd a =? snd b)); auto. Qed.

Section B.
Variable hash : list Z -> Z.
Definition cid_of (d : doc) (i : nat) (c : conj) : Z := gen_conj_id (d_id d) (Z.of_nat i mod 256) (conj_size c mod 256).
Definition occ (docs : list doc) (d : doc) (i : nat) (c : conj) : Prop := In d docs /\ nth_error (d_conjs d) i = Some c.

Definition adds (cid : Z) (c : conj) (a : Z * Z) (e : Z) : Prop :=
  exists x, In x c /\ fst a = x_field x /\ In (snd a) (parse hash (x_values x)) /\ e = gen_entry_id cid (x_excl x).

Lemma index_expr_has cid ix x a e : phas (ix_post (index_expr hash cid ix x)) a e <->
  phas (ix_post ix) a e \/ (fst a = x_field x /\ In (snd a) (parse hash (x_values x)) /\ e = gen_entry_id cid (x_excl x)).
Proof.
  unfold index_expr. cbn [ix_post].
  rewrite (fold_left_or (fun p => phas p a e) (fun v => a = (x_field x, v) /\ e = gen_entry_id cid (x_excl x))).
  - split; (intros [X|X]; [auto|right]).
    + destruct X as (v & I & -> & ->). auto.
    + destruct X as (A & B & C). exists (snd a). split; auto. split; auto. rewrite <- A. now destruct a.
  - intros s v _. apply post_add_spec.
Qed.
Lemma index_expr_wild cid ix x : ix_wild (index_expr hash cid ix x) = ix_wild ix.
Proof. reflexivity. Qed.
Lemma index_exprs_wild cid c : forall ix, ix_wild (fold_left (index_expr hash cid) c ix) = ix_wild ix.
Proof. induction c as [|x c IH]; intro ix; cbn [fold_left]; auto. rewrite IH. reflexivity. Qed.
Lemma index_exprs_meta cid c f : forall ix, In f (ix_meta (fold_left (index_expr hash cid) c ix)) <-> In f (ix_meta ix) \/ exists x, In x c /\ x_field x = f.
Proof. intro ix. apply (fold_left_or (fun ix => In f (ix_meta ix)) (fun x => x_field x = f)). intros s x _. cbn. tauto. Qed.
Lemma number_in {T} (l : list T) : forall n i c, In (i, c) (number n l) <-> (n <= i)%nat /\ nth_error l (i - n) = Some c.
Proof.
  induction l as [|x l IH]; intros n i c; cbn.
  - split; [tauto|]. intros [_ E]. destruct (i - n)%nat; discriminate.
  - rewrite IH. split.
    + intros [E|[A B]]; [inv E; rewrite Nat.sub_diag; auto|]. split; [lia|]. replace (i - n)%nat with (S (i - S n)) by lia. auto.
    + intros [A B]. destruct (Nat.eq_dec i n) as [->|]; [rewrite Nat.sub_diag in B; inv B; auto|].
      right. split; [lia|]. replace (i - n)%nat with (S (i - S n)) in B by lia. auto.
Qed.

Lemma add_document_has ix d a e : phas (ix_post (add_document hash ix d)) a e <->
  phas (ix_post ix) a e \/ exists i c, nth_error (d_conjs d) i = Some c /\ adds (cid_of d i c) c a e.
Proof.
  unfold add_document. rewrite (fold_left_or (fun ix => phas (ix_post ix) a e) (fun ic => adds (cid_of d (fst ic) (snd ic)) (snd ic) a e)).
  - split; (intros [X|X]; [auto|right]).
    + destruct X as ([i c] & I & X). apply number_in in I as [_ I]. rewrite Nat.sub_0_r in I. eauto.
    + destruct X as (i & c & I & X). exists (i, c). split; auto. apply number_in. rewrite Nat.sub_0_r. split; [lia|auto].
  - intros s [i c] _. cbn [fst snd]. unfold index_conj. cbn [fst snd].
    rewrite (fold_left_or (fun ix => phas (ix_post ix) a e) (fun x => fst a = x_field x /\ In (snd a) (parse hash (x_values x)) /\ e = gen_entry_id (cid_of d i c) (x_excl x))).
    + destruct (conj_size c =? 0); reflexivity.
    + intros s' x _. apply index_expr_has.
Qed.
Lemma add_document_wild ix d e : In e (ix_wild (add_document hash ix d)) <->
  In e (ix_wild ix) \/ exists i c, nth_error (d_conjs d) i = Some c /\ conj_size c = 0 /\ e = gen_entry_id (cid_of d i c) false.
Proof.
  unfold add_document. rewrite (fold_left_or (fun ix => In e (ix_wild ix)) (fun ic => conj_size (snd ic) = 0 /\ e = gen_entry_id (cid_of d (fst ic) (snd ic)) false)).
  - split; (intros [X|X]; [auto|right]).
    + destruct X as ([i c] & I & X). apply number_in in I as [_ I]. rewrite Nat.sub_0_r in I. eauto.
    + destruct X as (i & c & I & X). exists (i, c). split; auto. apply number_in. rewrite Nat.sub_0_r. split; [lia|auto].
  - intros s [i c] _. cbn [fst snd]. unfold index_conj. cbn [fst snd]. rewrite index_exprs_wild.
    destruct (Z.eqb_spec (conj_size c) 0) as [Z0|NZ]; cbn [ix_wild].
    + rewrite in_app_iff. cbn [In]. split; [intros [A|[<-|[]]]; auto|]. intros [A|[_ ->]]; auto.
    + tauto.
Qed.
Lemma add_document_meta ix d f : In f (ix_meta (add_document hash ix d)) <->
  In f (ix_meta ix) \/ exists i c x, nth_error (d_conjs d) i = Some c /\ In x c /\ x_field x = f.
Proof.
  unfold add_document. rewrite (fold_left_or (fun ix => In f (ix_meta ix)) (fun ic => exists x, In x (snd ic) /\ x_field x = f)).
  - split; (intros [X|X]; [auto|right]).
    + destruct X as ([i c] & I & x & X). apply number_in in I as [_ I]. rewrite Nat.sub_0_r in I. eauto.
    + destruct X as (i & c & x & I & X). exists (i, c). split; eauto. apply number_in. rewrite Nat.sub_0_r. split; [lia|auto].
  - intros s [i c] _. cbn [fst snd]. unfold index_conj. cbn [fst snd]. rewrite index_exprs_meta.
    destruct (conj_size c =? 0); reflexivity.
Qed.

Lemma build_has docs a e : phas (ix_post (build hash docs)) a e <-> exists d i c, occ docs d i c /\ adds (cid_of d i c) c a e.
Proof.
  unfold build. cbn [ix_post]. set (ix := fold_left (add_document hash) docs (mkix [] [] [])).
  assert (E : phas (map (fun p => (fst p, isort (snd p))) (ix_post ix)) a e <-> phas (ix_post ix) a e).
  { unfold phas. rewrite post_find_sorted. destruct (post_find a (ix_post ix)) as [l|]; cbn.
    - split; intros (m & Q & I); inv Q; eexists; (split; [reflexivity|]); now apply isort_in.
    - split; intros (m & Q & _); discriminate. }
  rewrite E. unfold ix. rewrite (fold_left_or (fun ix => phas (ix_post ix) a e) (fun d => exists i c, nth_error (d_conjs d) i = Some c /\ adds (cid_of d i c) c a e)).
  - split.
    + intros [(l & X & _)|(d & I & i & c & A & B)]; [discriminate|]. exists d, i, c. split; [split|]; auto.
    + intros (d & i & c & [A B] & C). right. exists d. split; eauto.
  - intros s d _. apply add_document_has.
Qed.
Lemma build_sorted docs a l : post_find a (ix_post (build hash docs)) = Some l -> StronglySorted Z.le l.
Proof.
  unfold build. cbn [ix_post]. rewrite post_find_sorted. destruct (post_find a _); [|discriminate]. intro E. inv E. apply isort_sorted.
Qed.
Lemma build_wild docs e : In e (ix_wild (build hash docs)) <-> exists d i c, occ docs d i c /\ conj_size c = 0 /\ e = gen_entry_id (cid_of d i c) false.
Proof.
  unfold build. cbn [ix_wild]. rewrite isort_in.
  rewrite (fold_left_or (fun ix => In e (ix_wild ix)) (fun d => exists i c, nth_error (d_conjs d) i = Some c /\ conj_size c = 0 /\ e = gen_entry_id (cid_of d i c) false)).
  - split.
    + intros [[]|(d & I & i & c & A & B)]. exists d, i, c. split; [split|]; auto.
    + intros (d & i & c & [A B] & C). right. exists d. split; eauto.
  - intros s d _. apply add_document_wild.
Qed.
Lemma build_wild_sorted docs : StronglySorted Z.le (ix_wild (build hash docs)).
Proof. apply isort_sorted. Qed.
Lemma build_meta docs f : In f (ix_meta (build hash docs)) <-> exists d i c x, occ docs d i c /\ In x c /\ x_field x = f.
Proof.
  unfold build. cbn [ix_meta].
  rewrite (fold_left_or (fun ix => In f (ix_meta ix)) (fun d => exists i c x, nth_error (d_conjs d) i = Some c /\ In x c /\ x_field x = f)).
  - split.
    + intros [[]|(d & I & i & c & x & A & B)]. exists d, i, c, x. split; [split|]; auto.
    + intros (d & i & c & x & [A B] & C). right. exists d. split; eauto.
  - intros s d _. apply add_document_meta.
Qed.

(** * Queries *)
Lemma cid_range docs d i c : valid_docs docs -> occ docs d i c -> 0 <= cid_of d i c < 2 ^ 60.
Proof.
  intros [V _] [I _]. destruct (V d I) as [V1 _ _ _ _]. apply gen_conj_id_range; try (apply Z.mod_pos_bound; lia). lia.
Qed.
Lemma conj_size_nonneg c : 0 <= conj_size c.
Proof. unfold conj_size. lia. Qed.
Lemma cid_facts docs d i c : valid_docs docs -> occ docs d i c -> conj_doc (cid_of d i c) = d_id d /\ conj_size_of (cid_of d i c) = conj_size c /\ conj_index (cid_of d i c) = Z.of_nat i.
Proof.
  intros [V _] [I N]. destruct (V d I) as [V1 V2 V3 V4 _]. unfold cid_of.
  assert (IL : (i < length (d_conjs d))%nat) by (apply nth_error_Some; congruence).
  pose proof (V4 c (nth_error_In _ _ N)). pose proof (conj_size_nonneg c).
  rewrite conj_doc_gen, conj_size_gen, conj_index_gen by (try (apply Z.mod_pos_bound; lia); lia).
  rewrite !Z.mod_small by lia. auto.
Qed.
Lemma cid_inj docs d i c d' i' c' : valid_docs docs -> occ docs d i c -> occ docs d' i' c' -> cid_of d i c = cid_of d' i' c' -> d = d' /\ i = i' /\ c = c'.
Proof.
  intros V O O' E. destruct (cid_facts docs d i c V O) as (A & _ & B). destruct (cid_facts docs d' i' c' V O') as (A' & _ & B').
  rewrite E in A, B. assert (II : i = i') by lia. assert (DD : d_id d = d_id d') by congruence.
  destruct V as [_ ND]. destruct O as [O1 O2], O' as [O1' O2'].
  assert (D : d = d').
  { clear - ND DD O1 O1'. induction docs as [|x l IH]; [destruct O1|]. cbn in ND. inversion_clear ND as [|? ? N1 N2].
    destruct O1 as [->|O1], O1' as [->|O1']; auto; exfalso; apply N1; [rewrite DD|rewrite <- DD]; now apply in_map. }
  subst. split; auto. split; auto. congruence.
Qed.
Lemma entry_inj c c' x x' : 0 <= c < 2 ^ 60 -> 0 <= c' < 2 ^ 60 -> gen_entry_id c x = gen_entry_id c' x' -> c = c' /\ x = x'.
Proof.
  intros C C' E. pose proof (f_equal entry_conj E) as E1. pose proof (f_equal is_include E) as E2.
  rewrite !entry_conj_gen in E1 by auto. rewrite !is_include_gen in E2 by auto. destruct x, x'; auto; discriminate.
Qed.

(** the entries a field cursor of the query sees *)
Definition sees (ix : index) (fq : Z * list (list Z)) (e : Z) : Prop :=
  exists v, In v (parse hash (snd fq)) /\ phas (ix_post ix) (fst fq, v) e.
Lemma retrieve_in ix f vs e : (exists l, In l (retrieve_entries hash ix f vs) /\ In e l) <-> sees ix (f, vs) e.
Proof.
  unfold retrieve_entries, sees, phas. cbn [fst snd]. split.
  - intros (l & I & J). apply in_flat_map in I as (v & V & I). destruct (post_find (f, v) (ix_post ix)) eqn:F; [|destruct I].
    destruct I as [<-|[]]. eauto.
  - intros (v & V & l & F & J). exists l. split; auto. apply in_flat_map. exists v. split; auto. rewrite F. left; auto.
Qed.
Lemma fresh_ok l : StronglySorted Z.le l -> (forall e, In e l -> ent e) -> cuok (mkcu l 0).
Proof. intros S E. split; cbn; auto; [lia|]. intros e I. now apply ent_range, E. Qed.

Lemma ent_has docs a e : valid_docs docs -> phas (ix_post (build hash docs)) a e -> ent e.
Proof.
  intros V H. apply build_has in H as (d & i & c & O & x & _ & _ & _ & ->). exists (cid_of d i c), (x_excl x). split; auto. eapply cid_range; eauto.
Qed.

(** what one cursor of the list belongs to *)
Definition belongs (docs : list doc) (q : list (Z * list (list Z))) (f : fcursor) : Prop :=
  (exists fq, In fq q /\ forall e, In e (rem f) <-> sees (build hash docs) fq e) \/
  (forall e, In e (rem f) <-> In e (ix_wild (build hash docs))).
Lemma init_cursors_spec docs q : valid_docs docs -> known_fields docs q ->
  exists cs, init_cursors hash (build hash docs) q = Ok cs /\ csok cs /\ (forall f, In f cs -> belongs docs q f) /\
    forall e, left cs e <-> (exists fq, In fq q /\ sees (build hash docs) fq e) \/ In e (ix_wild (build hash docs)).
Proof.
  intros V. induction q as [|[f vs] q IH]; intro KF.
  - cbn [init_cursors]. eexists. split; [reflexivity|]. pose proof (build_wild_sorted docs) as WS.
    assert (WE : forall e, In e (ix_wild (build hash docs)) -> ent e).
    { intros e I. apply build_wild in I as (d & i & c & O & _ & ->). exists (cid_of d i c), false. split; auto. eapply cid_range; eauto. }
    unfold belongs. destruct (ix_wild (build hash docs)) as [|w ws] eqn:EW.
    + split; [split; [intros ? []|intros ? ? []]|]. split; [intros ? []|]. intro e. split; [intros (g & [] & _)|intros [(fq & [] & _)|[]]].
    + destruct (fc_init_ok [mkcu (w :: ws) 0]) as [A B]; [discriminate|intros c [<-|[]]; now apply fresh_ok|].
      assert (RM : rem (fc_init [mkcu (w :: ws) 0]) = w :: ws) by (unfold rem; rewrite B; cbn; now rewrite app_nil_r).
      split.
      { split; [intros g [<-|[]]; auto|]. intros g e [<-|[]]. rewrite RM. auto. }
      split. { intros g [<-|[]]. right. intro e. now rewrite RM. }
      intro e. split.
      * intros (g & [<-|[]] & J). rewrite RM in J. auto.
      * intros [(fq & [] & _)|J]. exists (fc_init [mkcu (w :: ws) 0]). split; [left; auto|]. now rewrite RM.
  - cbn [init_cursors].
    assert (MT : existsb (Z.eqb f) (ix_meta (build hash docs)) = true).
    { apply existsb_exists. exists f. split; [|apply Z.eqb_refl]. apply build_meta.
      destruct (KF f vs (or_introl eq_refl)) as (d & c & x & A & B & C & D). apply In_nth_error in B as (i & B). exists d, i, c, x. split; [split|]; auto. }
    rewrite MT. destruct IH as (cs & E & OK & BL & LF); [intros f' vs' I; apply (KF f' vs'); right; auto|]. rewrite E. cbn [obind].
    eexists. split; [reflexivity|].
    assert (BL' : forall g, In g cs -> belongs docs ((f, vs) :: q) g).
    { intros g I. destruct (BL g I) as [(fq & A & B)|B]; [left; exists fq; split; [right|]; auto|right; auto]. }
    pose proof (retrieve_in (build hash docs) f vs) as RI.
    set (es := retrieve_entries hash (build hash docs) f vs) in *.
    assert (ES : forall l, In l es -> StronglySorted Z.le l).
    { intros l I. unfold es, retrieve_entries in I. apply in_flat_map in I as (v & _ & I).
      destruct (post_find (f, v) (ix_post (build hash docs))) eqn:F; [|destruct I]. destruct I as [<-|[]]. eapply build_sorted; eauto. }
    assert (EE : forall l e, In l es -> In e l -> ent e).
    { intros l e I J. assert (S : sees (build hash docs) (f, vs) e) by (apply RI; eauto). destruct S as (v & _ & S). eapply ent_has; eauto. }
    clearbody es. destruct es as [|l0 es0].
    + split; [exact OK|]. split; [exact BL'|]. intro e. rewrite LF. split; (intros [(fq & A & B)|J]; [|auto]; left).
      * exists fq. split; [right|]; auto.
      * destruct A as [<-|A]; [|eauto]. apply RI in B as (l & [] & _).
    + set (es := l0 :: es0) in *. set (fc := fc_init (map (fun l => mkcu l 0) es)).
      destruct (fc_init_ok (map (fun l => mkcu l 0) es)) as [A B]; [discriminate|intros c I; apply in_map_iff in I as (l & <- & I); apply fresh_ok; eauto|].
      fold fc in A, B.
      assert (RM : forall e, In e (rem fc) <-> sees (build hash docs) (f, vs) e).
      { intro e. unfold rem. rewrite B. rewrite <- RI. rewrite in_flat_map. split.
        - intros (c & I & J). apply in_map_iff in I as (l & <- & I). exists l. auto.
        - intros (l & I & J). exists (mkcu l 0). split; [apply in_map_iff; eauto|exact J]. }
      split.
      { split; [intros g [<-|I]; auto; now apply OK|]. intros g e [<-|I] J; [|eapply (cs_ent _ OK); eauto].
        apply RM in J as (v & _ & J). eapply ent_has; eauto. }
      split. { intros g [<-|I]; auto. left. exists (f, vs). split; [left|]; auto. }
      intro e. split.
      * intros (g & [<-|I] & J).
        { left. exists (f, vs). split; [left; auto|]. now apply RM. }
        { assert (X : left cs e) by (exists g; auto). apply LF in X as [(fq & X & Y)|X]; auto. left. exists fq. split; [right|]; auto. }
      * intros X. assert (Y : sees (build hash docs) (f, vs) e \/ left cs e).
        { destruct X as [(fq & [<-|X] & Y)|X]; auto; right; apply LF; [left; eauto|auto]. }
        destruct Y as [Y|(g & I & J)]; [exists fc; split; [left; auto|now apply RM]|exists g; split; [right; auto|auto]].
Qed.

(** the query assigns a value of expression [x], as the index sees it *)
Definition hit (q : list (Z * list (list Z))) (x : expr) : Prop :=
  exists fq v, In fq q /\ fst fq = x_field x /\ In v (parse hash (snd fq)) /\ In v (parse hash (x_values x)).
Lemma parse_in vs w : In w (parse hash vs) <-> exists v, In v vs /\ v <> [] /\ w = hash v.
Proof.
  unfold parse. rewrite in_map_iff. split.
  - intros (v & <- & I). apply filter_In in I as [I N]. exists v. split; auto. split; auto. destruct v; [discriminate|congruence].
  - intros (v & I & N & ->). exists v. split; auto. apply filter_In. split; auto. destruct v; congruence.
Qed.
Lemma hit_iff docs q d c x : valid_docs docs -> no_collision hash docs q -> In d docs -> In c (d_conjs d) -> In x c ->
  (hit q x <-> assigns q (x_field x) (x_values x)).
Proof.
  intros [V _] NC D C X. split.
  - intros ([f vs] & w & Q & F & A & B). cbn [fst snd] in *. apply parse_in in A as (a & A1 & A2 & ->). apply parse_in in B as (b & B1 & B2 & E).
    assert (a = b) by (eapply NC; eauto). subst. exists vs, b. auto.
  - intros (vs & v & Q & A & B). destruct (V d D) as [_ _ _ _ V5]. pose proof (V5 c x v C X B) as N.
    exists (x_field x, vs), (hash v). cbn [fst snd]. split; auto. split; auto. split; apply parse_in; eauto.
Qed.

Lemma sees_entry docs q d i c xf : valid_docs docs -> occ docs d i c ->
  ((exists fq, In fq q /\ sees (build hash docs) fq (gen_entry_id (cid_of d i c) xf)) <-> exists x, In x c /\ x_excl x = xf /\ hit q x).
Proof.
  intros V O. pose proof (cid_range docs d i c V O) as R. split.
  - intros (fq & Q & v & PV & H). apply build_has in H as (d' & i' & c' & O' & x & X & F & W & E).
    pose proof (cid_range docs d' i' c' V O') as R'. apply entry_inj in E as [E1 E2]; auto.
    destruct (cid_inj docs d i c d' i' c' V O O' E1) as (-> & -> & ->). exists x. split; auto. split; auto. exists fq, v. auto.
  - intros (x & X & <- & fq & v & Q & F & A & B). exists fq. split; auto. exists v. split; auto. apply build_has. exists d, i, c. split; auto.
    exists x. cbn [fst snd]. auto.
Qed.
End B.
