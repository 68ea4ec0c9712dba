(** The reference-counted free list: invariant of every reachable state. *)
From Verif.Model Require Import Common FreeList.
From Verif.Spec Require Import FreeListSpec.
From Verif.Proofs Require Import Tac.
Open Scope Z_scope.

Lemma fupd_same {A} (f : nat -> A) a x : fupd f a x a = x.
Proof. unfold fupd. now rewrite Nat.eqb_refl. Qed.
Lemma fupd_other {A} (f : nat -> A) a x b : b <> a -> fupd f a x b = f b.
Proof. unfold fupd. intros. destruct (Nat.eqb_spec b a); congruence. Qed.
Lemma optn_eqb_spec a b : optn_eqb a b = true <-> a = b.
Proof.
  destruct a, b; cbn; try (split; congruence). rewrite Nat.eqb_eq. split; congruence.
Qed.

(** ** Bits of the count *)
Lemma FLAG_val : FLAG = 2 ^ 31. Proof. reflexivity. Qed.
Lemma mask_mod r : refs_mask r = r mod 2 ^ 31.
Proof. unfold refs_mask. change 0x7FFFFFFF with (Z.ones 31). apply Z.land_ones. lia. Qed.
Lemma flag_clear r : 0 <= r < 2 ^ 31 -> Z.land r FLAG = 0.
Proof.
  intros B. assert (E : r = Z.land r (Z.ones 31)) by (rewrite Z.land_ones by lia; symmetry; now apply Z.mod_small).
  rewrite E, <- Z.land_assoc. change (Z.land (Z.ones 31) FLAG) with 0. apply Z.land_0_r.
Qed.
Lemma u32_id x : 0 <= x < 2 ^ 32 -> u32 x = x.
Proof. intros. now apply Z.mod_small. Qed.

(** ** Roles *)
Inductive role := Call | AddE | AddL | Taken.
(** Ghost status of a node. *)
Inductive gs := Out | Pend | OnL | Own (r : role) (t : tid).
Definition weight (x : gs) : Z :=
  match x with
  | Out => 0 | Pend => FLAG | OnL => 1
  | Own Call _ => 0 | Own AddE _ => FLAG | Own AddL _ => 1 | Own Taken _ => 1
  end.
Definition roleof (p : pc) : option (node * role) :=
  match p with
  | A0 n => Some (n, Call)
  | K0 n _ | K1 n _ _ | K2 n _ _ => Some (n, AddE)
  | K3 n _ _ | K4 n _ _ => Some (n, AddL)
  | G5 n | G5' n => Some (n, Taken)
  | _ => None
  end.
(** The node a thread holds a temporary reference to. *)
Definition tempof (p : pc) : option node :=
  match p with G3 h => Some h | G4 h _ => Some h | G5 h => Some h | G5' h => Some h | G6 h _ => Some h | _ => None end.
(** The successor a thread remembers. *)
Definition nextof (p : pc) : option (node * option node) :=
  match p with G4 h x => Some (h, x) | K2 n h _ => Some (n, h) | K3 n h _ => Some (n, h) | _ => None end.

Definition tmp (p : pc) (n : node) : Z := match tempof p with Some m => if Nat.eqb m n then 1 else 0 | None => 0 end.
Fixpoint tc (f : tid -> pc) (NT : nat) (n : node) : Z :=
  match NT with O => 0 | S k => tc f k n + tmp (f k) n end.

Lemma tmp_range p n : 0 <= tmp p n <= 1.
Proof. unfold tmp. destruct (tempof p); [destruct (_ =? _)%nat|]; lia. Qed.
Lemma tc_range f NT n : 0 <= tc f NT n <= Z.of_nat NT.
Proof. induction NT as [|k IH]; cbn [tc]; [lia|]. pose proof (tmp_range (f k) n). lia. Qed.
Lemma tc_ext f f' NT n : (forall t, (t < NT)%nat -> f t = f' t) -> tc f NT n = tc f' NT n.
Proof. induction NT as [|k IH]; intros E; cbn [tc]; auto. rewrite IH by auto. now rewrite E by auto. Qed.
Lemma tc_upd f NT t p n : (t < NT)%nat -> tc (fupd f t p) NT n = tc f NT n - tmp (f t) n + tmp p n.
Proof.
  induction NT as [|k IH]; intros B; [lia|]. cbn [tc]. destruct (Nat.eq_dec t k) as [->|Q].
  - rewrite fupd_same. rewrite (tc_ext _ f) by (intros; apply fupd_other; lia). lia.
  - rewrite (fupd_other _ t p k) by auto. rewrite IH by lia. lia.
Qed.
Lemma tc_pos f NT t n : (t < NT)%nat -> tmp (f t) n = 1 -> 1 <= tc f NT n.
Proof.
  induction NT as [|k IH]; intros B E; [lia|]. cbn [tc]. pose proof (tc_range f k n). pose proof (tmp_range (f k) n).
  destruct (Nat.eq_dec t k) as [->|Q]; [lia|]. specialize (IH ltac:(lia) E). lia.
Qed.
Lemma tc_zero f NT n : (forall t, (t < NT)%nat -> tempof (f t) = None) -> tc f NT n = 0.
Proof. induction NT as [|k IH]; intros E; cbn [tc]; auto. rewrite IH by auto. unfold tmp. now rewrite E by auto. Qed.

Lemma reach_ext nx nx' o l : (forall n, In n l -> nx n = nx' n) -> reach nx o l -> reach nx' o l.
Proof.
  intros E R. induction R as [|n l R IH]; constructor. rewrite <- E by now left. apply IH. intros; apply E; now right.
Qed.
Lemma reach_fun nx o l l' : reach nx o l -> reach nx o l' -> l = l'.
Proof. intros R. revert l'. induction R; intros l' R'; inv R'; auto. f_equal. auto. Qed.

Section I.
Variable NT : nat.
Hypothesis NTB : Z.of_nat NT < 2 ^ 31 - 2.

Record finv (s : fl) (g : node -> gs) (L : list node) : Prop := {
  i_chain : reach (f_next s) (f_head s) L;
  i_nodup : NoDup L;
  i_onl : forall n, In n L <-> g n = OnL;
  i_role : forall t n r, roleof (f_pc s t) = Some (n, r) <-> g n = Own r t;
  i_lt : forall t, (NT <= t)%nat -> f_pc s t = Idle;
  i_refs : forall n, f_refs s n = weight (g n) + tc (f_pc s) NT n;
  i_pend : forall n, g n = Pend -> 1 <= tc (f_pc s) NT n;
  i_early : forall n t, g n = Own AddE t -> tc (f_pc s) NT n = 0;
  i_next : forall t n x, nextof (f_pc s t) = Some (n, x) -> f_next s n = x }.

Lemma tempof_lt s g L t n : finv s g L -> tempof (f_pc s t) = Some n -> 1 <= tc (f_pc s) NT n.
Proof.
  intros HI E. assert (B : (t < NT)%nat).
  { destruct (Nat.lt_ge_cases t NT); auto. rewrite (i_lt _ _ _ HI) in E by auto. discriminate. }
  apply (tc_pos _ _ t); auto. unfold tmp. now rewrite E, Nat.eqb_refl.
Qed.

(** Only the place of one thread changes, and neither its role nor its temporary reference. *)
Lemma finv_pc s g L t p : finv s g L -> (t < NT)%nat -> roleof p = roleof (f_pc s t) -> tempof p = tempof (f_pc s t) ->
  (forall n x, nextof p = Some (n, x) -> f_next s n = x) -> finv (set_pc s t p) g L.
Proof.
  intros HI B ER ET EN.
  assert (TC : forall n, tc (fupd (f_pc s) t p) NT n = tc (f_pc s) NT n).
  { intros n. rewrite tc_upd by auto. unfold tmp. rewrite ET. lia. }
  destruct HI as [C1 C2 C3 C4 C5 C6 C7 C8 C9]. constructor; cbn; auto.
  - intros t' n r. destruct (Nat.eq_dec t' t) as [->|Q]; [rewrite fupd_same, ER|rewrite fupd_other by auto]; apply C4.
  - intros t' B'. rewrite fupd_other by lia. auto.
  - intros n. now rewrite TC.
  - intros n E. rewrite TC. auto.
  - intros n t' E. rewrite TC. eauto.
  - intros t' n x. destruct (Nat.eq_dec t' t) as [->|Q]; [rewrite fupd_same|rewrite fupd_other by auto]; eauto.
Qed.

(** Thread [t] moves to [p], node [m] to status [x]; the successors stay. *)
Lemma finv_step s g L t p m x h' r' L' : finv s g L -> (t < NT)%nat ->
  (roleof (f_pc s t) = None /\ (forall r u, g m <> Own r u) \/ exists r, roleof (f_pc s t) = Some (m, r)) ->
  (roleof p = None /\ (forall r u, x <> Own r u) \/ exists r, roleof p = Some (m, r) /\ x = Own r t) ->
  (tempof (f_pc s t) = None \/ tempof (f_pc s t) = Some m) -> (tempof p = None \/ tempof p = Some m) ->
  (forall n y, nextof p = Some (n, y) -> f_next s n = y) ->
  (forall n, n <> m -> r' n = f_refs s n) ->
  r' m = weight x + (tc (f_pc s) NT m - tmp (f_pc s t) m + tmp p m) ->
  (x = Pend -> 1 <= tc (f_pc s) NT m - tmp (f_pc s t) m + tmp p m) ->
  (forall u, x = Own AddE u -> tc (f_pc s) NT m - tmp (f_pc s t) m + tmp p m = 0) ->
  reach (f_next s) h' L' -> NoDup L' -> (forall n, In n L' <-> fupd g m x n = OnL) ->
  finv (mkFL h' r' (f_next s) (fupd (f_pc s) t p)) (fupd g m x) L'.
Proof.
  intros HI B RO RN TO TN NX RF RM PE EA CH ND ON.
  assert (TM : tc (fupd (f_pc s) t p) NT m = tc (f_pc s) NT m - tmp (f_pc s t) m + tmp p m) by now rewrite tc_upd.
  assert (TD : forall n, n <> m -> tc (fupd (f_pc s) t p) NT n = tc (f_pc s) NT n).
  { intros n Q. rewrite tc_upd by auto. unfold tmp. assert ((m =? n)%nat = false) as E by (apply Nat.eqb_neq; auto).
    destruct TO as [->| ->], TN as [->| ->]; try rewrite E; lia. }
  destruct HI as [C1 C2 C3 C4 C5 C6 C7 C8 C9]. constructor; cbn; auto.
  - intros t' n r. destruct (Nat.eq_dec t' t) as [->|Q].
    + rewrite fupd_same. destruct (Nat.eq_dec n m) as [->|Qn].
      * rewrite fupd_same. destruct RN as [[-> NX']|(r1 & -> & ->)]; [split; [discriminate|intros E; now destruct (NX' _ _ E)]|].
        split; intros E; inv E; auto.
      * rewrite fupd_other by auto. split; intros E.
        { destruct RN as [[RN _]|(r1 & RN & _)]; rewrite RN in E; congruence. }
        { apply C4 in E. destruct RO as [[RO _]|(r1 & RO)]; congruence. }
    + rewrite fupd_other by auto. destruct (Nat.eq_dec n m) as [->|Qn].
      * rewrite fupd_same. split; intros E.
        { apply C4 in E. destruct RO as [[_ RO]|(r1 & RO)]; [now destruct (RO _ _ E)|]. apply C4 in RO. congruence. }
        { destruct RN as [[_ RN]|(r1 & _ & RN)]; [now destruct (RN _ _ E)|]. congruence. }
      * rewrite fupd_other by auto. apply C4.
  - intros t' B'. rewrite fupd_other by lia. auto.
  - intros n. destruct (Nat.eq_dec n m) as [->|Qn].
    + now rewrite fupd_same, TM.
    + rewrite fupd_other by auto. rewrite TD, RF by auto. auto.
  - intros n. destruct (Nat.eq_dec n m) as [->|Qn].
    + rewrite fupd_same, TM. auto.
    + rewrite fupd_other by auto. rewrite TD by auto. auto.
  - intros n u. destruct (Nat.eq_dec n m) as [->|Qn].
    + rewrite fupd_same, TM. eauto.
    + rewrite fupd_other by auto. rewrite TD by auto. eauto.
  - intros t' n y. destruct (Nat.eq_dec t' t) as [->|Q]; [rewrite fupd_same|rewrite fupd_other by auto]; eauto.
Qed.

(** K1: the successor of a node being added is written while nobody else can look at it. *)
Lemma finv_k1 s g L t n hd r : finv s g L -> (t < NT)%nat -> f_pc s t = K1 n hd r -> finv (set_pc (set_nx s n hd) t (K2 n hd r)) g L.
Proof.
  intros HI B E. assert (GE : g n = Own AddE t) by (apply (i_role _ _ _ HI); rewrite E; reflexivity).
  assert (NL : ~ In n L) by (rewrite (i_onl _ _ _ HI); congruence).
  pose proof (i_early _ _ _ HI _ _ GE) as T0.
  assert (HI' : finv (set_nx s n hd) g L).
  { pose proof (fun t' => tempof_lt s g L t' n HI) as TL. destruct HI as [C1 C2 C3 C4 C5 C6 C7 C8 C9]. constructor; auto.
    - cbn. apply (reach_ext (f_next s)); auto. intros m M. symmetry. apply fupd_other. intros ->. auto.
    - cbn. intros t' m x NX. destruct (Nat.eq_dec m n) as [->|Q]; [|rewrite fupd_other by auto; eauto].
      exfalso. assert (K : tempof (f_pc s t') = Some n \/ exists r', roleof (f_pc s t') = Some (n, r')).
      { destruct (f_pc s t') eqn:EP; cbn in NX; try discriminate; inv NX; cbn; eauto. }
      destruct K as [K|(r' & K)].
      + apply TL in K. lia.
      + apply C4 in K. rewrite GE in K. inv K. rewrite E in NX. discriminate. }
  assert (E' : f_pc (set_nx s n hd) t = K1 n hd r) by exact E.
  apply finv_pc; auto; rewrite ?E'; auto.
  cbn. intros m x NX. inv NX. now rewrite fupd_same.
Qed.

Lemma loop_ok s g L t hd s' l : finv s g L -> (t < NT)%nat -> roleof (f_pc s t) = None -> tempof (f_pc s t) = None ->
  loop s t hd = (s', l) -> finv s' g L.
Proof. intros HI B RO TE E. destruct hd; cbn in E; inv E; apply finv_pc; auto; cbn; try congruence. Qed.

(** The same after a change of one node by the same thread: [loop] and [known_done] only set the place of [t]. *)
Definition rest (p : pc) : Prop := roleof p = None /\ tempof p = None /\ nextof p = None.
Lemma loop_form s t hd s' l : loop s t hd = (s', l) -> exists p, rest p /\ s' = set_pc s t p /\ (l = [] \/ l = [ENull t]).
Proof. destruct hd; cbn; intros E; inv E; [exists (G1 n)|exists Idle]; repeat split; auto. Qed.
Lemma known_form s t r s' l : known_done s t r = (s', l) -> exists p, rest p /\ s' = set_pc s t p /\ (l = [] \/ l = [ENull t] \/ l = [EAdded t]).
Proof.
  destruct r; cbn; intros E; [inv E; exists Idle; repeat split; auto|].
  destruct (loop_form _ _ _ _ _ E) as (p & R & S & Q). exists p. intuition.
Qed.

Definition hist_ok (l : list fev) (g : node -> gs) : Prop :=
  forall n, (g n = Out -> outside n l) /\ (g n <> Out -> inside n l).

Lemma adds_app n l l' : adds n (l ++ l') = (adds n l + adds n l')%nat.
Proof. unfold adds. now rewrite filter_app, app_length. Qed.
Lemma gots_app n l l' : gots n (l ++ l') = (gots n l + gots n l')%nat.
Proof. unfold gots. now rewrite filter_app, app_length. Qed.
(** Steps that neither take a node out nor bring one in. *)
Lemma hist_keep l l' g g' : hist_ok l g -> (forall n, adds n l' = 0%nat /\ gots n l' = 0%nat) -> (forall n, g' n = Out <-> g n = Out) -> hist_ok (l ++ l') g'.
Proof.
  intros HO Z Q n. unfold outside, inside. rewrite adds_app, gots_app. destruct (Z n) as [-> ->]. rewrite !Nat.add_0_r.
  specialize (HO n). specialize (Q n). unfold outside, inside in HO. tauto.
Qed.
Lemma quiet_ev l t : (l = [] \/ l = [ENull t] \/ l = [EAdded t] \/ l = [EGet t]) -> forall n, adds n l = 0%nat /\ gots n l = 0%nat.
Proof. intros [->|[->|[->| ->]]] n; auto. Qed.

Lemma fupd_out g m (x : gs) : x <> Out -> g m <> Out -> forall n, fupd g m x n = Out <-> g n = Out.
Proof. intros X G n. destruct (Nat.eq_dec n m) as [->|Q]; [rewrite fupd_same|rewrite fupd_other by auto]; tauto. Qed.

Ltac eqs := repeat match goal with |- context [Nat.eqb ?a ?a] => rewrite Nat.eqb_refl end.

Lemma fact_inv s g L l a : finv s g L -> hist_ok l g -> (thread_of a < NT)%nat -> (forall t n, a = CallAdd t n -> outside n l) ->
  fact_step s a = None \/ exists s' l', fact_step s a = Some (Ok (s', l')) /\
    exists g' L', finv s' g' L' /\ hist_ok (l ++ l') g'.
Proof.
  intros HI HO B OUT. destruct a as [t n|t|t]; cbn [fact_step thread_of] in *.
  - destruct (f_pc s t) eqn:EP; auto. right. do 2 eexists. split; [reflexivity|].
    specialize (OUT _ _ eq_refl).
    assert (GO : g n = Out). { destruct (HO n) as [_ HO']. destruct (g n) eqn:G; auto; specialize (HO' ltac:(discriminate)); unfold outside, inside in *; lia. }
    exists (fupd g n (Own Call t)), L. split.
    + unfold set_pc. apply (finv_step s g L); auto; rewrite ?EP; unfold tmp; cbn [roleof tempof nextof weight]; auto.
      * left. split; auto. congruence.
      * right. exists Call. auto.
      * discriminate.
      * rewrite (i_refs _ _ _ HI), GO. cbn. lia.
      * discriminate.
      * discriminate.
      * apply (i_chain _ _ _ HI).
      * apply (i_nodup _ _ _ HI).
      * intros m. destruct (Nat.eq_dec m n) as [->|Q]; [rewrite fupd_same|rewrite fupd_other by auto]; rewrite (i_onl _ _ _ HI); [rewrite GO; split; discriminate|tauto].
    + intros m. destruct (HO m) as [H1 H2]. unfold outside, inside in *. rewrite adds_app, gots_app. destruct (Nat.eq_dec m n) as [->|Q].
      * rewrite fupd_same. assert (adds n [EAdd t n] = 1%nat) as -> by (unfold adds; cbn; now rewrite Nat.eqb_refl).
        assert (gots n [EAdd t n] = 0%nat) as -> by reflexivity. specialize (H1 GO). split; [discriminate|lia].
      * rewrite fupd_other by auto. assert (E : (n =? m)%nat = false) by (apply Nat.eqb_neq; auto).
        assert (adds m [EAdd t n] = 0%nat) as -> by (unfold adds; cbn; now rewrite E).
        assert (gots m [EAdd t n] = 0%nat) as -> by reflexivity. rewrite !Nat.add_0_r. auto.
  - destruct (f_pc s t) eqn:EP; auto. right. do 2 eexists. split; [reflexivity|]. exists g, L. split.
    + apply finv_pc; auto; rewrite ?EP; cbn; auto; discriminate.
    + apply (hist_keep _ _ g); [auto|apply (quiet_ev _ t); auto|reflexivity].
  - unfold fstep. pose proof (tc_range (f_pc s) NT) as TR. pose proof FLAG_val as FV. destruct (f_pc s t) eqn:EP; auto; right.
    + (* A0 *)
      assert (GE : g n = Own Call t) by (apply (i_role _ _ _ HI); rewrite EP; reflexivity).
      assert (RF : f_refs s n = tc (f_pc s) NT n) by (rewrite (i_refs _ _ _ HI), GE; cbn [weight]; lia).
      destruct (Z.eqb_spec (f_refs s n) 0) as [Z0|Z0]; do 2 eexists; (split; [reflexivity|]).
      * exists (fupd g n (Own AddE t)), L. split; [|apply (hist_keep _ _ g); [auto|apply (quiet_ev _ t); auto|apply fupd_out; congruence]].
        unfold set_pc, set_refs; cbn [f_head f_refs f_next f_pc]. apply (finv_step s g L); auto; rewrite ?EP; unfold tmp; cbn [roleof tempof nextof weight]; rewrite ?R2, ?Nat.eqb_refl; eauto; try discriminate.
        -- intros m Q. now rewrite fupd_other.
        -- rewrite fupd_same. rewrite u32_id; lia.
        -- intros; lia.
        -- apply (i_chain _ _ _ HI).
        -- apply (i_nodup _ _ _ HI).
        -- intros m. destruct (Nat.eq_dec m n) as [->|Q]; [rewrite fupd_same|rewrite fupd_other by auto]; rewrite (i_onl _ _ _ HI); [rewrite GE; split; discriminate|tauto].
      * exists (fupd g n Pend), L. split; [|apply (hist_keep _ _ g); [auto|apply (quiet_ev _ t); auto|apply fupd_out; congruence]].
        unfold set_pc, set_refs; cbn [f_head f_refs f_next f_pc]. apply (finv_step s g L); auto; rewrite ?EP; unfold tmp; cbn [roleof tempof nextof weight]; rewrite ?R2, ?Nat.eqb_refl; eauto; try discriminate.
        -- left. split; auto. discriminate.
        -- intros m Q. now rewrite fupd_other.
        -- rewrite fupd_same. pose proof (TR n). rewrite u32_id; lia.
        -- intros _. pose proof (TR n). lia.
        -- apply (i_chain _ _ _ HI).
        -- apply (i_nodup _ _ _ HI).
        -- intros m. destruct (Nat.eq_dec m n) as [->|Q]; [rewrite fupd_same|rewrite fupd_other by auto]; rewrite (i_onl _ _ _ HI); [rewrite GE; split; discriminate|tauto].
    + (* K0 *) do 2 eexists. split; [reflexivity|]. exists g, L. split; [|apply (hist_keep _ _ g); [auto|apply (quiet_ev _ t); auto|reflexivity]].
      apply finv_pc; auto; rewrite ?EP; cbn; auto; discriminate.
    + (* K1 *) do 2 eexists. split; [reflexivity|]. exists g, L. split; [|apply (hist_keep _ _ g); [auto|apply (quiet_ev _ t); auto|reflexivity]].
      apply finv_k1; auto.
    + (* K2 *)
      assert (GE : g n = Own AddE t) by (apply (i_role _ _ _ HI); rewrite EP; reflexivity).
      pose proof (i_early _ _ _ HI _ _ GE) as T0.
      do 2 eexists. split; [reflexivity|]. exists (fupd g n (Own AddL t)), L.
      split; [|apply (hist_keep _ _ g); [auto|apply (quiet_ev _ t); auto|apply fupd_out; congruence]].
      unfold set_pc, set_refs; cbn [f_head f_refs f_next f_pc]. apply (finv_step s g L); auto; rewrite ?EP; unfold tmp; cbn [roleof tempof nextof weight]; rewrite ?R2, ?Nat.eqb_refl; eauto; try discriminate.
      * intros m y K. apply (i_next _ _ _ HI t). rewrite EP. exact K.
      * intros m Q. now rewrite fupd_other.
      * rewrite fupd_same. rewrite u32_id; lia.
      * apply (i_chain _ _ _ HI).
      * apply (i_nodup _ _ _ HI).
      * intros m. destruct (Nat.eq_dec m n) as [->|Q]; [rewrite fupd_same|rewrite fupd_other by auto]; rewrite (i_onl _ _ _ HI); [rewrite GE; split; discriminate|tauto].
    + (* K3 *)
      assert (GE : g n = Own AddL t) by (apply (i_role _ _ _ HI); rewrite EP; reflexivity).
      assert (NX : f_next s n = hd) by (apply (i_next _ _ _ HI t); rewrite EP; reflexivity).
      destruct (optn_eqb (f_head s) hd) eqn:EH.
      * apply optn_eqb_spec in EH. destruct (known_done (set_head s (Some n)) t r) as [s' l'] eqn:KD.
        do 2 eexists. split; [reflexivity|]. destruct (known_form _ _ _ _ _ KD) as (p & (R1 & R2 & R3) & -> & EV).
        exists (fupd g n OnL), (n :: L). split; [|apply (hist_keep _ _ g); [auto|apply (quiet_ev _ t); tauto|apply fupd_out; congruence]].
        unfold set_pc, set_head; cbn [f_head f_refs f_next f_pc]. apply (finv_step s g L); auto; rewrite ?EP, ?R1, ?R2, ?R3; unfold tmp; cbn [roleof tempof nextof weight]; rewrite ?R2, ?Nat.eqb_refl; eauto; try discriminate.
        -- left. split; auto. discriminate.
        -- rewrite (i_refs _ _ _ HI), GE. cbn [weight]. lia.
        -- constructor. rewrite NX, <- EH. apply (i_chain _ _ _ HI).
        -- constructor; [|apply (i_nodup _ _ _ HI)]. rewrite (i_onl _ _ _ HI). congruence.
        -- intros m. cbn. destruct (Nat.eq_dec m n) as [->|Q]; [rewrite fupd_same; tauto|rewrite fupd_other by auto]. rewrite (i_onl _ _ _ HI). intuition congruence.
      * do 2 eexists. split; [reflexivity|]. exists g, L. split; [|apply (hist_keep _ _ g); [auto|apply (quiet_ev _ t); auto|reflexivity]].
        apply finv_pc; auto; rewrite ?EP; cbn; auto; discriminate.
    + (* K4 *)
      assert (GE : g n = Own AddL t) by (apply (i_role _ _ _ HI); rewrite EP; reflexivity).
      assert (RF : f_refs s n = 1 + tc (f_pc s) NT n) by (rewrite (i_refs _ _ _ HI), GE; cbn [weight]; lia).
      destruct (Z.eqb_spec (f_refs s n) 1) as [Z0|Z0].
      * do 2 eexists. split; [reflexivity|].
        exists (fupd g n (Own AddE t)), L. split; [|apply (hist_keep _ _ g); [auto|apply (quiet_ev _ t); auto|apply fupd_out; congruence]].
        unfold set_pc, set_refs; cbn [f_head f_refs f_next f_pc]. apply (finv_step s g L); auto; rewrite ?EP; unfold tmp; cbn [roleof tempof nextof weight]; rewrite ?R2, ?Nat.eqb_refl; eauto; try discriminate.
        -- intros m Q. now rewrite fupd_other.
        -- rewrite fupd_same. rewrite u32_id; lia.
        -- intros; lia.
        -- apply (i_chain _ _ _ HI).
        -- apply (i_nodup _ _ _ HI).
        -- intros m. destruct (Nat.eq_dec m n) as [->|Q]; [rewrite fupd_same|rewrite fupd_other by auto]; rewrite (i_onl _ _ _ HI); [rewrite GE; split; discriminate|tauto].
      * destruct (known_done (set_refs s n (f_refs s n + (FLAG - 1))) t r) as [s' l'] eqn:KD.
        do 2 eexists. split; [reflexivity|]. destruct (known_form _ _ _ _ _ KD) as (p & (R1 & R2 & R3) & -> & EV).
        exists (fupd g n Pend), L. split; [|apply (hist_keep _ _ g); [auto|apply (quiet_ev _ t); tauto|apply fupd_out; congruence]].
        unfold set_pc, set_refs; cbn [f_head f_refs f_next f_pc]. apply (finv_step s g L); auto; rewrite ?EP, ?R1, ?R2, ?R3; unfold tmp; cbn [roleof tempof nextof weight]; rewrite ?R2, ?Nat.eqb_refl; eauto; try discriminate.
        -- left. split; auto. discriminate.
        -- intros m Q. now rewrite fupd_other.
        -- rewrite fupd_same. pose proof (TR n). rewrite u32_id; lia.
        -- intros _. pose proof (TR n). lia.
        -- apply (i_chain _ _ _ HI).
        -- apply (i_nodup _ _ _ HI).
        -- intros m. destruct (Nat.eq_dec m n) as [->|Q]; [rewrite fupd_same|rewrite fupd_other by auto]; rewrite (i_onl _ _ _ HI); [rewrite GE; split; discriminate|tauto].
    + (* G0 *)
      destruct (loop s t (f_head s)) as [s' l'] eqn:LP. do 2 eexists. split; [reflexivity|]. exists g, L. split.
      * eapply loop_ok; eauto; rewrite EP; auto.
      * destruct (loop_form _ _ _ _ _ LP) as (p & _ & _ & EV). apply (hist_keep _ _ g); [auto|apply (quiet_ev _ t); tauto|reflexivity].
    + (* G1 *) do 2 eexists. split; [reflexivity|]. exists g, L. split; [|apply (hist_keep _ _ g); [auto|apply (quiet_ev _ t); auto|reflexivity]].
      apply finv_pc; auto; rewrite ?EP; cbn; auto; discriminate.
    + (* G2 *)
      assert (BACK : exists s' l', Some (Ok (set_pc s t G0, @nil fev)) = Some (Ok (s', l')) /\ exists g' L', finv s' g' L' /\ hist_ok (l ++ l') g').
      { do 2 eexists. split; [reflexivity|]. exists g, L. split; [|apply (hist_keep _ _ g); [auto|apply (quiet_ev _ t); auto|reflexivity]].
        apply finv_pc; auto; rewrite ?EP; cbn; auto; discriminate. }
      destruct (Z.eqb_spec (refs_mask r) 0) as [M0|M0]; auto. destruct (Z.eqb_spec (f_refs s h) r) as [RE|RE]; auto.
      do 2 eexists. split; [reflexivity|]. exists (fupd g h (g h)), L.
      assert (NA : forall u, g h <> Own AddE u).
      { intros u GE. pose proof (i_early _ _ _ HI _ _ GE) as T0. rewrite (i_refs _ _ _ HI), GE, T0 in RE. cbn [weight] in RE. subst r. apply M0. reflexivity. }
      assert (SAME : forall n, fupd g h (g h) n = g n).
      { intros n. destruct (Nat.eq_dec n h) as [->|Q]; [apply fupd_same|apply fupd_other; auto]. }
      assert (TM : forall n, tc (fupd (f_pc s) t (G3 h)) NT n = tc (f_pc s) NT n + if Nat.eqb h n then 1 else 0).
      { intros n. rewrite tc_upd by auto. rewrite EP. unfold tmp. cbn. lia. }
      split; [|apply (hist_keep _ _ g); [auto|apply (quiet_ev _ t); auto|intros n; now rewrite SAME]].
      destruct HI as [C1 C2 C3 C4 C5 C6 C7 C8 C9]. constructor; cbn [f_head f_refs f_next f_pc set_pc set_refs]; auto.
      * intros n. now rewrite SAME.
      * intros t' n r0. rewrite SAME, <- C4. destruct (Nat.eq_dec t' t) as [->|Q]; [rewrite fupd_same, EP|rewrite fupd_other by auto]; reflexivity.
      * intros t' B'. rewrite fupd_other by lia. auto.
      * intros n. rewrite SAME, TM. destruct (Nat.eqb_spec h n) as [<-|Q].
        -- rewrite fupd_same. rewrite u32_id. { rewrite <- RE, C6. lia. }
           rewrite <- RE, C6. pose proof (TR h). destruct (g h) as [| | |[] ?]; cbn [weight]; lia.
        -- rewrite fupd_other by auto. rewrite C6. lia.
      * intros n. rewrite SAME, TM. intros G. specialize (C7 _ G). destruct (_ =? _)%nat; lia.
      * intros n u. rewrite SAME, TM. intros G. destruct (Nat.eqb_spec h n) as [<-|Q]; [now destruct (NA u)|]. rewrite (C8 _ _ G). lia.
      * intros t' n y. destruct (Nat.eq_dec t' t) as [->|Q]; [rewrite fupd_same; discriminate|rewrite fupd_other by auto]; eauto.
    + (* G3 *) do 2 eexists. split; [reflexivity|]. exists g, L. split; [|apply (hist_keep _ _ g); [auto|apply (quiet_ev _ t); auto|reflexivity]].
      apply finv_pc; auto; rewrite ?EP; cbn; auto. intros n x E. now inv E.
    + (* G4 *)
      destruct (optn_eqb (f_head s) (Some h)) eqn:EH.
      * apply optn_eqb_spec in EH.
        assert (NX : f_next s h = nx) by (apply (i_next _ _ _ HI t); rewrite EP; reflexivity).
        pose proof (i_chain _ _ _ HI) as CH. rewrite EH in CH. inversion CH as [|? L' CH']; subst.
        assert (GE : g h = OnL) by (apply (i_onl _ _ _ HI); now left).
        do 2 eexists. split; [reflexivity|]. exists (fupd g h (Own Taken t)), L'.
        pose proof (i_nodup _ _ _ HI) as ND. inversion ND as [|? ? ND1 ND2]; subst.
        split; [|apply (hist_keep _ _ g); [auto|apply (quiet_ev _ t); auto|apply fupd_out; congruence]].
        unfold set_pc, set_head; cbn [f_head f_refs f_next f_pc]. apply (finv_step s g (h :: L')); auto; rewrite ?EP; unfold tmp; cbn [roleof tempof nextof weight]; rewrite ?R2, ?Nat.eqb_refl; eauto; try discriminate.
        -- left. split; auto. rewrite GE. discriminate.
        -- rewrite (i_refs _ _ _ HI), GE. cbn [weight]. lia.
        -- intros m. destruct (Nat.eq_dec m h) as [->|Q]; [rewrite fupd_same; split; [tauto|discriminate]|rewrite fupd_other by auto].
           rewrite <- (i_onl _ _ _ HI). cbn. intuition congruence.
      * do 2 eexists. split; [reflexivity|]. exists g, L. split; [|apply (hist_keep _ _ g); [auto|apply (quiet_ev _ t); auto|reflexivity]].
        apply finv_pc; auto; rewrite ?EP; cbn; auto; discriminate.
    + (* G5 *)
      assert (GE : g h = Own Taken t) by (apply (i_role _ _ _ HI); rewrite EP; reflexivity).
      assert (RF : f_refs s h = 1 + tc (f_pc s) NT h) by (rewrite (i_refs _ _ _ HI), GE; cbn [weight]; lia).
      rewrite flag_clear by (pose proof (TR h); lia). cbn [Z.eqb].
      do 2 eexists. split; [reflexivity|]. exists g, L. split; [|apply (hist_keep _ _ g); [auto|apply (quiet_ev _ t); auto|reflexivity]].
      apply finv_pc; auto; rewrite ?EP; cbn; auto; discriminate.
    + (* G5' *)
      assert (GE : g h = Own Taken t) by (apply (i_role _ _ _ HI); rewrite EP; reflexivity).
      assert (RF : f_refs s h = 1 + tc (f_pc s) NT h) by (rewrite (i_refs _ _ _ HI), GE; cbn [weight]; lia).
      assert (T1 : 1 <= tc (f_pc s) NT h) by (apply (tempof_lt s g L t); auto; now rewrite EP).
      do 2 eexists. split; [reflexivity|]. exists (fupd g h Out), L. split.
      * unfold set_pc, set_refs; cbn [f_head f_refs f_next f_pc]. apply (finv_step s g L); auto; rewrite ?EP; unfold tmp; cbn [roleof tempof nextof weight]; rewrite ?R2, ?Nat.eqb_refl; eauto; try discriminate.
        -- left. split; auto. discriminate.
        -- intros m Q. now rewrite fupd_other.
        -- rewrite fupd_same. pose proof (TR h). rewrite u32_id; lia.
        -- apply (i_chain _ _ _ HI).
        -- apply (i_nodup _ _ _ HI).
        -- intros m. destruct (Nat.eq_dec m h) as [->|Q]; [rewrite fupd_same|rewrite fupd_other by auto]; rewrite (i_onl _ _ _ HI); [rewrite GE; split; discriminate|tauto].
      * intros m. destruct (HO m) as [H1 H2]. unfold outside, inside in *. rewrite adds_app, gots_app. destruct (Nat.eq_dec m h) as [->|Q].
        -- rewrite fupd_same. assert (gots h [EGot t h] = 1%nat) as -> by (unfold gots; cbn; now rewrite Nat.eqb_refl).
           assert (adds h [EGot t h] = 0%nat) as -> by reflexivity. specialize (H2 ltac:(congruence)). split; [lia|congruence].
        -- rewrite fupd_other by auto. assert (E : (h =? m)%nat = false) by (apply Nat.eqb_neq; auto).
           assert (gots m [EGot t h] = 0%nat) as -> by (unfold gots; cbn; now rewrite E).
           assert (adds m [EGot t h] = 0%nat) as -> by reflexivity. rewrite !Nat.add_0_r. auto.
    + (* G6 *)
      assert (T1 : 1 <= tc (f_pc s) NT p) by (apply (tempof_lt s g L t); auto; now rewrite EP).
      assert (NA : forall u, g p <> Own AddE u) by (intros u GE; pose proof (i_early _ _ _ HI _ _ GE); lia).
      pose proof (i_refs _ _ _ HI p) as RF.
      assert (RW : u32 (f_refs s p - 1) = f_refs s p - 1).
      { apply u32_id. rewrite RF. pose proof (TR p). destruct (g p) as [| | |[] ?]; cbn [weight]; lia. }
      destruct (Z.eqb_spec (f_refs s p) (FLAG + 1)) as [Z0|Z0].
      * assert (GE : g p = Pend).
        { rewrite RF in Z0. pose proof (TR p). destruct (g p) as [| | |[] u] eqn:GG; cbn [weight] in Z0; auto; try lia. now destruct (NA u). }
        rewrite GE in RF. cbn [weight] in RF. do 2 eexists. split; [reflexivity|]. exists (fupd g p (Own AddE t)), L.
        split; [|apply (hist_keep _ _ g); [auto|apply (quiet_ev _ t); auto|apply fupd_out; congruence]].
        unfold set_pc, set_refs; cbn [f_head f_refs f_next f_pc]. apply (finv_step s g L); auto; rewrite ?EP; unfold tmp; cbn [roleof tempof nextof weight]; rewrite ?R2, ?Nat.eqb_refl; eauto; try discriminate.
        -- left. split; auto. rewrite GE. discriminate.
        -- intros m Q. now rewrite fupd_other.
        -- rewrite fupd_same, RW. lia.
        -- intros u _. lia.
        -- apply (i_chain _ _ _ HI).
        -- apply (i_nodup _ _ _ HI).
        -- intros m. destruct (Nat.eq_dec m p) as [->|Q]; [rewrite fupd_same|rewrite fupd_other by auto]; rewrite (i_onl _ _ _ HI); [rewrite GE; split; discriminate|tauto].
      * destruct (loop (set_refs s p (f_refs s p - 1)) t hd) as [s' l'] eqn:LP.
        do 2 eexists. split; [reflexivity|]. destruct (loop_form _ _ _ _ _ LP) as (q & (R1 & R2 & R3) & -> & EV).
        exists (fupd g p (g p)), L.
        assert (SAME : forall n, fupd g p (g p) n = g n).
        { intros n. destruct (Nat.eq_dec n p) as [->|Q]; [apply fupd_same|apply fupd_other; auto]. }
        split; [|apply (hist_keep _ _ g); [auto|apply (quiet_ev _ t); tauto|intros n; now rewrite SAME]].
        assert (TM : forall n, tc (fupd (f_pc s) t q) NT n = tc (f_pc s) NT n - if Nat.eqb p n then 1 else 0).
        { intros n. rewrite tc_upd by auto. rewrite EP. unfold tmp. cbn. rewrite R2. lia. }
        destruct HI as [C1 C2 C3 C4 C5 C6 C7 C8 C9]. constructor; cbn [f_head f_refs f_next f_pc set_pc set_refs]; auto.
        -- intros n. now rewrite SAME.
        -- intros t' n r0. rewrite SAME, <- C4. destruct (Nat.eq_dec t' t) as [->|Q]; [rewrite fupd_same, EP, R1|rewrite fupd_other by auto]; reflexivity.
        -- intros t' B'. rewrite fupd_other by lia. auto.
        -- intros n. rewrite SAME, TM. destruct (Nat.eqb_spec p n) as [<-|Q].
           ++ rewrite fupd_same, RW, C6. lia.
           ++ rewrite fupd_other by auto. rewrite C6. lia.
        -- intros n. rewrite SAME, TM. intros G. pose proof (C7 _ G). destruct (Nat.eqb_spec p n) as [<-|Q]; [|lia].
           rewrite G in RF. cbn [weight] in RF. lia.
        -- intros n u. rewrite SAME, TM. intros G. destruct (Nat.eqb_spec p n) as [<-|Q]; [now destruct (NA u)|]. rewrite (C8 _ _ G). lia.
        -- intros t' n y. destruct (Nat.eq_dec t' t) as [->|Q]; [rewrite fupd_same, R3; discriminate|rewrite fupd_other by auto]; eauto.
Qed.

Lemma fl0_inv : finv fl0 (fun _ => Out) [].
Proof.
  constructor; cbn; auto; try constructor; try discriminate; try contradiction.
  - intros n. rewrite tc_zero; auto.
Qed.

Lemma fhist_inv p l s : fhist NT p l s -> exists g L, finv s g L /\ hist_ok l g.
Proof.
  induction 1 as [|p l s a s' l' _ (g & L & HI & HO) B OUT E].
  - exists (fun _ => Out), []. split; [apply fl0_inv|]. intros n. split; [reflexivity|congruence].
  - destruct (fact_inv _ _ _ _ _ HI HO B OUT) as [N|(s2 & l2 & E2 & g' & L' & HI' & HO')]; [congruence|].
    rewrite E in E2. inv E2. eauto.
Qed.
End I.
