(** The ring list refines, for every list, the sequence of its nodes. *)
From Verif.Model Require Import Common Lists.
From Verif.Spec Require Import ListSpec.
From Verif.Proofs Require Import Tac.
Open Scope Z_scope.

(** ** Adjacency *)
Lemma adj_nil a b : ~ adj a b [].
Proof. intros (l1 & l2 & E). destruct l1; discriminate. Qed.
Lemma adj_one a b x : ~ adj a b [x].
Proof. intros (l1 & l2 & E). destruct l1 as [|y [|z l1]]; discriminate. Qed.
Lemma adj_cons a b x y l : adj a b (x :: y :: l) <-> (a = x /\ b = y) \/ adj a b (y :: l).
Proof.
  split.
  - intros (l1 & l2 & E). destruct l1 as [|z l1]; cbn in E; inv E.
    + now left.
    + right. now exists l1, l2.
  - intros [[-> ->]|(l1 & l2 & E)].
    + now exists [], l.
    + exists (x :: l1), l2. cbn. now rewrite E.
Qed.
Lemma adj_split a b l x l' : adj a b (l ++ x :: l') <-> adj a b (l ++ [x]) \/ adj a b (x :: l').
Proof.
  induction l as [|y l IH]; cbn [app].
  - split; [now right|]. intros [K|K]; auto. now destruct (adj_one _ _ _ K).
  - destruct l as [|z l]; cbn [app] in *.
    + rewrite !adj_cons. split; [intros [K|K]; auto|intros [[K|K]|K]; auto]. now destruct (adj_one _ _ _ K).
    + rewrite !(adj_cons a b y z). rewrite IH. tauto.
Qed.
Lemma adj_snoc a b l x y : adj a b (l ++ [x; y]) <-> adj a b (l ++ [x]) \/ (a = x /\ b = y).
Proof.
  rewrite adj_split. rewrite adj_cons. split; intros [K|K]; auto.
  destruct K as [K|K]; auto. now destruct (adj_one _ _ _ K).
Qed.
Lemma adj_in a b l : adj a b l -> In a l /\ In b l.
Proof. intros (l1 & l2 & ->). split; apply in_or_app; right; cbn; auto. Qed.
Lemma adj_in_tl a b x l : adj a b (x :: l) -> In b l.
Proof. intros (l1 & l2 & E). destruct l1; cbn in E; inv E; [now left|apply in_or_app; right; cbn; auto]. Qed.
Lemma adj_in_hd a b l x : adj a b (l ++ [x]) -> In a l.
Proof.
  intros (l1 & l2 & E). destruct (@exists_last _ (b :: l2) ltac:(discriminate)) as (l3 & z & F).
  rewrite F in E. change (l1 ++ a :: l3 ++ [z]) with (l1 ++ (a :: l3) ++ [z]) in E. rewrite app_assoc in E.
  apply app_inj_tail in E as [-> _]. apply in_or_app; right; now left.
Qed.

Lemma split_at e (l : list addr) : In e l -> NoDup l -> exists u v, l = u ++ e :: v /\ ~ In e u /\ ~ In e v.
Proof.
  intros K N. apply in_split in K as (u & v & ->). exists u, v. split; auto.
  apply NoDup_remove_2 in N. split; intro; apply N; apply in_or_app; auto.
Qed.
Lemma filter_out e (l : list addr) : ~ In e l -> filter (fun x => negb (Nat.eqb x e)) l = l.
Proof.
  induction l as [|x l IH]; intros N; auto. cbn [filter]. destruct (Nat.eqb_spec x e) as [->|Q]; [now destruct N; left|].
  cbn [negb]. rewrite IH; auto. intro; apply N; now right.
Qed.
Lemma filter_split e u (v : list addr) : ~ In e u -> ~ In e v -> filter (fun x => negb (Nat.eqb x e)) (u ++ e :: v) = u ++ v.
Proof.
  intros U V. rewrite filter_app. cbn [filter]. rewrite Nat.eqb_refl. cbn [negb]. now rewrite !filter_out.
Qed.
Lemma map_out n o (l : list addr) : ~ In o l -> map (fun x => if Nat.eqb x o then n else x) l = l.
Proof.
  induction l as [|x l IH]; intros N; auto. cbn [map]. destruct (Nat.eqb_spec x o) as [->|Q]; [now destruct N; left|].
  rewrite IH; auto. intro; apply N; now right.
Qed.

(** Last element of a non-empty list given as head and tail; first element of a list ended by a sentinel. *)
Lemma last_cut x (l : list addr) : exists u p, x :: l = u ++ [p].
Proof. destruct (@exists_last _ (x :: l) ltac:(discriminate)) as (u & p & E). eauto. Qed.
Lemma first_cut (l : list addr) x : exists p v, l ++ [x] = p :: v.
Proof. destruct l; cbn; eauto. Qed.

Lemma upd_same {A} (f : addr -> A) a x : upd f a x a = x.
Proof. unfold upd. now rewrite Nat.eqb_refl. Qed.
Lemma upd_other {A} (f : addr -> A) a x b : b <> a -> upd f a x b = f b.
Proof. unfold upd. intros. destruct (Nat.eqb_spec b a); congruence. Qed.
Lemma set_c_same c r l : set_c c r l r = l.
Proof. unfold set_c. now rewrite Nat.eqb_refl. Qed.
Lemma set_c_other c r l r' : r' <> r -> set_c c r l r' = c r'.
Proof. unfold set_c. intros. destruct (Nat.eqb_spec r' r); congruence. Qed.

Section Ring.
Variables (h : heap) (roots : list addr) (c : contents).
Hypothesis HO : holds h roots c.

Lemma ring_members r a b : In r roots -> adj a b (r :: c r ++ [r]) -> In a (r :: c r) /\ In b (r :: c r).
Proof.
  intros R A. destruct (adj_in _ _ _ A) as [X Y]. cbn in *. rewrite in_app_iff in *. cbn in *. tauto.
Qed.

(** A cut of a ring into what precedes and follows one of its nodes. *)
Lemma ring_cut r e : In r roots -> In e (c r) ->
  exists u v l p x w, c r = u ++ e :: v /\ r :: u = l ++ [p] /\ v ++ [r] = x :: w /\ ~ In e u /\ ~ In e v /\ e <> r /\
    l_next h p = Some e /\ l_pre h e = Some p /\ l_next h e = Some x /\ l_pre h x = Some e.
Proof.
  intros R E. pose proof (ho_nodup _ _ _ HO r R) as N.
  inversion N as [|? ? NI ND]; subst.
  destruct (split_at e (c r) E ND) as (u & v & C & U & V).
  destruct (last_cut r u) as (l & p & L). destruct (first_cut v r) as (x & w & X).
  exists u, v, l, p, x, w. repeat (split; [now auto|]).
  split. { intros ->. apply NI. now rewrite C; apply in_or_app; right; left. }
  assert (P : adj p e (r :: c r ++ [r])).
  { rewrite C. exists l, (v ++ [r]). rewrite app_comm_cons. rewrite app_comm_cons, L. now rewrite <- !app_assoc. }
  assert (Q : adj e x (r :: c r ++ [r])).
  { rewrite C. exists (r :: u), w. cbn. rewrite <- app_assoc. cbn. now rewrite X. }
  destruct (ho_ring _ _ _ HO r _ _ R P). destruct (ho_ring _ _ _ HO r _ _ R Q). auto.
Qed.
End Ring.

Lemma new_holds h roots c r : holds h roots c -> ~ on_list roots c r -> holds (new_list r h) (r :: roots) (set_c c r []).
Proof.
  intros HO F.
  assert (NR : forall r', In r' roots -> r' <> r).
  { intros r' R ->. apply F. exists r. split; auto. now left. }
  constructor.
  - intros r' [<-|R].
    + rewrite set_c_same. constructor; [auto|constructor].
    + rewrite set_c_other; auto. now apply (ho_nodup _ _ _ HO).
  - intros r1 r2 a [<-|R1] [<-|R2]; try rewrite !set_c_same; auto.
    + rewrite set_c_other by auto. intros [<-|[]] K. destruct F. now exists r2.
    + rewrite set_c_other by auto. intros K [<-|[]]. destruct F. now exists r1.
    + rewrite !set_c_other by auto. now apply (ho_disj _ _ _ HO).
  - intros r' a b [<-|R] A.
    + rewrite set_c_same in A. cbn in A. rewrite adj_cons in A. destruct A as [[-> ->]|A]; [|now destruct (adj_one _ _ _ A)].
      cbn. now rewrite !upd_same.
    + rewrite set_c_other in A by auto. destruct (ring_members _ _ _ _ _ R A) as [X Y].
      assert (a <> r) by (intros ->; apply F; now exists r'). assert (b <> r) by (intros ->; apply F; now exists r').
      cbn. rewrite !upd_other by auto. now apply (ho_ring _ _ _ HO r').
  - intros a NA. assert (a <> r). { intros ->. apply NA. exists r. split; now left. }
    cbn. rewrite !upd_other by auto. apply (ho_free _ _ _ HO). intros (r' & R & K). apply NA. exists r'.
    split; [now right|]. rewrite set_c_other; auto.
Qed.


(** Giving the list [r] another sequence of nodes. *)
Lemma reshape h h' roots c r s : holds h roots c -> In r roots -> NoDup (r :: s) ->
  (forall a, In a s -> In a (c r) \/ ~ on_list roots c a) ->
  (forall a b, adj a b (r :: s ++ [r]) -> l_next h' a = Some b /\ l_pre h' b = Some a) ->
  (forall a, ~ In a (r :: c r) -> ~ In a s -> l_next h' a = l_next h a /\ l_pre h' a = l_pre h a) ->
  (forall a, In a (c r) -> ~ In a s -> l_next h' a = None /\ l_pre h' a = None) ->
  holds h' roots (set_c c r s).
Proof.
  intros HO R N NEW RING SAME GONE.
  assert (X : forall r' a, In r' roots -> In a (r' :: set_c c r s r') -> (r' = r /\ In a s) \/ In a (r' :: c r')).
  { intros r' a R' K. destruct (Nat.eq_dec r' r) as [->|Q].
    - rewrite set_c_same in K. destruct K as [K|K]; [right; now left|auto].
    - rewrite set_c_other in K; auto. }
  assert (D : forall r' a, In r' roots -> r' <> r -> In a (r' :: c r') -> ~ In a (r :: c r) /\ ~ In a s).
  { intros r' a R' Q K. assert (~ In a (r :: c r)) by (intros K'; apply Q; now apply (ho_disj _ _ _ HO r' r a)).
    split; auto. intros K'. destruct (NEW _ K') as [?|F]; [now auto using in_cons|]. apply F. now exists r'. }
  constructor.
  - intros r' R'. destruct (Nat.eq_dec r' r) as [->|Q]; [now rewrite set_c_same|].
    rewrite set_c_other by auto. now apply (ho_nodup _ _ _ HO).
  - intros r1 r2 a R1 R2 K1 K2. apply X in K1; auto. apply X in K2; auto.
    destruct (Nat.eq_dec r1 r) as [->|Q1], (Nat.eq_dec r2 r) as [->|Q2]; auto.
    + destruct K2 as [[? _]|K2]; [congruence|]. destruct (D _ _ R2 Q2 K2). destruct K1 as [[_ ?]|?]; tauto.
    + destruct K1 as [[? _]|K1]; [congruence|]. destruct (D _ _ R1 Q1 K1). destruct K2 as [[_ ?]|?]; tauto.
    + destruct K1 as [[? _]|K1]; [congruence|]. destruct K2 as [[? _]|K2]; [congruence|].
      now apply (ho_disj _ _ _ HO r1 r2 a).
  - intros r' a b R' A. destruct (Nat.eq_dec r' r) as [->|Q].
    + rewrite set_c_same in A. auto.
    + rewrite set_c_other in A by auto. destruct (ring_members _ _ _ _ _ R' A) as [XA XB].
      destruct (D _ _ R' Q XA) as [D1 D2]. destruct (D _ _ R' Q XB) as [D3 D4].
      rewrite (proj1 (SAME a D1 D2)), (proj2 (SAME b D3 D4)). now apply (ho_ring _ _ _ HO r').
  - intros a NA.
    assert (NS : ~ In a s). { intros K. apply NA. exists r. split; auto. rewrite set_c_same. now right. }
    assert (NR : a <> r). { intros ->. apply NA. exists r. split; auto. now left. }
    destruct (in_dec Nat.eq_dec a (c r)) as [K|K]; [now apply GONE|].
    assert (NC : ~ In a (r :: c r)) by (intros [?|?]; congruence || tauto).
    destruct (SAME a NC NS) as [-> ->]. apply (ho_free _ _ _ HO).
    intros (r' & R' & K'). destruct (Nat.eq_dec r' r) as [->|Q]; [tauto|].
    apply NA. exists r'. split; auto. now rewrite set_c_other.
Qed.

Lemma nodup_snoc (l : list addr) e : NoDup l -> ~ In e l -> NoDup (l ++ [e]).
Proof.
  intros N F. apply NoDup_rev in N. rewrite <- (rev_involutive (l ++ [e])). apply NoDup_rev. rewrite rev_app_distr.
  constructor; auto. intros K. apply F. now apply in_rev.
Qed.

Lemma append_holds h roots c r e : holds h roots c -> In r roots -> ~ on_list roots c e ->
  exists h', append r e h = Ok h' /\ holds h' roots (set_c c r (c r ++ [e])) /\ l_size h' = upd (l_size h) r (size_t (l_size h r + 1)).
Proof.
  intros HO R F. destruct (last_cut r (c r)) as (l & p & L).
  assert (P : l_next h p = Some r /\ l_pre h r = Some p).
  { apply (ho_ring _ _ _ HO r); auto. rewrite app_comm_cons, L. exists l, []. now rewrite <- app_assoc. }
  destruct P as [P1 P2].
  assert (PI : In p (r :: c r)). { rewrite L. apply in_or_app; right; now left. }
  assert (EI : ~ In e (r :: c r)). { intros K. apply F. now exists r. }
  assert (PE : p <> e) by (intros ->; auto).
  assert (RE : r <> e) by (intros ->; apply EI; now left).
  pose proof (ho_nodup _ _ _ HO r R) as N.
  unfold append, insert_before. cbn -[upd]. rewrite (upd_other _ e) by auto. rewrite P2. cbn -[upd].
  eexists. split; [reflexivity|]. split; [|reflexivity].
  apply (reshape h); auto; cbn [l_next l_pre l_size set_pre set_next set_size].
  - rewrite app_comm_cons. now apply nodup_snoc.
  - intros a K. apply in_app_or in K as [K|[<-|[]]]; auto.
  - intros a b A. rewrite <- app_assoc in A. cbn [app] in A.
    rewrite app_comm_cons in A. rewrite L in A. rewrite <- app_assoc in A. cbn [app] in A.
    rewrite adj_split, adj_cons in A. rewrite adj_cons in A.
    destruct A as [A|[[-> ->]|[[-> ->]|A]]]; [| | |now destruct (adj_one _ _ _ A)].
    + rewrite L in N. pose proof (adj_in_hd _ _ _ _ A) as AI.
      assert (a <> p). { intros ->. apply NoDup_remove_2 in N. apply N. now rewrite app_nil_r. }
      assert (b <> r). { intros ->. rewrite <- L in A. apply adj_in_tl in A. rewrite <- L in N. now inversion N. }
      assert (In a (r :: c r)) by (rewrite L; apply in_or_app; auto).
      assert (In b (r :: c r)) by (rewrite L; apply (adj_in _ _ _ A)).
      rewrite !upd_other by (intros ->; auto). apply (ho_ring _ _ _ HO r); auto. rewrite app_comm_cons, L.
      rewrite <- app_assoc. cbn [app]. rewrite adj_split. now left.
    + rewrite upd_same. rewrite upd_other by congruence. rewrite upd_same. auto.
    + rewrite (upd_other _ p) by auto. now rewrite !upd_same.
  - intros a K1 K2. assert (a <> e) by (intros ->; apply K2; apply in_or_app; right; now left).
    rewrite !upd_other; auto; intros ->; apply K1; auto. now left.
  - intros a K1 K2. destruct K2. apply in_or_app; auto.
Qed.

Lemma remove_holds h roots c r e : holds h roots c -> In r roots -> In e (c r) ->
  exists h', remove_from_list e h = Ok h' /\ holds h' roots (set_c c r (filter (fun x => negb (Nat.eqb x e)) (c r))) /\ l_size h' = l_size h.
Proof.
  intros HO R E. destruct (ring_cut _ _ _ HO _ _ R E) as (u & v & l & p & x & w & C & L & X & U & V & ER & H1 & H2 & H3 & H4).
  rewrite C, filter_split by auto.
  pose proof (ho_nodup _ _ _ HO r R) as N. rewrite C in N.
  assert (N' : NoDup (r :: u ++ v)). { rewrite app_comm_cons in *. now apply NoDup_remove_1 in N. }
  assert (NE : ~ In e (r :: u ++ v)). { rewrite app_comm_cons in *. now apply NoDup_remove_2 in N. }
  assert (PI : In p (r :: u)) by (rewrite L; apply in_or_app; right; now left).
  assert (XI : In x (v ++ [r])) by (rewrite X; now left).
  assert (PE : p <> e). { intros ->. apply NE. rewrite app_comm_cons. apply in_or_app; auto. }
  assert (XE : x <> e). { intros ->. apply NE. apply in_app_or in XI as [XI|[->|[]]]; [right; apply in_or_app; auto|now left]. }
  unfold remove_from_list. rewrite H2. cbn -[upd]. rewrite (upd_other _ p) by auto. rewrite H3. cbn -[upd]. rewrite H2.
  eexists. split; [reflexivity|]. split; [|reflexivity].
  apply (reshape h); auto; cbn [l_next l_pre l_size set_pre set_next set_size].
  - intros a K. left. rewrite C. apply in_app_or in K as [K|K]; apply in_or_app; auto. right. now right.
  - intros a b A. rewrite <- app_assoc in A. rewrite X in A. rewrite app_comm_cons, L in A. rewrite <- app_assoc in A. cbn [app] in A.
    rewrite adj_split, adj_cons in A.
    assert (OLD : adj a b (r :: u) \/ adj a b (x :: w) -> adj a b (r :: c r ++ [r])).
    { rewrite C. rewrite <- app_assoc. cbn [app]. rewrite X. intros [(l1 & l2 & O)|O].
      - rewrite app_comm_cons. rewrite O. exists l1, (l2 ++ e :: x :: w). rewrite <- app_assoc. reflexivity.
      - rewrite app_comm_cons. rewrite adj_split. right. rewrite adj_cons. now right. }
    destruct A as [A|[[-> ->]|A]].
    + rewrite <- L in A. destruct (adj_in _ _ _ A) as [AI BI]. pose proof (adj_in_tl _ _ _ _ A) as BU.
      assert (a <> p). { intros ->. rewrite L in A. apply adj_in_hd in A. rewrite app_comm_cons, L in N'.
        rewrite <- app_assoc in N'. cbn [app] in N'. apply NoDup_remove_2 in N'. apply N'. apply in_or_app; auto. }
      assert (b <> x). { intros ->. apply in_app_or in XI as [XI|[->|[]]].
        - inversion N' as [|? ? _ N2]; subst. apply in_split in BU as (u1 & u2 & ->). rewrite <- app_assoc in N2. cbn [app] in N2.
          apply NoDup_remove_2 in N2. apply N2. apply in_or_app; right; apply in_or_app; auto.
        - inversion N' as [|? ? N1 _]; subst. apply N1. apply in_or_app; auto. }
      assert (a <> e) by (intros ->; apply NE; rewrite app_comm_cons; apply in_or_app; auto).
      assert (b <> e) by (intros ->; apply NE; rewrite app_comm_cons; apply in_or_app; auto).
      rewrite !upd_other by auto. apply (ho_ring _ _ _ HO r); auto.
    + rewrite (upd_other _ e) by auto. rewrite upd_same. rewrite (upd_other _ e) by auto. rewrite upd_same. auto.
    + pose proof (adj_in_tl _ _ _ _ A) as BW. assert (A' := A). rewrite <- X in A'. pose proof (adj_in_hd _ _ _ _ A') as AV.
      assert (AP : a <> p). { intros ->. rewrite app_comm_cons in N'.
        apply in_split in AV as (v1 & v2 & ->). rewrite app_assoc in N'. apply NoDup_remove_2 in N'.
        apply N'. apply in_or_app; left. apply in_or_app; now left. }
      assert (BX : b <> x). { intros ->. destruct v as [|y v]; [destruct AV|]. cbn in X. injection X as -> <-.
        apply in_app_or in BW as [BW|[->|[]]].
        - inversion N' as [|? ? _ N2]; subst. apply NoDup_remove_2 in N2. apply N2. apply in_or_app; auto.
        - inversion N' as [|? ? N1 _]; subst. apply N1. apply in_or_app; right; now left. }
      assert (a <> e) by (intros ->; auto).
      assert (b <> e). { intros ->. assert (K : In e (x :: w)) by now right. rewrite <- X in K.
        apply in_app_or in K as [K|[K|[]]]; congruence || auto. }
      rewrite !upd_other by auto. apply (ho_ring _ _ _ HO r); auto.
  - intros a K1 K2. rewrite C in K1.
    assert (a <> e) by (intros ->; apply K1; right; apply in_or_app; right; now left).
    assert (a <> p). { intros ->. apply K1. rewrite app_comm_cons. apply in_or_app; auto. }
    assert (a <> x). { intros ->. apply K1. apply in_app_or in XI as [XI|[->|[]]]; [|now left]. right. apply in_or_app; right; now right. }
    now rewrite !upd_other.
  - intros a K1 K2. rewrite C in K1. assert (a = e). { apply in_app_or in K1 as [K1|[K1|K1]]; auto; destruct K2; apply in_or_app; auto. }
    subst. now rewrite !upd_same.
Qed.

Lemma move_holds h roots c n o : holds h roots c -> n <> o -> ~ on_list roots c n -> ~ In o roots ->
  exists h', move_node n o h = Ok h' /\ holds h' roots (fun r => map (fun x => if Nat.eqb x o then n else x) (c r)) /\ l_size h' = l_size h.
Proof.
  intros HO NO F OR.
  assert (EXT : forall h' c1 c2, (forall r, In r roots -> c1 r = c2 r) -> holds h' roots c1 -> holds h' roots c2).
  { intros h' c1 c2 Q [A B C D]. constructor.
    - intros r R. rewrite <- Q; auto.
    - intros r r' a R R'. rewrite <- !Q; auto. apply B; auto.
    - intros r a b R. rewrite <- Q; auto. intros; eapply C; eauto.
    - intros a NA. apply D. intros (r & R & K). apply NA. exists r. rewrite <- Q; auto. }
  destruct (ho_free _ _ _ HO n F) as [FN1 FN2].
  destruct (in_dec Nat.eq_dec o (concat (map c roots))) as [K|K].
  - apply in_concat in K as (l & KL & KO). apply in_map_iff in KL as (r & <- & R).
    destruct (ring_cut _ _ _ HO _ _ R KO) as (u & v & l & p & x & w & C & L & X & U & V & ER & H1 & H2 & H3 & H4).
    pose proof (ho_nodup _ _ _ HO r R) as N. rewrite C in N.
    assert (NE : ~ In o (r :: u ++ v)). { rewrite app_comm_cons in *. now apply NoDup_remove_2 in N. }
    assert (N' : NoDup (r :: u ++ v)). { rewrite app_comm_cons in *. now apply NoDup_remove_1 in N. }
    assert (FI : ~ In n (r :: c r)) by (intros Q; apply F; now exists r).
    assert (PI : In p (r :: u)) by (rewrite L; apply in_or_app; right; now left).
    assert (XI : In x (v ++ [r])) by (rewrite X; now left).
    assert (PO : p <> o). { intros ->. apply NE. rewrite app_comm_cons. apply in_or_app; auto. }
    assert (XO : x <> o). { intros ->. apply NE. apply in_app_or in XI as [XI|[->|[]]]; [right; apply in_or_app; auto|now left]. }
    assert (PN : p <> n). { intros ->. apply FI. rewrite C. rewrite app_comm_cons. apply in_or_app; auto. }
    assert (XN : x <> n). { intros ->. apply FI. rewrite C. apply in_app_or in XI as [XI|[->|[]]]; [right; apply in_or_app; right; now right|now left]. }
    unfold move_node. cbn -[upd]. rewrite (upd_other _ o _ n) by auto. rewrite upd_same. rewrite H3. cbn -[upd].
    rewrite (upd_other _ x) by auto. rewrite (upd_other _ o _ n) by auto. rewrite upd_same. rewrite H2. cbn -[upd].
    eexists. split; [reflexivity|]. split; [|reflexivity].
    apply (EXT _ (set_c c r (u ++ n :: v))).
    { intros r' R'. destruct (Nat.eq_dec r' r) as [->|Q].
      - rewrite set_c_same, C, map_app. cbn [map]. rewrite Nat.eqb_refl. now rewrite !map_out.
      - rewrite set_c_other by auto. rewrite map_out; auto. intros K. apply Q. apply (ho_disj _ _ _ HO r' r o); auto; now right. }
    apply (reshape h); auto; cbn [l_next l_pre l_size set_pre set_next set_size].
    + rewrite app_comm_cons in *. apply NoDup_Add with (l := (r :: u) ++ v) (a := n); [apply Add_app|]. split; auto.
      intros Q. apply FI. rewrite C. rewrite app_comm_cons. apply in_app_or in Q as [Q|Q]; apply in_or_app; auto. right; now right.
    + intros a Q. apply in_app_or in Q as [Q|[<-|Q]]; auto; left; rewrite C; apply in_or_app; auto. right; now right.
    + intros a b A. rewrite <- app_assoc in A. cbn [app] in A. rewrite X in A. rewrite app_comm_cons, L in A. rewrite <- app_assoc in A. cbn [app] in A.
      rewrite adj_split, adj_cons, adj_cons in A.
      assert (OLD : adj a b (r :: u) \/ adj a b (x :: w) -> adj a b (r :: c r ++ [r])).
      { rewrite C. rewrite <- app_assoc. cbn [app]. rewrite X. intros [(l1 & l2 & O)|O].
        - rewrite app_comm_cons. rewrite O. exists l1, (l2 ++ o :: x :: w). rewrite <- app_assoc. reflexivity.
        - rewrite app_comm_cons. rewrite adj_split. right. rewrite adj_cons. now right. }
      assert (RB : forall z, In z (r :: u ++ v) -> z <> o /\ z <> n).
      { intros z Z. split; intros ->; auto. apply FI. rewrite C. rewrite app_comm_cons in *. apply in_app_or in Z as [Z|Z]; apply in_or_app; auto. right; now right. }
      destruct A as [A|[[-> ->]|[[-> ->]|A]]].
      * rewrite <- L in A. destruct (adj_in _ _ _ A) as [AI BI]. pose proof (adj_in_tl _ _ _ _ A) as BU.
        assert (a <> p). { intros ->. rewrite L in A. apply adj_in_hd in A. rewrite app_comm_cons, L in N'.
          rewrite <- app_assoc in N'. cbn [app] in N'. apply NoDup_remove_2 in N'. apply N'. apply in_or_app; auto. }
        assert (b <> x). { intros ->. apply in_app_or in XI as [XI|[->|[]]].
          - inversion N' as [|? ? _ N2]; subst. apply in_split in BU as (u1 & u2 & ->). rewrite <- app_assoc in N2. cbn [app] in N2.
            apply NoDup_remove_2 in N2. apply N2. apply in_or_app; right; apply in_or_app; auto.
          - inversion N' as [|? ? N1 _]; subst. apply N1. apply in_or_app; auto. }
        destruct (RB a) as [? ?]; [rewrite app_comm_cons; apply in_or_app; auto|].
        destruct (RB b) as [? ?]; [rewrite app_comm_cons; apply in_or_app; auto|].
        rewrite !upd_other by auto. apply (ho_ring _ _ _ HO r); auto.
      * rewrite upd_same. split; auto. rewrite (upd_other _ x _ n) by auto. rewrite (upd_other _ o _ n) by auto. now rewrite upd_same.
      * rewrite upd_same. split; auto. rewrite (upd_other _ p _ n) by auto. rewrite (upd_other _ o _ n) by auto. now rewrite upd_same.
      * pose proof (adj_in_tl _ _ _ _ A) as BW. assert (A' := A). rewrite <- X in A'. pose proof (adj_in_hd _ _ _ _ A') as AV.
        assert (AP : a <> p). { intros ->. rewrite app_comm_cons in N'.
          apply in_split in AV as (v1 & v2 & ->). rewrite app_assoc in N'. apply NoDup_remove_2 in N'.
          apply N'. apply in_or_app; left. apply in_or_app; now left. }
        assert (BX : b <> x). { intros ->. destruct v as [|y v]; [destruct AV|]. cbn in X. injection X as -> <-.
          apply in_app_or in BW as [BW|[->|[]]].
          - inversion N' as [|? ? _ N2]; subst. apply NoDup_remove_2 in N2. apply N2. apply in_or_app; auto.
          - inversion N' as [|? ? N1 _]; subst. apply N1. apply in_or_app; right; now left. }
        destruct (RB a) as [? ?]; [right; apply in_or_app; auto|].
        destruct (RB b) as [? ?]. { assert (Q : In b (x :: w)) by now right. rewrite <- X in Q.
          apply in_app_or in Q as [Q|[->|[]]]; [right; apply in_or_app; auto|now left]. }
        rewrite !upd_other by auto. apply (ho_ring _ _ _ HO r); auto.
    + intros a K1 K2. rewrite C in K1.
      assert (a <> o) by (intros ->; apply K1; right; apply in_or_app; right; now left).
      assert (a <> n) by (intros ->; apply K2; apply in_or_app; right; now left).
      assert (a <> p). { intros ->. apply K1. rewrite app_comm_cons. apply in_or_app; auto. }
      assert (a <> x). { intros ->. apply K1. apply in_app_or in XI as [XI|[->|[]]]; [|now left]. right. apply in_or_app; right; now right. }
      now rewrite !upd_other.
    + intros a K1 K2. rewrite C in K1. assert (a = o). { apply in_app_or in K1 as [K1|[K1|K1]]; auto; destruct K2; apply in_or_app; auto. right; now right. }
      subst. rewrite (upd_other _ p _ o), (upd_other _ x _ o) by auto. now rewrite !upd_same.
  - assert (FO : ~ on_list roots c o).
    { intros (r & R & [->|Q]); auto. apply K. apply in_concat. exists (c r). split; auto. apply in_map_iff. eauto. }
    destruct (ho_free _ _ _ HO o FO) as [FO1 FO2].
    unfold move_node. cbn -[upd]. rewrite (upd_other _ o _ n) by auto. rewrite upd_same. rewrite FO1.
    eexists. split; [reflexivity|]. split; [|reflexivity].
    apply (EXT _ c).
    { intros r R. rewrite map_out; auto. intros Q. apply FO. exists r. split; auto. now right. }
    destruct HO as [A B C D]. constructor; auto; cbn [l_next l_pre l_size set_pre set_next set_size].
    + intros r a b R A1. destruct (ring_members _ _ _ _ _ R A1) as [X Y].
      assert (a <> n) by (intros ->; apply F; now exists r). assert (a <> o) by (intros ->; apply FO; now exists r).
      assert (b <> n) by (intros ->; apply F; now exists r). assert (b <> o) by (intros ->; apply FO; now exists r).
      rewrite !upd_other by auto. now apply (C r).
    + intros a NA. destruct (D a NA) as [D1 D2]. unfold upd. rewrite FO2. split; destruct (a =? o)%nat, (a =? n)%nat; auto.
Qed.

Lemma first_spec h roots c r : holds h roots c -> In r roots ->
  first r h = Ok (hd_error (c r)) /\ empty r h = match c r with [] => true | _ => false end.
Proof.
  intros HO R. destruct (first_cut (c r) r) as (x & w & X).
  assert (A : l_next h r = Some x).
  { apply (proj1 (ho_ring _ _ _ HO r r x R (ex_intro _ [] (ex_intro _ w (f_equal (cons r) X))))). }
  pose proof (ho_nodup _ _ _ HO r R) as N. inversion N as [|? ? N1 _]; subst.
  unfold first, empty. rewrite A. destruct (c r) as [|y l]; cbn in X; [injection X as <- <-|injection X as -> _].
  - rewrite Nat.eqb_refl. auto.
  - destruct (Nat.eqb_spec x r) as [->|Q]; [destruct N1; now left|]. cbn. auto.
Qed.

Lemma lrun_holds h roots c o : holds h roots c -> allowed roots c o ->
  exists h', lrun o h = Ok h' /\ holds h' (roots_after roots o) (contents_after c o).
Proof.
  intros HO A. destruct o as [r|r e|r e|r|n o]; cbn [allowed lrun roots_after contents_after] in *.
  - eexists. split; [reflexivity|]. now apply new_holds.
  - destruct A as [R F]. destruct (append_holds _ _ _ _ _ HO R F) as (h' & E & H & _). eauto.
  - destruct A as [R F]. unfold remove.
    assert (HO' : holds (set_size h r (size_t (l_size h r - 1))) roots c) by (destruct HO; constructor; auto).
    destruct (remove_holds _ _ _ _ _ HO' R F) as (h' & E & H & _). eauto.
  - unfold pop_and_remove. destruct (first_spec _ _ _ _ HO A) as [-> _].
    destruct (c r) as [|e l] eqn:C; cbn [hd_error obind].
    + eexists. split; [reflexivity|]. cbn [tl]. destruct HO as [A1 B C1 D].
      assert (Q : forall r', set_c c r [] r' = c r') by (intros r'; unfold set_c; destruct (Nat.eqb_spec r' r); congruence).
      constructor.
      * intros r' R'. rewrite Q. auto.
      * intros r1 r2 a R1 R2. rewrite !Q. now apply B.
      * intros r' a b R'. rewrite Q. now apply C1.
      * intros a NA. apply D. intros (r' & R' & K). apply NA. exists r'. now rewrite Q.
    + assert (EI : In e (c r)) by (rewrite C; now left).
      destruct (remove_holds _ _ _ _ _ HO A EI) as (h' & -> & H & _). cbn [obind]. eexists. split; [reflexivity|].
      pose proof (ho_nodup _ _ _ HO r A) as N. rewrite C in *. cbn [filter] in H. rewrite Nat.eqb_refl in H. cbn [negb] in H.
      rewrite filter_out in H; [exact H|]. inversion N as [|? ? _ N2]; subst. now inversion N2.
  - destruct A as (NO & F & OR). destruct (move_holds _ _ _ _ _ HO NO F OR) as (h' & E & H & _). eauto.
Qed.

Lemma lhist_holds p h roots c : lhist p h roots c -> holds h roots c.
Proof.
  induction 1 as [|p h roots c o h' _ IH A E].
  - constructor; try contradiction; auto.
  - destruct (lrun_holds _ _ _ _ IH A) as (h2 & E2 & H). congruence.
Qed.

(** Number of nodes recorded, when nothing was ever popped. *)
Definition is_pop (o : lop) : bool := match o with LPop _ => true | _ => false end.
Lemma lhist_size p h roots c : lhist p h roots c -> forallb (fun o => negb (is_pop o)) p = true ->
  forall r, In r roots -> l_size h r = size_t (Z.of_nat (length (c r))).
Proof.
  induction 1 as [|p h roots c o h' L IH A E]; intros P r R; [destruct R|].
  rewrite forallb_app in P. apply andb_prop in P as [P1 P2]. specialize (IH P1). pose proof (lhist_holds _ _ _ _ L) as HO.
  destruct o as [r0|r0 e|r0 e|r0|n o]; cbn [allowed lrun roots_after contents_after] in *; try discriminate.
  - inv E. cbn -[upd]. destruct (Nat.eq_dec r r0) as [->|Q].
    + rewrite upd_same, set_c_same. reflexivity.
    + rewrite upd_other, set_c_other by auto. apply IH. destruct R; congruence || auto.
  - destruct A as [R0 F]. destruct (append_holds _ _ _ _ _ HO R0 F) as (h2 & E2 & _ & S). rewrite E in E2. inv E2. rewrite S.
    destruct (Nat.eq_dec r r0) as [->|Q].
    + rewrite upd_same, set_c_same, IH by auto. rewrite app_length. cbn [length]. unfold size_t. rewrite Nat2Z.inj_add.
      rewrite Zplus_mod_idemp_l. reflexivity.
    + rewrite upd_other, set_c_other by auto. auto.
  - destruct A as [R0 F]. unfold remove in E.
    assert (HO' : holds (set_size h r0 (size_t (l_size h r0 - 1))) roots c) by (destruct HO; constructor; auto).
    destruct (remove_holds _ _ _ _ _ HO' R0 F) as (h2 & E2 & _ & S). rewrite E in E2. inv E2. rewrite S. cbn -[upd].
    destruct (Nat.eq_dec r r0) as [->|Q].
    + rewrite upd_same, set_c_same, IH by auto. pose proof (ho_nodup _ _ _ HO r0 R0) as N. inversion N as [|? ? _ N2]; subst.
      destruct (split_at _ _ F N2) as (u & v & C & U & V). rewrite C, filter_split by auto. rewrite !app_length. cbn [length].
      unfold size_t. rewrite Zminus_mod_idemp_l. f_equal. lia.
    + rewrite upd_other, set_c_other by auto. auto.
  - destruct A as (NO & F & OR). destruct (move_holds _ _ _ _ _ HO NO F OR) as (h2 & E2 & _ & S). rewrite E in E2. inv E2.
    rewrite S, map_length. auto.
Qed.
