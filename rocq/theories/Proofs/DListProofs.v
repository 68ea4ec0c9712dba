(** The two-sentinel list refines, for every list, the sequence of its nodes. *)
From Verif.Model Require Import Common Lists.
From Verif.Spec Require Import ListSpec.
From Verif.Proofs Require Import Tac ListProofs.
Open Scope Z_scope.

Definition line (l : dlist) (s : list addr) : list addr := dl_head l :: s ++ [dl_tail l].

Lemma dset_c_same c i x : dset_c c i x i = x.
Proof. unfold dset_c. now rewrite Nat.eqb_refl. Qed.
Lemma dset_c_other c i x j : j <> i -> dset_c c i x j = c j.
Proof. unfold dset_c. intros. destruct (Nat.eqb_spec j i); congruence. Qed.
Lemma has_true n l : has n l = true <-> In n l.
Proof.
  unfold has. rewrite existsb_exists. split.
  - intros (x & K & E). b2p. now subst.
  - intros K. exists n. now rewrite Nat.eqb_refl.
Qed.
Lemma has_false n l : has n l = false <-> ~ In n l.
Proof. rewrite <- has_true. destruct (has n l); split; congruence. Qed.

Ltac dh := cbn [d_next d_pre d_hold d_size dset_pre dset_next dset_hold dset_size].

Lemma dreshape h h' ls c l s : dholds h ls c -> In l ls -> NoDup (line l s) ->
  (forall a, In a s -> In a (c (dl_id l)) \/ (forall l', In l' ls -> ~ In a (line l' (c (dl_id l'))))) ->
  (forall a b, adj a b (line l s) -> d_next h' a = Some b /\ d_pre h' b = Some a) ->
  (forall a, ~ In a (line l (c (dl_id l))) -> ~ In a s -> d_next h' a = d_next h a /\ d_pre h' a = d_pre h a) ->
  (forall a, In a s -> d_hold h' a = Some (dl_id l)) ->
  (forall a, In a (c (dl_id l)) -> ~ In a s -> d_hold h' a = None) ->
  (forall a, ~ In a (c (dl_id l)) -> ~ In a s -> d_hold h' a = d_hold h a) ->
  d_size h' (dl_id l) = Z.of_nat (length s) -> d_size h' (dl_id l) < 2 ^ 64 ->
  (forall i, i <> dl_id l -> d_size h' i = d_size h i) ->
  dholds h' ls (dset_c c (dl_id l) s).
Proof.
  intros HO R N NEW RING SAME HD1 HD2 HD3 SZ SB SO.
  assert (IDS : forall l', In l' ls -> l' <> l -> dl_id l' <> dl_id l).
  { intros l' R' Q E. apply Q. now apply (dh_ids _ _ _ HO). }
  assert (D : forall l' a, In l' ls -> l' <> l -> In a (line l' (c (dl_id l'))) -> ~ In a (line l (c (dl_id l))) /\ ~ In a s).
  { intros l' a R' Q K. assert (~ In a (line l (c (dl_id l)))) by (intros K'; apply Q; now apply (dh_disj _ _ _ HO l' l a)).
    split; auto. intros K'. destruct (NEW _ K') as [?|F]; [|now apply (F l')]. apply H. right. apply in_or_app; auto. }
  assert (NL : forall a, In a (line l s) -> In a s \/ In a (line l (c (dl_id l)))).
  { intros a [K|K]; [right; now left|]. apply in_app_or in K as [K|[K|[]]]; auto. right. right. apply in_or_app; right; now left. }
  assert (EQ : forall x y : dlist, x = y \/ x <> y).
  { intros [a1 b1 c1] [a2 b2 c2]. destruct (Nat.eq_dec a1 a2), (Nat.eq_dec b1 b2), (Nat.eq_dec c1 c2); subst; auto; right; congruence. }
  constructor.
  - intros l' R'. destruct (EQ l' l) as [->|Q]; [now rewrite dset_c_same|].
    rewrite dset_c_other by auto. now apply (dh_nodup _ _ _ HO).
  - intros l1 l2 a R1 R2 K1 K2. destruct (EQ l1 l) as [->|Q1], (EQ l2 l) as [->|Q2]; auto.
    + rewrite dset_c_same in K1. rewrite dset_c_other in K2 by auto. destruct (D _ _ R2 Q2 K2). apply NL in K1. tauto.
    + rewrite dset_c_same in K2. rewrite dset_c_other in K1 by auto. destruct (D _ _ R1 Q1 K1). apply NL in K2. tauto.
    + rewrite dset_c_other in K1, K2 by auto. now apply (dh_disj _ _ _ HO l1 l2 a).
  - apply (dh_ids _ _ _ HO).
  - intros l' a b R' A. destruct (EQ l' l) as [->|Q].
    + rewrite dset_c_same in A. now apply RING.
    + rewrite dset_c_other in A by auto. destruct (adj_in _ _ _ A) as [XA XB].
      destruct (D _ _ R' Q XA) as [D1 D2]. destruct (D _ _ R' Q XB) as [D3 D4].
      rewrite (proj1 (SAME a D1 D2)), (proj2 (SAME b D3 D4)). now apply (dh_chain _ _ _ HO l').
  - intros a i. destruct (in_dec Nat.eq_dec a s) as [K|K].
    + rewrite HD1 by auto. split.
      * intros E. inv E. exists l. rewrite dset_c_same. auto.
      * intros (l' & R' & <- & K'). destruct (EQ l' l) as [->|Q]; auto. rewrite dset_c_other in K' by auto.
        destruct (D l' a R' Q) as [_ ?]; [right; apply in_or_app; auto|tauto].
    + destruct (in_dec Nat.eq_dec a (c (dl_id l))) as [K2|K2].
      * rewrite HD2 by auto. split; [discriminate|]. intros (l' & R' & <- & K'). destruct (EQ l' l) as [->|Q].
        { rewrite dset_c_same in K'. tauto. }
        rewrite dset_c_other in K' by auto. destruct (D l' a R' Q) as [X _]; [right; apply in_or_app; auto|].
        destruct X. right. apply in_or_app; auto.
      * rewrite HD3 by auto. rewrite (dh_hold _ _ _ HO). split; intros (l' & R' & E & K'); subst i; exists l'; repeat split; auto.
        { destruct (EQ l' l) as [->|Q]; [tauto|]. rewrite dset_c_other; auto. }
        { destruct (EQ l' l) as [->|Q]; [rewrite dset_c_same in K'; tauto|]. rewrite dset_c_other in K'; auto. }
  - intros l' R'. destruct (EQ l' l) as [->|Q]; [rewrite dset_c_same; auto|].
    rewrite dset_c_other, SO by auto. now apply (dh_size _ _ _ HO).
Qed.

Lemma dcontents_ext h ls c c' : (forall i, c i = c' i) -> dholds h ls c -> dholds h ls c'.
Proof.
  intros Q [A B I C D E]. constructor; auto; intros.
  - rewrite <- Q. auto.
  - rewrite <- !Q in *. eapply B; eauto.
  - rewrite <- Q in *. eapply C; eauto.
  - rewrite <- Q. auto.
  - rewrite <- Q. auto.
Qed.

Lemma dnew_holds h ls c l : dholds h ls c -> dallowed ls c (DNew l) -> dholds (dnew l h) (l :: ls) (dset_c c (dl_id l) []).
Proof.
  intros HO [HT F].
  assert (Q : forall l', In l' ls -> dset_c c (dl_id l) [] (dl_id l') = c (dl_id l')).
  { intros l' R. apply dset_c_other. now destruct (F l' R). }
  assert (X : forall l' a, In l' ls -> In a (line l' (c (dl_id l'))) -> a <> dl_head l /\ a <> dl_tail l).
  { intros l' a R K. destruct (F l' R) as (_ & F1 & F2). split; intros ->; auto. }
  constructor.
  - intros l' [<-|R].
    + rewrite dset_c_same. constructor; [intros [E|[]]; congruence|]. constructor; [auto|constructor].
    + rewrite Q by auto. now apply (dh_nodup _ _ _ HO).
  - intros l1 l2 a [<-|R1] [<-|R2]; auto.
    + rewrite dset_c_same. rewrite Q by auto. cbn [app]. intros K1 K2. destruct (X _ _ R2 K2). destruct K1 as [?|[?|[]]]; congruence.
    + rewrite dset_c_same. rewrite Q by auto. cbn [app]. intros K1 K2. destruct (X _ _ R1 K1). destruct K2 as [?|[?|[]]]; congruence.
    + rewrite !Q by auto. now apply (dh_disj _ _ _ HO).
  - intros l1 l2 [<-|R1] [<-|R2] E; auto.
    + destruct (F l2 R2); congruence.
    + destruct (F l1 R1); congruence.
    + now apply (dh_ids _ _ _ HO).
  - intros l' a b [<-|R] A.
    + rewrite dset_c_same in A. cbn [app] in A. rewrite adj_cons in A. destruct A as [[-> ->]|A]; [|now destruct (adj_one _ _ _ A)].
      unfold dnew. dh. rewrite (upd_other _ (dl_tail l) _ (dl_head l)) by auto. rewrite upd_same.
      rewrite (upd_other _ (dl_head l) _ (dl_tail l)) by auto. now rewrite upd_same.
    + rewrite Q in A by auto. destruct (adj_in _ _ _ A) as [XA XB]. destruct (X _ _ R XA), (X _ _ R XB).
      unfold dnew. dh. rewrite !upd_other by auto. now apply (dh_chain _ _ _ HO l').
  - intros a i. unfold dnew. dh. destruct (Nat.eq_dec a (dl_tail l)) as [->|NT].
    { rewrite upd_same. split; [discriminate|]. intros (l' & [<-|R] & <- & K).
      - now rewrite dset_c_same in K.
      - rewrite Q in K by auto. destruct (X l' (dl_tail l) R); [right; apply in_or_app; auto|congruence]. }
    rewrite (upd_other _ (dl_tail l)) by auto.
    destruct (Nat.eq_dec a (dl_head l)) as [->|NH].
    { rewrite upd_same. split; [discriminate|]. intros (l' & [<-|R] & <- & K).
      - now rewrite dset_c_same in K.
      - rewrite Q in K by auto. destruct (X l' (dl_head l) R); [right; apply in_or_app; auto|congruence]. }
    rewrite (upd_other _ (dl_head l)) by auto. rewrite (dh_hold _ _ _ HO). split; intros (l' & R & <- & K).
    + exists l'. repeat split; [now right|]. now rewrite Q.
    + destruct R as [<-|R]; [now rewrite dset_c_same in K|]. exists l'. rewrite Q in K by auto. auto.
  - intros l' [<-|R]; unfold dnew; dh.
    + rewrite upd_same, dset_c_same. cbn. lia.
    + destruct (F l' R) as (NI & _). rewrite upd_other, Q by auto. now apply (dh_size _ _ _ HO).
Qed.

Section Push.
Variables (h : dheap) (ls : list dlist) (c : nat -> list addr) (l : dlist) (n : addr).
Hypotheses (HO : dholds h ls c) (R : In l ls) (NS : ~ sentinel ls n) (NE : ~ elsewhere ls c l n).
Hypothesis (LEN : Z.of_nat (length (c (dl_id l))) + 1 < 2 ^ 64).

Lemma attached_has n' : dattached l n' h = has n' (c (dl_id l)).
Proof.
  unfold dattached. destruct (has n' (c (dl_id l))) eqn:E.
  - apply has_true in E. assert (K : d_hold h n' = Some (dl_id l)) by (apply (dh_hold _ _ _ HO); eauto).
    now rewrite K, Nat.eqb_refl.
  - destruct (d_hold h n') as [i|] eqn:K; auto. destruct (Nat.eqb_spec i (dl_id l)) as [->|]; auto.
    apply (dh_hold _ _ _ HO) in K as (l' & R' & _ & K). apply has_false in E. tauto.
Qed.

Lemma fresh_line : ~ In n (c (dl_id l)) -> forall l', In l' ls -> ~ In n (line l' (c (dl_id l'))).
Proof.
  intros F l' R' [K|K].
  - apply NS. exists l'. auto.
  - apply in_app_or in K as [K|[K|[]]]; [|apply NS; exists l'; auto].
    destruct l as [a1 b1 c1], l' as [a2 b2 c2]. apply NE. exists (mkDL a2 b2 c2). repeat split; auto.
    intros E. inv E. auto.
Qed.

Lemma push_back_holds :
  exists h', push_back l (Some n) h = Ok (h', negb (has n (c (dl_id l)))) /\
             dholds h' ls (if has n (c (dl_id l)) then c else dset_c c (dl_id l) (c (dl_id l) ++ [n])).
Proof.
  unfold push_back. rewrite attached_has. destruct (has n (c (dl_id l))) eqn:E; [exists h; auto|].
  apply has_false in E. pose proof (fresh_line E) as FL. pose proof (FL l R) as FI.
  set (s := c (dl_id l)) in *.
  destruct (last_cut (dl_head l) s) as (u & p & L).
  pose proof (dh_nodup _ _ _ HO l R) as N. fold s in N.
  assert (AP : adj p (dl_tail l) (line l s)). { unfold line. rewrite app_comm_cons, L. exists u, []. now rewrite <- app_assoc. }
  destruct (dh_chain _ _ _ HO l _ _ R AP) as [P1 P2].
  assert (PI : In p (dl_head l :: s)). { rewrite L. apply in_or_app; right; now left. }
  assert (TI : ~ In (dl_tail l) (dl_head l :: s)).
  { rewrite app_comm_cons in N. apply NoDup_remove_2 in N. now rewrite app_nil_r in N. }
  assert (PL : In p (line l s)) by (unfold line; rewrite app_comm_cons; apply in_or_app; auto).
  assert (TL : In (dl_tail l) (line l s)) by (right; apply in_or_app; right; now left).
  assert (PT : p <> dl_tail l) by (intros ->; auto).
  assert (PN : p <> n) by (intros ->; auto). assert (TN : dl_tail l <> n) by (intros Q; apply FI; now rewrite <- Q).
  rewrite P2. cbn [deref]. eexists. split; [reflexivity|]. dh. rewrite P2.
  apply (dreshape h); auto; fold s; dh.
  - unfold line. rewrite <- app_assoc. cbn [app]. rewrite app_comm_cons. apply NoDup_Add with (l := (dl_head l :: s) ++ [dl_tail l]) (a := n); [apply Add_app|].
    split; auto.
  - intros a K. apply in_app_or in K as [K|[<-|[]]]; auto.
  - intros a b A. unfold line in A. rewrite <- app_assoc in A. cbn [app] in A. rewrite app_comm_cons, L in A. rewrite <- app_assoc in A. cbn [app] in A.
    rewrite adj_split, adj_cons, adj_cons in A. destruct A as [A|[[-> ->]|[[-> ->]|A]]]; [| | |now destruct (adj_one _ _ _ A)].
    + pose proof (adj_in_hd _ _ _ _ A) as AI. destruct (adj_in _ _ _ A) as [XA XB]. rewrite <- L in XA, XB.
      assert (N2 : NoDup (dl_head l :: s)).
      { rewrite app_comm_cons in N. apply NoDup_remove_1 in N. now rewrite app_nil_r in N. }
      assert (a <> p). { intros ->. rewrite L in N2. apply NoDup_remove_2 in N2. apply N2. now rewrite app_nil_r. }
      assert (ML : forall z, In z (dl_head l :: s) -> z <> n /\ z <> dl_tail l).
      { intros z Z. split; intros ->; auto. apply FI. unfold line. rewrite app_comm_cons. apply in_or_app; auto. }
      destruct (ML a XA), (ML b XB). rewrite !upd_other by auto.
      apply (dh_chain _ _ _ HO l); auto. fold s. unfold line. rewrite app_comm_cons, L. rewrite <- app_assoc. cbn [app].
      rewrite adj_split. now left.
    + rewrite (upd_other _ n) by auto. rewrite upd_same. rewrite (upd_other _ (dl_tail l)) by auto. now rewrite upd_same.
    + now rewrite !upd_same.
  - intros a K1 K2. assert (a <> n) by (intros ->; apply K2; apply in_or_app; right; now left).
    assert (a <> p) by (intros ->; auto). assert (a <> dl_tail l) by (intros ->; auto). now rewrite !upd_other.
  - intros a K. destruct (Nat.eq_dec a n) as [->|Q]; [now rewrite upd_same|]. rewrite upd_other by auto.
    apply (dh_hold _ _ _ HO). exists l. repeat split; auto. apply in_app_or in K as [K|[K|[]]]; congruence || auto.
  - intros a K1 K2. destruct K2. apply in_or_app; auto.
  - intros a K1 K2. rewrite upd_other; auto. intros ->. apply K2. apply in_or_app; right; now left.
  - rewrite upd_same. rewrite (proj1 (dh_size _ _ _ HO l R)). fold s. rewrite app_length. cbn [length]. unfold size_t.
    rewrite Z.mod_small; lia.
  - rewrite upd_same. apply Z.mod_pos_bound. lia.
  - intros i Q. now rewrite upd_other.
Qed.

Lemma push_front_holds :
  exists h', push_front l (Some n) h = Ok (h', negb (has n (c (dl_id l)))) /\
             dholds h' ls (if has n (c (dl_id l)) then c else dset_c c (dl_id l) (n :: c (dl_id l))).
Proof.
  unfold push_front. rewrite attached_has. destruct (has n (c (dl_id l))) eqn:E; [exists h; auto|].
  apply has_false in E. pose proof (fresh_line E) as FL. pose proof (FL l R) as FI.
  set (s := c (dl_id l)) in *.
  destruct (first_cut s (dl_tail l)) as (x & w & X).
  pose proof (dh_nodup _ _ _ HO l R) as N. fold s in N.
  assert (AP : adj (dl_head l) x (line l s)). { unfold line. rewrite X. now exists [], w. }
  destruct (dh_chain _ _ _ HO l _ _ R AP) as [P1 P2].
  assert (XI : In x (s ++ [dl_tail l])). { rewrite X. now left. }
  inversion N as [|? ? HI N2]; subst.
  assert (XL : In x (line l s)) by (right; auto).
  assert (HL : In (dl_head l) (line l s)) by now left.
  assert (XH : x <> dl_head l) by (intros ->; auto).
  assert (XN : x <> n) by (intros ->; auto). assert (HN : dl_head l <> n) by (intros Q; apply FI; now rewrite <- Q).
  rewrite P1. cbn [deref]. eexists. split; [reflexivity|]. dh. rewrite P1.
  apply (dreshape h); auto; fold s; dh.
  - unfold line. cbn [app]. inversion N; subst. constructor.
    + intros [Q|Q]; auto.
    + constructor; auto. intros Q. apply FI. now right.
  - intros a K. destruct K as [<-|K]; auto.
  - intros a b A. unfold line in A. cbn [app] in A. rewrite X in A. rewrite adj_cons, adj_cons in A.
    destruct A as [[-> ->]|[[-> ->]|A]].
    + now rewrite !upd_same.
    + rewrite (upd_other _ (dl_head l) _ n) by auto. rewrite upd_same. rewrite (upd_other _ n) by auto. now rewrite upd_same.
    + pose proof (adj_in_tl _ _ _ _ A) as BI. destruct (adj_in _ _ _ A) as [XA XB]. rewrite <- X in XA, XB.
      assert (b <> x). { intros ->. rewrite X in N2. now inversion N2. }
      assert (ML : forall z, In z (s ++ [dl_tail l]) -> z <> n /\ z <> dl_head l).
      { intros z Z. split; intros ->; auto. apply FI. now right. }
      destruct (ML a XA), (ML b XB). rewrite !upd_other by auto.
      apply (dh_chain _ _ _ HO l); auto. fold s. unfold line. rewrite X. rewrite adj_cons. now right.
  - intros a K1 K2. assert (a <> n) by (intros ->; apply K2; now left).
    assert (a <> x) by (intros ->; auto). assert (a <> dl_head l) by (intros ->; auto). now rewrite !upd_other.
  - intros a K. destruct (Nat.eq_dec a n) as [->|Q]; [now rewrite upd_same|]. rewrite upd_other by auto.
    apply (dh_hold _ _ _ HO). exists l. repeat split; auto. destruct K as [K|K]; congruence || auto.
  - intros a K1 K2. destruct K2. now right.
  - intros a K1 K2. rewrite upd_other; auto. intros ->. apply K2. now left.
  - rewrite upd_same. rewrite (proj1 (dh_size _ _ _ HO l R)). fold s. cbn [length]. unfold size_t.
    rewrite Z.mod_small; lia.
  - rewrite upd_same. apply Z.mod_pos_bound. lia.
  - intros i Q. now rewrite upd_other.
Qed.
End Push.

Lemma dremove_holds h ls c l e : dholds h ls c -> In l ls ->
  exists h', dremove l (Some e) h = Ok (h', has e (c (dl_id l))) /\
             dholds h' ls (dset_c c (dl_id l) (filter (fun x => negb (Nat.eqb x e)) (c (dl_id l)))).
Proof.
  intros HO R. unfold dremove. destruct (dh_size _ _ _ HO l R) as [SZ SB].
  assert (SKIP : ~ In e (c (dl_id l)) -> dholds h ls (dset_c c (dl_id l) (filter (fun x => negb (Nat.eqb x e)) (c (dl_id l))))).
  { intros F. rewrite filter_out by auto. apply (dcontents_ext _ _ c); auto. intros i. unfold dset_c. destruct (Nat.eqb_spec i (dl_id l)); congruence. }
  destruct (Z.leb_spec (d_size h (dl_id l)) 0) as [Z0|Z0].
  { assert (C : c (dl_id l) = []) by (destruct (c (dl_id l)); auto; cbn [length] in SZ; lia).
    exists h. split; [now rewrite C|]. apply SKIP. rewrite C. auto. }
  cbn [deref]. rewrite (attached_has _ _ _ _ HO R).
  destruct (has e (c (dl_id l))) eqn:E; cbn [negb]; [|exists h; split; auto; apply SKIP; now apply has_false].
  apply has_true in E. pose proof (dh_nodup _ _ _ HO l R) as N.
  set (s := c (dl_id l)) in *.
  assert (NDS : NoDup s). { inversion N as [|? ? _ N2]; subst. apply NoDup_remove_1 in N2. now rewrite app_nil_r in N2. }
  destruct (split_at e s E NDS) as (u & v & C & U & V).
  destruct (last_cut (dl_head l) u) as (q & p & L). destruct (first_cut v (dl_tail l)) as (x & w & X).
  assert (SP : line l s = q ++ p :: e :: x :: w).
  { unfold line. rewrite C, <- app_assoc. cbn [app]. rewrite X, app_comm_cons, L, <- app_assoc. reflexivity. }
  assert (AP : adj p e (line l s)) by (rewrite SP; now exists q, (x :: w)).
  assert (AX : adj e x (line l s)). { rewrite SP. exists (q ++ [p]), w. now rewrite <- app_assoc. }
  destruct (dh_chain _ _ _ HO l _ _ R AP) as [H1 H2]. destruct (dh_chain _ _ _ HO l _ _ R AX) as [H3 H4].
  fold (line l s) in N. rewrite SP in N.
  assert (NE : ~ In e (q ++ p :: x :: w)).
  { change (q ++ p :: e :: x :: w) with (q ++ [p] ++ e :: x :: w) in N. rewrite app_assoc in N. apply NoDup_remove_2 in N. now rewrite <- app_assoc in N. }
  assert (N' : NoDup (q ++ p :: x :: w)).
  { change (q ++ p :: e :: x :: w) with (q ++ [p] ++ e :: x :: w) in N. rewrite app_assoc in N. apply NoDup_remove_1 in N. now rewrite <- app_assoc in N. }
  assert (LN : line l (u ++ v) = q ++ p :: x :: w).
  { unfold line. rewrite <- app_assoc, X, app_comm_cons, L, <- app_assoc. reflexivity. }
  assert (PE : p <> e) by (intros ->; apply NE; apply in_or_app; right; now left).
  assert (XE : x <> e) by (intros ->; apply NE; apply in_or_app; right; right; now left).
  rewrite H2. cbn [deref]. dh. rewrite (upd_other _ p) by auto. rewrite H3. cbn [deref]. dh. rewrite H2.
  eexists. split; [reflexivity|]. rewrite C at 2 || idtac. rewrite C, filter_split by auto.
  assert (MEM : forall z, In z (q ++ p :: x :: w) -> In z (line l s)).
  { intros z Z. rewrite SP. apply in_app_or in Z as [Z|[Z|Z]]; apply in_or_app; auto; right; [now left|right; now right]. }
  apply (dreshape h); auto; fold s; dh.
  - now rewrite LN.
  - intros a K. left. rewrite C. apply in_app_or in K as [K|K]; apply in_or_app; auto. right; now right.
  - intros a b A. rewrite LN in A. destruct (adj_in _ _ _ A) as [XA XB].
    assert (a <> e) by (intros ->; auto). assert (b <> e) by (intros ->; auto).
    rewrite !(upd_other _ e) by auto.
    rewrite adj_split, adj_cons in A. destruct A as [A|[[-> ->]|A]].
    + pose proof (adj_in_hd _ _ _ _ A) as AI.
      assert (a <> p). { intros ->. apply NoDup_remove_2 in N'. apply N'. apply in_or_app; auto. }
      assert (b <> x). { intros ->. destruct (adj_in _ _ _ A) as [_ K].
        change (q ++ p :: x :: w) with (q ++ [p] ++ x :: w) in N'. rewrite app_assoc in N'. apply NoDup_remove_2 in N'. apply N'. apply in_or_app; auto. }
      rewrite !upd_other by auto. apply (dh_chain _ _ _ HO l); auto. fold s. fold (line l s). rewrite SP. rewrite adj_split. now left.
    + now rewrite !upd_same.
    + pose proof (adj_in_tl _ _ _ _ A) as BI.
      assert (a <> p). { intros ->. apply NoDup_remove_2 in N'. apply N'. apply in_or_app; right. now apply (adj_in _ _ _ A). }
      assert (b <> x). { intros ->. change (q ++ p :: x :: w) with (q ++ [p] ++ x :: w) in N'. rewrite app_assoc in N'. apply NoDup_remove_2 in N'.
        apply N'. apply in_or_app; auto. }
      rewrite !upd_other by auto. apply (dh_chain _ _ _ HO l); auto. fold s. fold (line l s). rewrite SP.
      rewrite adj_split. right. rewrite adj_cons. right. rewrite adj_cons. now right.
  - intros a K1 K2. assert (Q : In p (line l s) /\ In e (line l s) /\ In x (line l s)).
    { split; [apply (adj_in _ _ _ AP)|]. apply (adj_in _ _ _ AX). }
    destruct Q as (Q1 & Q2 & Q3).
    assert (a <> p) by (intros ->; auto). assert (a <> x) by (intros ->; auto). assert (a <> e) by (intros ->; auto). now rewrite !upd_other.
  - intros a K. assert (a <> e). { intros ->. apply in_app_or in K as [K|K]; auto. }
    rewrite upd_other by auto. apply (dh_hold _ _ _ HO). exists l. repeat split; auto. fold s. rewrite C. apply in_app_or in K as [K|K]; apply in_or_app; auto. right; now right.
  - intros a K1 K2. rewrite C in K1. assert (a = e). { apply in_app_or in K1 as [K1|[K1|K1]]; auto; destruct K2; apply in_or_app; auto. }
    subst. now rewrite upd_same.
  - intros a K1 K2. rewrite upd_other; auto. intros ->. auto.
  - rewrite upd_same. rewrite SZ, C. rewrite !app_length. cbn [length]. unfold size_t. rewrite SZ, C in SB, Z0. rewrite app_length in SB, Z0. cbn [length] in SB, Z0.
    rewrite Z.mod_small; lia.
  - rewrite upd_same. apply Z.mod_pos_bound. lia.
  - intros i Q. now rewrite upd_other.
Qed.

Lemma drun_holds h ls c o : dholds h ls c -> dallowed ls c o ->
  exists h', drun o h = Ok (h', danswer c o) /\ dholds h' (dlists_after ls o) (dcontents_after c o).
Proof.
  intros HO A. destruct o as [l|l n|l n|l n]; cbn [drun danswer dlists_after dcontents_after].
  - eexists. split; [reflexivity|]. now apply dnew_holds.
  - destruct A as (R & NS & NE & LEN). now apply push_back_holds.
  - destruct A as (R & NS & NE & LEN). now apply push_front_holds.
  - now apply dremove_holds.
Qed.

Lemma dhist_holds p h ls c : dhist p h ls c -> dholds h ls c.
Proof.
  induction 1 as [|p h ls c o h' b _ IH A E].
  - constructor; try contradiction. intros a i. split; [discriminate|]. intros (l & [] & _).
  - destruct (drun_holds _ _ _ _ IH A) as (h2 & E2 & H). congruence.
Qed.

Lemma dends h ls c l : dholds h ls c -> In l ls ->
  dfront l h = hd_error (c (dl_id l)) /\ dback l h = hd_error (rev (c (dl_id l))).
Proof.
  intros HO R. destruct (dh_size _ _ _ HO l R) as [SZ _]. set (s := c (dl_id l)) in *. unfold dfront, dback.
  destruct s as [|y t] eqn:ES.
  - cbn in SZ. rewrite SZ. auto.
  - destruct (Z.ltb_spec 0 (d_size h (dl_id l))) as [_|Z0]; [|cbn [length] in SZ; lia]. rewrite <- ES.
    split.
    + assert (K : adj (dl_head l) y (dl_head l :: c (dl_id l) ++ [dl_tail l])). { exists [], (t ++ [dl_tail l]). subst s. now rewrite ES. }
      rewrite ES. apply (proj1 (dh_chain _ _ _ HO l (dl_head l) y R K)).
    + destruct (@exists_last _ s) as (u & p & E); [rewrite ES; discriminate|]. fold s. rewrite E, rev_app_distr. cbn [rev app hd_error].
      assert (K : adj p (dl_tail l) (dl_head l :: s ++ [dl_tail l])). { rewrite E. exists (dl_head l :: u), []. now rewrite <- app_assoc. }
      apply (proj2 (dh_chain _ _ _ HO l p (dl_tail l) R K)).
Qed.

(** The destructor, on a list that is not empty. *)
Lemma ddestroy_ub h ls c l n s fuel : dholds h ls c -> In l ls -> c (dl_id l) = n :: s -> ddestroy (S (S fuel)) l h = Some UB.
Proof.
  intros HO R C. unfold ddestroy. destruct (dends _ _ _ _ HO R) as [F _]. rewrite C in F. cbn [hd_error] in F.
  unfold dfront in F. destruct (0 <? d_size h (dl_id l)); [|discriminate]. rewrite F.
  pose proof (dh_nodup _ _ _ HO l R) as N. rewrite C in N.
  assert (NT : n <> dl_tail l). { intros ->. cbn [app] in N. inversion N as [|? ? _ N2]; subst. inversion N2 as [|? ? K _]; subst. apply K. apply in_or_app; right; now left. }
  cbn [ddestroy_loop]. destruct (Nat.eqb_spec n (dl_tail l)); [congruence|].
  destruct (dremove_holds _ _ _ _ n HO R) as (h' & E & _). rewrite E. 
  assert (Q : d_next h' n = None).
  { revert E. unfold dremove. assert (Z.leb (d_size h (dl_id l)) 0 = false) as -> by (rewrite (proj1 (dh_size _ _ _ HO l R)), C; cbn [length]; apply Z.leb_gt; lia).
    cbn [deref]. rewrite (attached_has _ _ _ _ HO R), C. cbn [has existsb]. rewrite Nat.eqb_refl. cbn [orb negb].
    destruct (d_pre h n) as [p|]; [|discriminate]. cbn [deref]. dh. destruct (upd (d_next h) p (d_next h n) n) as [x|]; [|discriminate].
    cbn [deref]. intros E. inv E. dh. now rewrite upd_same. }
  rewrite Q. unfold dremove. cbn [deref].
  destruct (d_size h' (dl_id l) <=? 0); reflexivity.
Qed.
