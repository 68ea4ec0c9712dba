(** Proofs about the LRU cache. *)
From Coq Require Import List Arith Bool Lia Permutation.
From Verif.Model Require Import Common Lru.
From Verif.Spec Require Import LruSpec.
From Verif.Proofs Require Import Tac.
Import ListNotations.

Section P.
Context {K V : Type} (keq : forall a b : K, {a = b} + {a <> b}).
Local Notation nodes := (list (nat * (K * V))).

Definition entry_of (p : nat * (K * V)) : K * nat := (fst (snd p), fst p).

Record linv (c : @lru K V) : Prop := {
  lv_ids : NoDup (map fst (lr_list c));
  lv_keys : NoDup (map fst (map snd (lr_list c)));
  lv_map : Permutation (lr_map c) (map entry_of (lr_list c));
  lv_fresh : forall i, In i (map fst (lr_list c)) -> i < lr_next c;
  lv_cap : length (lr_list c) <= lr_cap c
}.

Lemma map_find_in k m i : NoDup (map fst m) -> In (k, i) m -> map_find keq k m = Some i.
Proof.
  induction m as [|[k' j] m IH]; cbn; [tauto|]. intros N [E|I]; inv N.
  - inv E. destruct (keq k k); congruence.
  - destruct (keq k k') as [->|]; auto. exfalso. apply H1. change k' with (fst (k', i)). now apply in_map.
Qed.
Lemma map_find_some k m i : map_find keq k m = Some i -> In (k, i) m.
Proof.
  induction m as [|[k' j] m IH]; cbn; [discriminate|]. destruct (keq k k') as [->|]; [intro E; inv E; auto|auto].
Qed.
Lemma map_find_none k m : map_find keq k m = None -> forall i, ~ In (k, i) m.
Proof.
  induction m as [|[k' j] m IH]; cbn; [tauto|]. destruct (keq k k') as [->|]; [discriminate|].
  intros E i [F|I]; [inv F; congruence|eapply IH; eauto].
Qed.

Lemma node_in i (l : nodes) kv : NoDup (map fst l) -> In (i, kv) l -> node i l = Some kv.
Proof.
  induction l as [|[j x] l IH]; cbn; [tauto|]. intros N [E|I]; inv N.
  - inv E. now rewrite Nat.eqb_refl.
  - destruct (Nat.eqb_spec i j) as [->|]; auto. exfalso. apply H1. change j with (fst (j, kv)). now apply in_map.
Qed.
Lemma node_some i (l : nodes) kv : node i l = Some kv -> In (i, kv) l.
Proof.
  induction l as [|[j x] l IH]; cbn; [discriminate|]. destruct (Nat.eqb_spec i j) as [->|]; [intro E; inv E; auto|auto].
Qed.

Lemma unlink_cons i j (x : K * V) l : unlink i ((j, x) :: l) = if Nat.eqb j i then unlink i l else (j, x) :: unlink i l.
Proof. unfold unlink. cbn. destruct (Nat.eqb j i); reflexivity. Qed.
Lemma without_cons k k' (x : V) l : without keq k ((k', x) :: l) = if keq k k' then without keq k l else (k', x) :: without keq k l.
Proof. unfold without. cbn. destruct (keq k k'); reflexivity. Qed.
Lemma map_erase_cons k k' (x : nat) l : map_erase keq k ((k', x) :: l) = if keq k k' then map_erase keq k l else (k', x) :: map_erase keq k l.
Proof. unfold map_erase. cbn. destruct (keq k k'); reflexivity. Qed.

Lemma unlink_notin i (l : nodes) : ~ In i (map fst l) -> unlink i l = l.
Proof.
  induction l as [|[j x] l IH]; auto. rewrite unlink_cons. intro N. cbn in N. destruct (Nat.eqb_spec j i) as [->|]; [tauto|]. f_equal. tauto.
Qed.
Lemma unlink_perm i (l : nodes) kv : NoDup (map fst l) -> In (i, kv) l -> Permutation l ((i, kv) :: unlink i l).
Proof.
  induction l as [|[j x] l IH]; cbn [map fst In]; [tauto|]. rewrite unlink_cons. intros N [E|I]; inv N.
  - inv E. rewrite Nat.eqb_refl. now rewrite unlink_notin.
  - destruct (Nat.eqb_spec j i) as [->|].
    + exfalso. apply H1. change i with (fst (i, kv)). now apply in_map.
    + rewrite perm_swap. constructor. auto.
Qed.
Lemma without_notin k (l : list (K * V)) : ~ In k (map fst l) -> without keq k l = l.
Proof.
  induction l as [|[k' x] l IH]; auto. rewrite without_cons. cbn. intro N. destruct (keq k k') as [->|]; [tauto|]. f_equal. tauto.
Qed.
Lemma unlink_without i k v (l : nodes) : NoDup (map fst l) -> NoDup (map fst (map snd l)) -> In (i, (k, v)) l ->
  map snd (unlink i l) = without keq k (map snd l).
Proof.
  induction l as [|[j [k' x]] l IH]; cbn [map fst snd In]; [tauto|]. rewrite unlink_cons, without_cons. intros N M [E|I]; inv N; inv M.
  - inv E. rewrite Nat.eqb_refl. destruct (keq k k); [|congruence].
    rewrite unlink_notin, without_notin; auto.
  - destruct (Nat.eqb_spec j i) as [->|].
    + exfalso. apply H1. change i with (fst (i, (k, v))). now apply in_map.
    + destruct (keq k k') as [->|].
      * exfalso. apply H3. change k' with (fst (snd (i, (k', v)))). now apply in_map, in_map.
      * cbn [map snd]. f_equal. auto.
Qed.
Lemma unlink_assign i f (l : nodes) : unlink i (assign i f l) = unlink i l.
Proof.
  induction l as [|[j x] l IH]; auto. cbn [assign map fst snd]. fold (assign i f l).
  destruct (Nat.eqb_spec j i) as [->|N]; rewrite !unlink_cons.
  - rewrite Nat.eqb_refl. exact IH.
  - destruct (Nat.eqb_spec j i); [congruence|]. f_equal. exact IH.
Qed.
Lemma node_assign i f (l : nodes) : node i (assign i f l) = option_map f (node i l).
Proof.
  induction l as [|[j x] l IH]; cbn; auto. destruct (Nat.eqb_spec j i) as [->|N]; cbn.
  - now rewrite Nat.eqb_refl.
  - destruct (Nat.eqb_spec i j); [congruence|]. exact IH.
Qed.
Lemma splice_assign i f (l : nodes) kv : node i l = Some kv ->
  splice_front i (assign i f l) = Ok ((i, f kv) :: unlink i l).
Proof. intro E. unfold splice_front. rewrite node_assign, E. cbn [option_map]. now rewrite unlink_assign. Qed.

Lemma lookup_in k v (l : list (K * V)) : NoDup (map fst l) -> In (k, v) l -> lookup keq k l = Some v.
Proof.
  induction l as [|[k' x] l IH]; cbn; [tauto|]. intros N [E|I]; inv N.
  - inv E. destruct (keq k k); congruence.
  - destruct (keq k k') as [->|]; auto. exfalso. apply H1. change k' with (fst (k', v)). now apply in_map.
Qed.
Lemma lookup_some k v (l : list (K * V)) : lookup keq k l = Some v -> In (k, v) l.
Proof.
  induction l as [|[k' x] l IH]; cbn; [discriminate|]. destruct (keq k k') as [->|]; [intro E; inv E; auto|auto].
Qed.
Lemma lookup_none k (l : list (K * V)) : lookup keq k l = None <-> ~ In k (map fst l).
Proof.
  induction l as [|[k' x] l IH]; cbn; [tauto|]. destruct (keq k k') as [->|]; [intuition discriminate|].
  rewrite IH. intuition congruence.
Qed.

Lemma entry_keys (l : nodes) : map fst (map entry_of l) = map fst (map snd l).
Proof. rewrite !map_map. reflexivity. Qed.

(** what the map says about the list *)
Lemma find_present c k : linv c ->
  match map_find keq k (lr_map c) with
  | Some i => exists v, In (i, (k, v)) (lr_list c) /\ node i (lr_list c) = Some (k, v) /\ lookup keq k (map snd (lr_list c)) = Some v
  | None => ~ In k (map fst (map snd (lr_list c))) /\ lookup keq k (map snd (lr_list c)) = None
  end.
Proof.
  intros [A B C D E]. destruct (map_find keq k (lr_map c)) as [i|] eqn:F.
  - apply map_find_some in F. apply (Permutation_in _ C) in F. apply in_map_iff in F as ([j [k' v]] & G & I).
    inv G. exists v. repeat split; auto using node_in. apply lookup_in; auto.
    change (k, v) with (snd (i, (k, v))). now apply in_map.
  - assert (N : ~ In k (map fst (map snd (lr_list c)))).
    { intro I. rewrite <- entry_keys in I. apply in_map_iff in I as ([k' j] & G & I). cbn in G. subst k'.
      apply (Permutation_in _ (Permutation_sym C)) in I. eapply map_find_none; eauto. }
    split; auto. now apply lookup_none.
Qed.

Lemma linv_size c : linv c -> length (lr_map c) = length (lr_list c).
Proof. intros [_ _ C _ _]. rewrite (Permutation_length C). apply map_length. Qed.

Lemma nodup_perm_keys (m : list (K * nat)) (l : nodes) :
  Permutation m (map entry_of l) -> NoDup (map fst (map snd l)) -> NoDup (map fst m).
Proof.
  intros P N. rewrite <- entry_keys in N. eapply Permutation_NoDup; [|exact N]. apply Permutation_map. now symmetry.
Qed.

Lemma map_erase_notin k (m : list (K * nat)) : ~ In k (map fst m) -> map_erase keq k m = m.
Proof.
  induction m as [|[k' x] m IH]; auto. rewrite map_erase_cons. cbn. intro N. destruct (keq k k') as [->|]; [tauto|]. f_equal. tauto.
Qed.
Lemma map_erase_perm k i (m m' : list (K * nat)) : NoDup (map fst m) -> Permutation m ((k, i) :: m') ->
  Permutation (map_erase keq k m) m'.
Proof.
  intros N P.
  assert (Q : Permutation (map_erase keq k m) (map_erase keq k ((k, i) :: m'))).
  { clear N. unfold map_erase. induction P; cbn; auto.
    - destruct (if keq k (fst x) then false else true); auto.
    - destruct (if keq k (fst y) then false else true), (if keq k (fst x) then false else true); auto; constructor.
    - etransitivity; eauto. }
  rewrite Q, map_erase_cons. destruct (keq k k); [|congruence]. rewrite map_erase_notin; auto.
  apply (Permutation_map fst) in P. apply (Permutation_NoDup P) in N. cbn in N. now inv N.
Qed.

Lemma removelast_len {A} (l : list A) : length (removelast l) = pred (length l).
Proof.
  induction l as [|a l IH]; auto. destruct l; auto.
  change (removelast (a :: a0 :: l)) with (a :: removelast (a0 :: l)). cbn [length]. rewrite IH. reflexivity.
Qed.
Lemma removelast_firstn_pred {A} (l : list A) : removelast l = firstn (pred (length l)) l.
Proof.
  induction l as [|a l IH]; auto. destruct l; auto.
  change (removelast (a :: a0 :: l)) with (a :: removelast (a0 :: l)). rewrite IH. reflexivity.
Qed.
Lemma map_removelast {A B} (f : A -> B) l : map f (removelast l) = removelast (map f l).
Proof. induction l as [|a [|b l] IH]; auto. cbn in *. now rewrite IH. Qed.

Lemma nodup_app_l {A} (a b : list A) : NoDup (a ++ b) -> NoDup a.
Proof. induction a; cbn; intro N; [constructor|]. inv N. constructor; auto. intro I. apply H1, in_or_app; auto. Qed.
Lemma nodup_last {A} (a : list A) x : NoDup (a ++ [x]) -> ~ In x a.
Proof. intros N I. apply NoDup_remove_2 in N. apply N. rewrite app_nil_r. auto. Qed.

Lemma lru_new_inv cap : linv (@lru_new K V cap).
Proof. constructor; cbn; try constructor; try tauto; lia. Qed.

Lemma unlink_last (l : nodes) p : NoDup (map fst (l ++ [p])) -> unlink (fst p) (l ++ [p]) = l.
Proof.
  intro N. rewrite map_app in N. cbn in N. apply nodup_last in N. unfold unlink. rewrite filter_app. cbn.
  rewrite Nat.eqb_refl. cbn. rewrite app_nil_r. apply (unlink_notin _ _ N).
Qed.

Lemma lru_add_spec ext c k v : linv c -> 1 <= lr_cap c ->
  exists c', lru_add keq ext k v c = Ok c' /\ linv c' /\ lr_cap c' = lr_cap c /\
    map snd (lr_list c') = firstn (lr_cap c) ((k, v) :: without keq k (map snd (lr_list c))).
Proof.
  intros I CP. pose proof (find_present c k I) as F. unfold lru_add.
  destruct (map_find keq k (lr_map c)) as [i|] eqn:MF.
  - destruct F as (v0 & IN & ND & LK). destruct I as [A B C D E]. rewrite ND.
    rewrite (splice_assign _ _ _ _ ND). cbn [obind fst]. eexists. split; [reflexivity|].
    pose proof (unlink_perm _ _ _ A IN) as P.
    assert (P1 : Permutation (map fst (lr_list c)) (i :: map fst (unlink i (lr_list c)))) by (apply (Permutation_map fst) in P; exact P).
    assert (P2 : Permutation (map fst (map snd (lr_list c))) (k :: map fst (map snd (unlink i (lr_list c)))))
      by (apply (Permutation_map snd), (Permutation_map fst) in P; exact P).
    split; [|split; [reflexivity|]].
    + constructor; cbn [lr_list lr_map lr_next lr_cap map fst snd].
      * eapply Permutation_NoDup; eauto.
      * eapply Permutation_NoDup; eauto.
      * rewrite C. apply (Permutation_map entry_of) in P. rewrite P. reflexivity.
      * intros j J. apply D. eapply Permutation_in; [symmetry; exact P1|exact J].
      * cbn [length]. apply Permutation_length in P. cbn [length] in P. lia.
    + cbn [lr_list map snd]. rewrite (unlink_without _ _ _ _ A B IN). symmetry. apply firstn_all2.
      cbn [length]. rewrite <- (unlink_without _ _ _ _ A B IN), map_length.
      apply Permutation_length in P. cbn [length] in P. lia.
  - destruct F as (NK & LK). pose proof (linv_size _ I) as SZ. pose proof I as [A B C D E].
    rewrite (without_notin _ _ NK). rewrite SZ.
    destruct (Nat.leb_spec (lr_cap c) (length (lr_list c))) as [L|L].
    + assert (LE : length (lr_list c) = lr_cap c) by lia.
      assert (NE : lr_list c <> []) by (intro Z; rewrite Z in LE; cbn in LE; lia).
      destruct (exists_last NE) as (l & [i [lk lv]] & LL). clear NE.
      rewrite LL in *. rewrite rev_app_distr. cbn [rev app].
      set (m := lr_map c) in *.
      assert (FL : map snd ((lr_next c, (k, v)) :: l) = firstn (lr_cap c) ((k, v) :: map snd (l ++ [(i, (lk, lv))]))).
      { rewrite <- LE, app_length. cbn [length map snd]. rewrite Nat.add_comm. cbn [Nat.add firstn].
        f_equal. rewrite map_app, firstn_app, map_length, Nat.sub_diag, firstn_all2 by (rewrite map_length; lia).
        cbn. now rewrite app_nil_r. }
      assert (NM : NoDup (map fst m)) by (eapply nodup_perm_keys; eauto).
      assert (MP : Permutation m ((lk, i) :: map entry_of l)).
      { rewrite C, map_app. cbn. rewrite Permutation_app_comm. reflexivity. }
      pose proof (map_erase_perm _ _ _ _ NM MP) as ME.
      assert (KL : ~ In k (map fst (map snd l))).
      { intro J. apply NK. rewrite !map_app. apply in_or_app; auto. }
      rewrite !map_app in A, B, NK, D. cbn [map fst snd] in A, B, NK, D. rewrite !map_app in B. cbn [map fst] in B.
      rewrite app_length in E. cbn [length] in E.
      assert (KN : NoDup (k :: map fst (map snd l))) by (constructor; [exact KL|eapply nodup_app_l; exact B]).
      destruct ext.
      * assert (MFL : map_find keq lk m = Some i).
        { apply map_find_in; auto. eapply Permutation_in; [symmetry; exact MP|]. left; auto. }
        rewrite MFL.
        assert (NDI : node i (l ++ [(i, (lk, lv))]) = Some (lk, lv)).
        { apply node_in; [rewrite map_app; exact A|]. apply in_or_app. right; left; auto. }
        rewrite (splice_assign _ _ _ _ NDI). cbn [obind].
        change i with (fst (i, (lk, lv))) at 2 4. rewrite unlink_last by (rewrite map_app; exact A). cbn [fst].
        eexists. split; [reflexivity|]. split; [|split; [reflexivity|]].
        { constructor; cbn [lr_list lr_map lr_next lr_cap map fst snd].
          - constructor; [apply nodup_last; exact A|eapply nodup_app_l; exact A].
          - exact KN.
          - change (entry_of (i, (k, v))) with (k, i). constructor. exact ME.
          - intros j [<-|J]; apply D, in_or_app; [right; left; auto|left; auto].
          - cbn [length]. lia. }
        cbn [lr_list map snd]. exact FL.
      * rewrite removelast_last. eexists. split; [reflexivity|]. split; [|split; [reflexivity|]].
        { constructor; cbn [lr_list lr_map lr_next lr_cap map fst snd].
          - constructor; [|eapply nodup_app_l; exact A]. intro J. assert (lr_next c < lr_next c); [|lia].
            apply D, in_or_app. auto.
          - exact KN.
          - unfold map_set. change (entry_of (lr_next c, (k, v))) with (k, lr_next c). constructor.
            rewrite map_erase_notin; [exact ME|].
            intro J. apply KL. apply (Permutation_map fst) in ME. rewrite entry_keys in ME.
            eapply Permutation_in; eauto.
          - intros j [<-|J]; [lia|]. assert (j < lr_next c); [|lia]. apply D, in_or_app; auto.
          - cbn [length]. lia. }
        exact FL.
    + eexists. split; [reflexivity|]. split; [|split; [reflexivity|]].
      * constructor; cbn [lr_list lr_map lr_next lr_cap map fst snd].
        { constructor; auto. intro J. apply D in J. lia. }
        { constructor; auto. }
        { unfold map_set. change (entry_of (lr_next c, (k, v))) with (k, lr_next c). constructor.
          rewrite map_erase_notin; [exact C|]. intro J. apply NK. rewrite <- entry_keys.
          eapply Permutation_in; [apply Permutation_map; exact C|exact J]. }
        { intros j [<-|J]; [lia|]. apply D in J. lia. }
        { cbn [length]. lia. }
      * cbn [lr_list map snd]. symmetry. apply firstn_all2. cbn [length]. rewrite map_length. lia.
Qed.

Lemma lru_get_spec c k : linv c ->
  exists c' r, lru_get keq k c = Ok (c', r) /\ linv c' /\ lr_cap c' = lr_cap c /\
    (map snd (lr_list c'), RVal r) = spec_step keq (lr_cap c) (map snd (lr_list c)) (LGet k).
Proof.
  intro I. pose proof (find_present c k I) as F. unfold lru_get.
  destruct (map_find keq k (lr_map c)) as [i|] eqn:MF.
  - destruct F as (v0 & IN & ND & LK). destruct I as [A B C D E]. unfold splice_front. rewrite ND. cbn [obind node].
    rewrite Nat.eqb_refl. eexists _, _. split; [reflexivity|].
    pose proof (unlink_perm _ _ _ A IN) as P.
    split; [|split; [reflexivity|]].
    + constructor; cbn [lr_list lr_map lr_next lr_cap].
      * eapply Permutation_NoDup; [|exact A]. apply (Permutation_map fst) in P. exact P.
      * eapply Permutation_NoDup; [|exact B]. apply (Permutation_map snd), (Permutation_map fst) in P. exact P.
      * rewrite C. apply Permutation_map. exact P.
      * intros j J. apply D. eapply Permutation_in; [|exact J]. symmetry. apply (Permutation_map fst) in P. exact P.
      * apply Permutation_length in P. lia.
    + cbn [spec_step lr_list map snd]. rewrite LK, (unlink_without _ _ _ _ A B IN). reflexivity.
  - destruct F as (_ & LK). eexists _, _. split; [reflexivity|]. split; [auto|]. split; [auto|].
    cbn [spec_step]. now rewrite LK.
Qed.

Lemma lru_run_spec ext os : forall c, linv c -> 1 <= lr_cap c ->
  exists c' rs, lru_run keq ext c os = Ok (c', rs) /\ linv c' /\ lr_cap c' = lr_cap c /\
    (map snd (lr_list c'), rs) = spec_run keq (lr_cap c) (map snd (lr_list c)) os.
Proof.
  induction os as [|o os IH]; intros c I CP.
  - eexists _, _. split; [reflexivity|]. auto.
  - assert (S : exists c1 r, lru_step keq ext c o = Ok (c1, r) /\ linv c1 /\ lr_cap c1 = lr_cap c /\
      (map snd (lr_list c1), r) = spec_step keq (lr_cap c) (map snd (lr_list c)) o).
    { destruct o as [k v|k|k]; unfold lru_step.
      - destruct (lru_add_spec ext c k v I CP) as (c' & E & I' & C' & L). rewrite E. cbn [obind].
        eexists _, _. split; [reflexivity|]. split; auto. split; auto. cbn [spec_step]. now rewrite <- L.
      - destruct (lru_get_spec c k I) as (c' & r & E & I' & C' & L). rewrite E. cbn [obind fst snd].
        eexists _, _. split; [reflexivity|]. auto.
      - eexists _, _. split; [reflexivity|]. split; auto. split; auto. cbn [spec_step]. f_equal. f_equal.
        pose proof (find_present c k I) as F. unfold lru_exists. destruct (map_find keq k (lr_map c)).
        + destruct F as (v & _ & _ & ->). auto.
        + destruct F as (_ & ->). auto. }
    destruct S as (c1 & r & E1 & I1 & C1 & S1).
    destruct (IH c1 I1) as (c2 & rs & E2 & I2 & C2 & S2); [lia|].
    cbn [lru_run]. rewrite E1. cbn [obind fst snd]. rewrite E2. cbn [obind fst snd].
    eexists _, _. split; [reflexivity|]. split; auto. split; [congruence|].
    cbn [spec_run]. rewrite <- S1, <- C1, <- S2. reflexivity.
Qed.

(** * The specification in terms of the history *)
Lemma by_recency_snoc us : forall acc k, by_recency keq (us ++ [k]) acc =
  k :: filter (fun x => if keq k x then false else true) (by_recency keq us acc).
Proof. induction us; intros acc k; cbn; auto. Qed.
Lemma last_added_snoc k o : forall (os : list (@lop K V)) acc, last_added keq k (os ++ [o]) acc =
  match o with LAdd k' v => if keq k k' then Some v else last_added keq k os acc | _ => last_added keq k os acc end.
Proof. induction os as [|[]]; intros acc; cbn; auto; destruct o; auto. Qed.
Lemma uses_snoc o r : forall (os : list (@lop K V)) rs, length os = length rs ->
  uses (os ++ [o]) (rs ++ [r]) = uses os rs ++ uses [o] [r].
Proof.
  induction os as [|o' os IH]; intros [|r' rs] L; cbn in L; try discriminate; auto. injection L as L.
  cbn [app]. destruct o' as [k v|k|k]; [|destruct r' as [|[]|]|]; cbn [uses app]; rewrite ?IH; auto.
Qed.
Lemma spec_run_snoc cap (o : @lop K V) : forall os l, spec_run keq cap l (os ++ [o]) =
  let (l1, rs) := spec_run keq cap l os in let (l2, r) := spec_step keq cap l1 o in (l2, rs ++ [r]).
Proof.
  induction os as [|o' os IH]; intros l; cbn [app spec_run].
  - destruct (spec_step keq cap l o). reflexivity.
  - destruct (spec_step keq cap l o') as [l1 r1]. rewrite IH. destruct (spec_run keq cap l1 os) as [l2 rs].
    destruct (spec_step keq cap l2 o). reflexivity.
Qed.
Lemma spec_run_length cap os : forall l : list (K * V), length (snd (spec_run keq cap l os)) = length os.
Proof.
  induction os; intro l; cbn; auto. destruct (spec_step keq cap l a). specialize (IHos l0).
  destruct (spec_run keq cap l0 os). cbn in *. lia.
Qed.

Lemma without_keys k (l : list (K * V)) : map fst (without keq k l) = filter (fun x => if keq k x then false else true) (map fst l).
Proof. induction l as [|[k' v] l IH]; auto. rewrite without_cons. cbn [map fst filter]. destruct (keq k k'); auto. cbn [map fst]. congruence. Qed.
Lemma map_firstn {A B} (f : A -> B) n l : map f (firstn n l) = firstn n (map f l).
Proof. revert n. induction l; destruct n; cbn; auto. f_equal; auto. Qed.

Lemma filter_notin (k : K) l : ~ In k l -> filter (fun x => if keq k x then false else true) l = l.
Proof. induction l; cbn; auto. intro N. destruct (keq k a) as [->|]; [tauto|]. f_equal; tauto. Qed.
Lemma firstn_filter k (l : list K) : NoDup l -> forall n,
  firstn n (k :: filter (fun x => if keq k x then false else true) l) =
  firstn n (k :: filter (fun x => if keq k x then false else true) (firstn n l)).
Proof.
  intros ND [|n]; auto. cbn [firstn]. f_equal.
  revert n. induction l as [|a l IH]; intro n; auto. inv ND. cbn [filter firstn].
  destruct (keq k a) as [->|N].
  - rewrite filter_notin by auto. rewrite filter_notin; [now rewrite firstn_firstn, Nat.min_id|].
    intro I. apply H1. revert I. generalize n. clear. induction l; destruct n; cbn; try tauto. intros [->|J]; eauto.
  - destruct n; auto. cbn [firstn]. f_equal. auto.
Qed.
Lemma filter_length_le {A} (f : A -> bool) l : length (filter f l) <= length l.
Proof. induction l; cbn; auto. destruct (f a); cbn; lia. Qed.
Lemma firstn_in_filter k (l : list K) n : NoDup l -> In k (firstn n l) ->
  firstn n (k :: filter (fun x => if keq k x then false else true) l) =
  k :: filter (fun x => if keq k x then false else true) (firstn n l).
Proof.
  intros ND I. destruct n; [destruct I|]. rewrite firstn_filter by auto. apply firstn_all2. cbn [length].
  assert (X : length (filter (fun x => if keq k x then false else true) (firstn (S n) l)) < length (firstn (S n) l)).
  { revert I. generalize (firstn (S n) l). clear. induction l as [|a l IH]; cbn; [tauto|]. intros [->|I].
    - destruct (keq k k); [|congruence]. pose proof (filter_length_le (fun x => if keq k x then false else true) l). lia.
    - destruct (keq k a); cbn; [|apply IH in I; lia].
      pose proof (filter_length_le (fun x => if keq k x then false else true) l). lia. }
  pose proof (firstn_le_length (S n) l). lia.
Qed.
Lemma by_recency_nodup us : forall acc, NoDup acc -> NoDup (by_recency keq us acc).
Proof.
  induction us; intros acc N; cbn; auto. apply IHus. constructor.
  - intro I. apply filter_In in I as [_ I]. destruct (keq a a); congruence.
  - apply NoDup_filter; auto.
Qed.

Definition hist_inv cap os (l : list (K * V)) rs : Prop :=
  map fst l = firstn cap (by_recency keq (uses os rs) []) /\
  (forall k v, In (k, v) l -> last_added keq k os None = Some v).

Lemma spec_hist cap os : let (l, rs) := spec_run keq cap [] os in hist_inv cap os l rs.
Proof.
  induction os as [|o os IH] using rev_ind.
  - cbn. split; [now rewrite firstn_nil|]. cbn. tauto.
  - rewrite spec_run_snoc. pose proof (spec_run_length cap os []) as LN.
    destruct (spec_run keq cap [] os) as [l rs]. cbn in LN. destruct IH as [A B].
    pose proof (by_recency_nodup (uses os rs) [] (NoDup_nil _)) as ND.
    assert (NL : NoDup (map fst l)).
    { rewrite A. rewrite <- (firstn_skipn cap (by_recency keq (uses os rs) [])) in ND. eapply nodup_app_l; eauto. }
    destruct o as [k v|k|k]; cbn [spec_step].
    + split.
      * rewrite uses_snoc by auto. cbn [uses]. rewrite by_recency_snoc, firstn_filter by auto.
        rewrite map_firstn. cbn [map fst]. now rewrite without_keys, A.
      * intros k' v' I. rewrite last_added_snoc.
        assert (J : In (k', v') ((k, v) :: without keq k l)).
        { revert I. generalize ((k, v) :: without keq k l). clear. intro l'. revert cap.
          induction l'; destruct cap; cbn; try tauto. intros [->|J]; eauto. }
        destruct J as [J|J].
        { inv J. destruct (keq k' k'); congruence. }
        { apply filter_In in J as [J1 J2]. cbn in J2. destruct (keq k k'); [discriminate|].
          destruct (keq k' k); [congruence|]. auto. }
    + destruct (lookup keq k l) as [v|] eqn:LK.
      * split.
        { rewrite uses_snoc by auto. cbn [uses]. rewrite by_recency_snoc.
          rewrite firstn_in_filter; auto.
          - cbn [map fst]. now rewrite without_keys, A.
          - rewrite <- A. change k with (fst (k, v)). apply in_map. now apply lookup_some. }
        { intros k' v' I. rewrite last_added_snoc. destruct I as [I|I].
          - inv I. apply B. now apply lookup_some.
          - apply filter_In in I as [I _]. auto. }
      * split.
        { rewrite uses_snoc by auto. cbn [uses]. now rewrite app_nil_r. }
        { intros. rewrite last_added_snoc. auto. }
    + split.
      * rewrite uses_snoc by auto. cbn [uses]. now rewrite app_nil_r.
      * intros. rewrite last_added_snoc. auto.
Qed.
End P.
