(** Header map facts. *)
From Coq Require Import Sorting.Sorted.
From Verif.Model Require Import Common Http.
From Verif.Spec Require Import HttpSpec.
From Verif.Proofs Require Import Tac.
Open Scope Z_scope.

Lemma beqb_eq a : forall b, beqb a b = true <-> a = b.
Proof.
  induction a as [|x a IH]; intros [|y b]; cbn [beqb]; split; intro H; try discriminate; auto.
  - apply andb_true_iff in H as [H1 H2]. apply Z.eqb_eq in H1. apply IH in H2. congruence.
  - inv H. rewrite Z.eqb_refl. apply IH. reflexivity.
Qed.
Lemma beqb_refl a : beqb a a = true. Proof. apply beqb_eq. reflexivity. Qed.
Lemma beqb_neq a b : beqb a b = false <-> a <> b.
Proof.
  split; intro H.
  - intro E. apply beqb_eq in E. congruence.
  - destruct (beqb a b) eqn:E; [apply beqb_eq in E; contradiction|reflexivity].
Qed.
Lemma bltb_irrefl a : bltb a a = false.
Proof. induction a as [|x a IH]; cbn [bltb]; [reflexivity|]. rewrite Z.ltb_irrefl, Z.eqb_refl, IH. reflexivity. Qed.
Lemma bltb_cons x a y b : bltb (x :: a) (y :: b) = true <-> x < y \/ (x = y /\ bltb a b = true).
Proof. cbn [bltb]. rewrite orb_true_iff, andb_true_iff, Z.ltb_lt, Z.eqb_eq. tauto. Qed.
Lemma bltb_trans a : forall b c, bltb a b = true -> bltb b c = true -> bltb a c = true.
Proof.
  induction a as [|x a IH]; intros [|y b] [|z c] H1 H2; try discriminate; auto.
  apply bltb_cons in H1. apply bltb_cons in H2. apply bltb_cons.
  destruct H1 as [H1|[-> H1]], H2 as [H2|[-> H2]]; [left; lia|left; lia|left; lia|right; split; [reflexivity|eauto]].
Qed.
Lemma bltb_total a : forall b, bltb a b = false -> a = b \/ bltb b a = true.
Proof.
  induction a as [|x a IH]; intros [|y b] H; auto; try discriminate.
  destruct (Z.lt_trichotomy x y) as [L|[E|L]].
  - exfalso. assert (bltb (x :: a) (y :: b) = true) by (apply bltb_cons; auto). congruence.
  - subst y. destruct (IH b) as [E|E].
    + destruct (bltb a b) eqn:E; [|reflexivity]. exfalso.
      assert (bltb (x :: a) (x :: b) = true) by (apply bltb_cons; auto). congruence.
    + left. congruence.
    + right. apply bltb_cons. auto.
  - right. apply bltb_cons. auto.
Qed.

Definition keylt (a b : list Z * list Z) : Prop := bltb (fst a) (fst b) = true.
Definition sorted (m : kvmap) : Prop := StronglySorted keylt m.

Lemma map_insert_In k v m kv : In kv (map_insert k v m) -> kv = (k, v) \/ In kv m.
Proof.
  induction m as [|[k' v'] m IH]; cbn [map_insert]; intro H.
  - destruct H as [H|[]]. auto.
  - destruct (beqb k k'); [auto|]. destruct (bltb k k'); [destruct H as [H|H]; auto|].
    destruct H as [H|H]; [right; left; auto|]. destruct (IH H); auto. right; right; auto.
Qed.
Lemma map_insert_sorted k v m : sorted m -> sorted (map_insert k v m).
Proof.
  unfold sorted. induction m as [|[k' v'] m IH]; cbn [map_insert]; intro H.
  - constructor; constructor.
  - inversion H as [|? ? H1 H2]; subst. destruct (beqb k k') eqn:E; [assumption|].
    destruct (bltb k k') eqn:L.
    + constructor; [assumption|]. constructor; [exact L|].
      apply Forall_forall. intros kv Hin. rewrite Forall_forall in H2. specialize (H2 kv Hin).
      unfold keylt in *. cbn [fst] in *. eapply bltb_trans; eauto.
    + constructor; [auto|]. apply Forall_forall. intros kv Hin. apply map_insert_In in Hin as [->|Hin].
      * unfold keylt. cbn [fst]. apply beqb_neq in E. destruct (bltb_total _ _ L); [contradiction|assumption].
      * rewrite Forall_forall in H2. auto.
Qed.
Lemma map_find_lt k m : Forall (fun kv => bltb k (fst kv) = true) m -> map_find k m = None.
Proof.
  induction m as [|[k' v'] m IH]; intro H; cbn [map_find]; [reflexivity|].
  inversion H; subst. cbn [fst] in *. destruct (beqb k k') eqn:E; [|auto].
  apply beqb_eq in E. subst. rewrite bltb_irrefl in *. discriminate.
Qed.
Lemma map_find_insert k v k' m : sorted m ->
  map_find k' (map_insert k v m) =
  if beqb k' k then Some (match map_find k m with Some v' => v' | None => v end) else map_find k' m.
Proof.
  unfold sorted. induction m as [|[k0 v0] m IH]; cbn [map_insert]; intro H.
  - cbn [map_find]. destruct (beqb k' k); reflexivity.
  - inversion H as [|? ? H1 H2]; subst. destruct (beqb k k0) eqn:E.
    + apply beqb_eq in E. subst k0. cbn [map_find]. rewrite beqb_refl. destruct (beqb k' k); reflexivity.
    + destruct (bltb k k0) eqn:L.
      * cbn [map_find]. rewrite E. destruct (beqb k' k) eqn:E2; [|reflexivity].
        rewrite map_find_lt; [reflexivity|]. apply Forall_forall. intros kv Hin. rewrite Forall_forall in H2.
        specialize (H2 kv Hin). unfold keylt in H2. cbn [fst] in H2. eapply bltb_trans; eauto.
      * cbn [map_find]. rewrite E. rewrite IH by assumption.
        destruct (beqb k' k0) eqn:E2; [|destruct (beqb k' k); reflexivity].
        apply beqb_eq in E2. subst k'. apply beqb_neq in E. destruct (beqb k0 k) eqn:E3; [|reflexivity].
        apply beqb_eq in E3. congruence.
Qed.
Lemma map_find_In k v m : sorted m -> (map_find k m = Some v <-> In (k, v) m).
Proof.
  unfold sorted. induction m as [|[k0 v0] m IH]; intro H; cbn [map_find In]; [split; [discriminate|tauto]|].
  inversion H as [|? ? H1 H2]; subst. destruct (beqb k k0) eqn:E.
  - apply beqb_eq in E. subst k0. split; intro Hx.
    + inv Hx. auto.
    + destruct Hx as [Hx|Hx]; [congruence|]. exfalso. rewrite Forall_forall in H2. specialize (H2 _ Hx).
      unfold keylt in H2. cbn [fst] in H2. rewrite bltb_irrefl in H2. discriminate.
  - rewrite IH by assumption. split; [auto|]. intros [Hx|Hx]; [|assumption]. inv Hx. rewrite beqb_refl in E. discriminate.
Qed.
Lemma map_erase_In k m kv : In kv (map_erase k m) -> In kv m.
Proof.
  induction m as [|[k' v'] m IH]; cbn [map_erase]; [auto|]. destruct (beqb k k'); intro H; [right; auto|].
  destruct H; [left; auto|right; auto].
Qed.
Lemma map_erase_sorted k m : sorted m -> sorted (map_erase k m).
Proof.
  unfold sorted. induction m as [|[k' v'] m IH]; cbn [map_erase]; intro H; [assumption|].
  inversion H as [|? ? H1 H2]; subst. destruct (beqb k k'); [assumption|]. constructor; [auto|].
  apply Forall_forall. intros kv Hin. rewrite Forall_forall in H2. apply H2. eapply map_erase_In; eauto.
Qed.
Lemma map_find_erase k k' m : sorted m -> k' <> k -> map_find k' (map_erase k m) = map_find k' m.
Proof.
  unfold sorted. induction m as [|[k0 v0] m IH]; cbn [map_erase map_find]; intros H N; [reflexivity|].
  inversion H as [|? ? H1 H2]; subst. destruct (beqb k k0) eqn:E.
  - apply beqb_eq in E. subst k0. destruct (beqb k' k) eqn:E2; [|reflexivity]. apply beqb_eq in E2. contradiction.
  - cbn [map_find]. rewrite IH by assumption. reflexivity.
Qed.
Lemma map_find_erase_same k m : sorted m -> map_find k (map_erase k m) = None.
Proof.
  unfold sorted. induction m as [|[k0 v0] m IH]; cbn [map_erase map_find]; intros H; [reflexivity|].
  inversion H as [|? ? H1 H2]; subst. destruct (beqb k k0) eqn:E.
  - apply beqb_eq in E. subst k0. apply map_find_lt. exact H2.
  - cbn [map_find]. rewrite E. auto.
Qed.

(** case folding *)
Lemma tolower_ci x y : tolower x = tolower y <-> ci_char x y.
Proof.
  unfold tolower, ci_char. destruct ((65 <=? x) && (x <=? 90)) eqn:E1, ((65 <=? y) && (y <=? 90)) eqn:E2; b2p; lia.
Qed.
Lemma to_lower_nonul l : ~ In 0 l -> to_lower l = map tolower l.
Proof.
  induction l as [|c l IH]; cbn [to_lower map In]; intro H; [reflexivity|].
  destruct (Z.eqb_spec c 0); [exfalso; apply H; auto|]. rewrite IH; [reflexivity|tauto].
Qed.
Lemma ci_eq_lower a : forall b, ~ In 0 a -> ~ In 0 b -> (ci_eq a b <-> to_lower a = to_lower b).
Proof.
  intros b Ha Hb. rewrite !to_lower_nonul by assumption. clear. revert b. unfold ci_eq.
  induction a as [|x a IH]; intros [|y b]; cbn [map]; split; intro H; try discriminate; auto; try (inversion H; fail).
  - inversion H; subst. f_equal; [apply tolower_ci; assumption|apply IH; assumption].
  - injection H as H1 H2. constructor; [apply tolower_ci; assumption|apply IH; assumption].
Qed.
Lemma ci_eq_refl a : ci_eq a a.
Proof. induction a; constructor; auto. left. reflexivity. Qed.
Lemma ci_eq_sym a b : ci_eq a b -> ci_eq b a.
Proof. induction 1; constructor; auto. unfold ci_char in *. lia. Qed.
Lemma ci_eq_trans a : forall b c, ci_eq a b -> ci_eq b c -> ci_eq a c.
Proof.
  induction a; intros b c H1 H2; inversion H1; subst; inversion H2; subst; constructor; [|eapply IHa; eauto].
  apply tolower_ci. apply tolower_ci in H3, H4. congruence.
Qed.
Lemma to_lower_nil l : to_lower l = [] -> l = [].
Proof. destruct l as [|c l]; [auto|]. cbn [to_lower]. destruct (c =? 0); discriminate. Qed.

Definition hins (hs : list (list Z * list Z)) (m : kvmap) : kvmap :=
  fold_left (fun m kv => insert_header (fst kv) (snd kv) m) hs m.
Lemma hins_sorted hs : forall m, sorted m -> sorted (hins hs m).
Proof.
  induction hs as [|[k v] hs IH]; intros m H; [exact H|]. unfold hins in *. cbn [fold_left]. apply IH.
  unfold insert_header. cbn [fst]. destruct k; [assumption|apply map_insert_sorted; assumption].
Qed.
Lemma hins_app a b m : hins (a ++ b) m = hins b (hins a m).
Proof. unfold hins. apply fold_left_app. Qed.
Lemma sorted_nil : sorted []. Proof. constructor. Qed.

Fixpoint assoc_ci (n : list Z) (hs : list (list Z * list Z)) : option (list Z) :=
  match hs with
  | [] => None
  | (k, v) :: hs => if beqb (to_lower n) (to_lower k) then Some v else assoc_ci n hs
  end.
Lemma hins_find n hs : forall m, sorted m -> Forall (fun kv => fst kv <> []) hs ->
  map_find (to_lower n) (hins hs m) =
  match map_find (to_lower n) m with Some v => Some v | None => assoc_ci n hs end.
Proof.
  induction hs as [|[k v] hs IH]; intros m Hs Hg.
  - cbn. destruct (map_find (to_lower n) m); reflexivity.
  - inversion Hg as [|? ? Hk Hg']; subst. cbn [fst] in Hk. unfold hins in *. cbn [fold_left fst snd].
    rewrite IH; [|unfold insert_header; destruct k; [contradiction|]; apply map_insert_sorted; assumption|assumption].
    unfold insert_header. destruct k as [|c k]; [contradiction|]. rewrite map_find_insert by assumption.
    cbn [assoc_ci]. set (kk := c :: k) in *. destruct (beqb (to_lower n) (to_lower kk)) eqn:E.
    + apply beqb_eq in E. rewrite E. destruct (map_find (to_lower kk) m); reflexivity.
    + destruct (map_find (to_lower n) m); reflexivity.
Qed.

Definition namedok (hs : list (list Z * list Z)) : Prop := Forall (fun kv => fst kv <> [] /\ ~ In 0 (fst kv)) hs.
Lemma namedok_ne hs : namedok hs -> Forall (fun kv => fst kv <> []) hs.
Proof. apply Forall_impl. tauto. Qed.
Lemma assoc_first n hs v : namedok hs -> ~ In 0 n -> (assoc_ci n hs = Some v <-> first_value hs n v).
Proof.
  intros Hok Hn. induction hs as [|[k w] hs IH].
  - cbn. split; [discriminate|]. intros (pre & k & post & H & _). destruct pre; discriminate.
  - inversion Hok as [|? ? [Hk1 Hk2] Hok']; subst. cbn [fst] in *. cbn [assoc_ci].
    destruct (beqb (to_lower n) (to_lower k)) eqn:E.
    + apply beqb_eq in E. symmetry in E. apply ci_eq_lower in E; [|assumption|assumption]. split; intro H.
      * inv H. exists [], k, hs. auto.
      * destruct H as (pre & k' & post & H1 & H2 & H3). destruct pre as [|kv pre]; [inv H1; reflexivity|].
        inv H1. inversion H3; subst. cbn [fst] in *. contradiction.
    + rewrite IH by assumption. apply beqb_neq in E. assert (N : ~ ci_eq k n).
      { intro C. apply ci_eq_lower in C; [|assumption|assumption]. congruence. }
      split; intros (pre & k' & post & H1 & H2 & H3).
      * subst hs. exists ((k, w) :: pre), k', post. auto.
      * destruct pre as [|kv pre]; [inv H1; contradiction|]. inv H1. inversion H3; subst. exists pre, k', post. auto.
Qed.
Lemma assoc_none n hs : namedok hs -> ~ In 0 n -> (assoc_ci n hs = None <-> no_value hs n).
Proof.
  intros Hok Hn. unfold no_value. induction hs as [|[k w] hs IH]; [cbn; split; constructor|].
  inversion Hok as [|? ? [Hk1 Hk2] Hok']; subst. cbn [fst] in *. cbn [assoc_ci].
  destruct (beqb (to_lower n) (to_lower k)) eqn:E.
  - apply beqb_eq in E. symmetry in E. apply ci_eq_lower in E; [|assumption|assumption]. split; [discriminate|].
    intro H. inversion H; subst. cbn [fst] in *. contradiction.
  - apply beqb_neq in E. rewrite IH by assumption. split; intro H.
    + constructor; [|assumption]. cbn [fst]. intro C. apply ci_eq_lower in C; [|assumption|assumption]. congruence.
    + inversion H; assumption.
Qed.
