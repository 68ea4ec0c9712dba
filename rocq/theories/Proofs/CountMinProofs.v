(** Proofs about the count-min sketch. *)
From Coq Require Import List Arith ZArith Bool Lia Permutation.
From Verif.Model Require Import Common CountMin.
From Verif.Spec Require Import SketchSpec.
From Verif.Proofs Require Import Tac.
Import ListNotations.
Local Open Scope Z_scope.

Lemma upd_nth_length {A} n (f : A -> A) : forall l, length (upd_nth n f l) = length l.
Proof. induction n; intros [|x l]; cbn; auto. Qed.
Lemma upd_nth_same {A} n (f : A -> A) (d : A) : forall l, (n < length l)%nat -> nth n (upd_nth n f l) d = f (nth n l d).
Proof. induction n; intros [|x l] L; cbn in *; try lia; auto. apply IHn. lia. Qed.
Lemma upd_nth_other {A} n (f : A -> A) (d : A) : forall m l, n <> m -> nth m (upd_nth n f l) d = nth m l d.
Proof. induction n; intros [|m] [|x l] N; cbn; auto; try lia. Qed.
Lemma upd_nth_in {A} n (f : A -> A) x : forall l, In x (upd_nth n f l) -> In x l \/ exists y, In y l /\ x = f y.
Proof.
  induction n; intros [|y l] I; cbn in *; auto.
  - destruct I as [<-|I]; eauto.
  - destruct I as [<-|I]; auto. apply IHn in I as [I|(z & I & ->)]; eauto.
Qed.

Section C.
Context {D : Type} (hash : D -> nat -> Z * Z) (deq : forall a b : D, {a = b} + {a <> b}).
Notation column := (column hash).
Notation weight := (weight hash).

Record shape (w d : nat) (rows : list (list Z)) : Prop := {
  sh_d : length rows = d;
  sh_w : forall row, In row rows -> length row = w
}.
Lemma shape_nth w d rows r : shape w d rows -> (r < d)%nat -> length (nth r rows []) = w.
Proof. intros [A B] L. apply B, nth_In. lia. Qed.
Lemma shape_add w d rows r c n : shape w d rows -> shape w d (add_cell rows r c n).
Proof.
  intros [A B]. split.
  - unfold add_cell. now rewrite upd_nth_length.
  - intros row I. apply upd_nth_in in I as [I|(y & I & ->)]; auto. rewrite upd_nth_length. auto.
Qed.
Lemma column_lt w key r : (0 < w)%nat -> (column w key r < w)%nat.
Proof.
  intro W. unfold CountMin.column.
  pose proof (Z.mod_pos_bound (if (r mod 2 =? 0)%nat then fst (hash key (r - r mod 2)) else snd (hash key (r - r mod 2))) (Z.of_nat w)).
  lia.
Qed.
Lemma cell_add w d rows r c n r' c' : shape w d rows -> (r < d)%nat -> (c < w)%nat ->
  cell (add_cell rows r c n) r' c' = if (r =? r')%nat && (c =? c')%nat then add8 n (cell rows r' c') else cell rows r' c'.
Proof.
  intros SH R C. pose proof (sh_d _ _ _ SH) as LD. unfold cell, add_cell.
  destruct (Nat.eqb_spec r r') as [<-|NR]; cbn [andb].
  - rewrite upd_nth_same by lia. destruct (Nat.eqb_spec c c') as [<-|NC].
    + apply upd_nth_same. rewrite (shape_nth _ _ _ _ SH R). auto.
    + now apply upd_nth_other.
  - now rewrite upd_nth_other.
Qed.

Lemma inc_rows_spec w d key n : (0 < w)%nat -> forall m r rows b, shape w d rows -> (r + m <= d)%nat ->
  shape w d (fst (inc_rows hash m r w key n rows b)) /\
  (forall r' c', cell (fst (inc_rows hash m r w key n rows b)) r' c' =
     if (r <=? r')%nat && (r' <? r + m)%nat && (c' =? column w key r')%nat then add8 n (cell rows r' c') else cell rows r' c') /\
  (snd (inc_rows hash m r w key n rows b) = b || existsb (fun r' => cell rows r' (column w key r') =? 0) (seq r m)).
Proof.
  intro W. induction m as [|m IH]; intros r rows b SH L; cbn [inc_rows].
  - cbn [fst snd seq existsb]. split; auto. split; [|now rewrite orb_false_r].
    intros r' c'. destruct (Nat.leb_spec r r'), (Nat.ltb_spec r' (r + 0)); cbn; auto; lia.
  - pose proof (column_lt w key r W) as CL.
    destruct (IH (S r) (add_cell rows r (column w key r) n) (b || (cell rows r (column w key r) =? 0)))
      as (A & B & C); [apply shape_add; auto|lia|].
    split; [exact A|]. split.
    + intros r' c'. rewrite B, (cell_add w d) by (auto; lia).
      destruct (Nat.eqb_spec r r') as [<-|NR].
      * destruct (Nat.leb_spec (S r) r); [lia|]. destruct (Nat.leb_spec r r); [|lia]. destruct (Nat.ltb_spec r (r + S m)); [|lia].
        cbn [andb]. rewrite (Nat.eqb_sym c'). reflexivity.
      * cbn [andb]. destruct (Nat.leb_spec (S r) r'), (Nat.leb_spec r r'), (Nat.ltb_spec r' (S r + m)), (Nat.ltb_spec r' (r + S m)); cbn [andb]; auto; lia.
    + rewrite C. cbn [seq existsb]. rewrite <- orb_assoc. f_equal. f_equal.
      assert (X : forall l, (forall x, In x l -> (r < x)%nat) ->
        existsb (fun r' => cell (add_cell rows r (column w key r) n) r' (column w key r') =? 0) l =
        existsb (fun r' => cell rows r' (column w key r') =? 0) l).
      { induction l as [|x l IHl]; intro LT; cbn; auto. rewrite IHl by (intros; apply LT; right; auto). f_equal.
        rewrite (cell_add w d) by (auto; lia). destruct (Nat.eqb_spec r x); auto. specialize (LT x (or_introl eq_refl)). lia. }
      apply X. intros x I. apply in_seq in I. lia.
Qed.

Lemma add8_mod a x n : x = a mod 256 -> add8 n x = (a + n) mod 256.
Proof. intros ->. unfold add8. now rewrite Zplus_mod_idemp_l. Qed.

Definition holds (w d : nat) (f : nat -> nat -> Z) (s : sketch) : Prop :=
  sk_width s = w /\ shape w d (sk_rows s) /\
  forall r c, (r < d)%nat -> cell (sk_rows s) r c = (if (c <? w)%nat then f r c mod 256 else 0).

Lemma holds_new w d : holds w d (fun _ _ => 0) (sketch_new w d).
Proof.
  unfold sketch_new. split; auto. cbn [sk_rows]. split.
  - split; [apply repeat_length|]. intros row I. apply repeat_spec in I as ->. apply repeat_length.
  - intros r c L. unfold cell.
    assert (E : nth r (repeat (repeat 0 w) d) [] = repeat 0 w).
    { clear c. revert r L. induction d; intros [|r] L; cbn; auto; try lia. apply IHd. lia. }
    rewrite E. destruct (Nat.ltb_spec c w).
    + cbn. clear. revert c. induction w; intros [|c]; cbn; auto.
    + clear - H. revert c H. induction w; intros [|c] H; cbn; auto; try lia. apply IHw. lia.
Qed.

Lemma increase_spec w d f s key n : (0 < w)%nat -> holds w d f s ->
  exists s', increase hash s key n = Ok s' /\
    holds w d (fun r c => f r c + (if (c =? column w key r)%nat then n else 0)) s' /\
    sk_distinct s' = if existsb (fun r => cell (sk_rows s) r (column w key r) =? 0) (seq 0 d)
                     then sk_distinct s + 1 else sk_distinct s.
Proof.
  intros W (EW & SH & CE). unfold increase. rewrite EW. destruct (Nat.eqb_spec w 0); [lia|]. cbn [andb].
  rewrite (sh_d _ _ _ SH).
  destruct (inc_rows_spec w d key n W d 0 (sk_rows s) false SH) as (A & B & C); [lia|].
  destruct (inc_rows hash d 0 w key n (sk_rows s) false) as [rows b]. cbn [fst snd orb] in *.
  eexists. split; [reflexivity|]. split; [|cbn [sk_distinct]; now rewrite C].
  split; auto. split; auto. cbn [sk_rows]. intros r c L. rewrite B, CE by auto.
  destruct (Nat.leb_spec 0 r); [|lia]. destruct (Nat.ltb_spec r (0 + d)); [|lia]. cbn [andb].
  destruct (Nat.ltb_spec c w).
  - destruct (Nat.eqb_spec c (column w key r)).
    + apply add8_mod. reflexivity.
    + now rewrite Z.add_0_r.
  - pose proof (column_lt w key r W). destruct (Nat.eqb_spec c (column w key r)); [lia|]. reflexivity.
Qed.

Lemma holds_ext w d f g s : (forall r c, f r c = g r c) -> holds w d f s -> holds w d g s.
Proof. intros E (A & B & C). split; auto. split; auto. intros. rewrite C by auto. now rewrite E. Qed.

Lemma inc_all_spec w d : (0 < w)%nat -> forall h f s, holds w d f s ->
  exists s', inc_all hash s h = Ok s' /\ holds w d (fun r c => f r c + weight w h r c) s'.
Proof.
  intro W. induction h as [|[key n] h IH]; intros f s H; cbn [inc_all weight].
  - eexists. split; [reflexivity|]. eapply holds_ext; [|exact H]. intros. cbn. lia.
  - destruct (increase_spec w d f s key n W H) as (s1 & E1 & H1 & _). rewrite E1. cbn [obind].
    destruct (IH _ _ H1) as (s2 & E2 & H2). exists s2. split; auto.
    eapply holds_ext; [|exact H2]. intros. cbn. lia.
Qed.

Fixpoint min_list (m : Z) (l : list Z) : Z := match l with [] => m | x :: l' => min_list (Z.min x m) l' end.
Lemma est_rows_spec w key rows : forall n r m, est_rows hash n r w key rows m =
  min_list m (map (fun r' => cell rows r' (column w key r')) (seq r n)).
Proof. induction n; intros; cbn; auto. Qed.
Lemma min_list_le m l : min_list m l <= m /\ forall x, In x l -> min_list m l <= x.
Proof.
  revert m. induction l as [|y l IH]; intro m; cbn.
  - split; [lia|tauto].
  - destruct (IH (Z.min y m)) as [A B]. split; [lia|]. intros x [->|I]; auto. lia.
Qed.
Lemma min_list_in m l : min_list m l = m \/ In (min_list m l) l.
Proof.
  revert m. induction l as [|y l IH]; intro m; cbn; auto.
  destruct (IH (Z.min y m)) as [E|I]; auto. rewrite E. destruct (Z.min_spec y m) as [[_ ->]|[_ ->]]; auto.
Qed.

(** the estimate is the smallest of the cells *)
Lemma estimate_spec w d f s key : (0 < w)%nat -> (0 < d)%nat -> holds w d f s ->
  exists e, estimate hash s key = Ok e /\
    (exists r, (r < d)%nat /\ e = f r (column w key r) mod 256) /\
    (forall r, (r < d)%nat -> e <= f r (column w key r) mod 256).
Proof.
  intros W DP (EW & SH & CE). unfold estimate. rewrite EW. destruct (Nat.eqb_spec w 0); [lia|]. cbn [andb].
  rewrite (sh_d _ _ _ SH), est_rows_spec. eexists. split; [reflexivity|].
  assert (CC : forall r, (r < d)%nat -> cell (sk_rows s) r (column w key r) = f r (column w key r) mod 256).
  { intros r L. rewrite CE by auto. pose proof (column_lt w key r W). destruct (Nat.ltb_spec (column w key r) w); [auto|lia]. }
  destruct (min_list_le (2 ^ 64 - 1) (map (fun r' => cell (sk_rows s) r' (column w key r')) (seq 0 d))) as [LM LE].
  assert (LE' : forall r, (r < d)%nat -> min_list (2 ^ 64 - 1) (map (fun r' => cell (sk_rows s) r' (column w key r')) (seq 0 d)) <= f r (column w key r) mod 256).
  { intros r L. rewrite <- CC by auto. apply LE. apply in_map_iff. exists r. split; auto. apply in_seq. lia. }
  split; auto.
  destruct (min_list_in (2 ^ 64 - 1) (map (fun r' => cell (sk_rows s) r' (column w key r')) (seq 0 d))) as [E|I].
  - exfalso. specialize (LE' 0%nat DP). rewrite E in LE'. pose proof (Z.mod_pos_bound (f 0%nat (column w key 0)) 256). lia.
  - apply in_map_iff in I as (r & E & I). apply in_seq in I. exists r. split; [lia|]. rewrite <- CC by lia. auto.
Qed.

Lemma weight_nonneg w h r c : (forall k n, In (k, n) h -> 0 <= n) -> 0 <= weight w h r c.
Proof.
  induction h as [|[k n] h IH]; intro P; cbn; [lia|]. specialize (IH (fun k' n' I => P k' n' (or_intror I))).
  pose proof (P k n (or_introl eq_refl)). destruct (_ =? _)%nat; lia.
Qed.
Lemma weight_total w h key r : (forall k n, In (k, n) h -> 0 <= n) -> total deq key h <= weight w h r (column w key r).
Proof.
  induction h as [|[k n] h IH]; intro P; cbn; [lia|]. specialize (IH (fun k' n' I => P k' n' (or_intror I))).
  pose proof (P k n (or_introl eq_refl)). destruct (deq k key) as [->|]; [rewrite Nat.eqb_refl; lia|].
  destruct (_ =? _)%nat; lia.
Qed.
Lemma weight_grand w h r c : (forall k n, In (k, n) h -> 0 <= n) -> weight w h r c <= grand_total h.
Proof.
  induction h as [|[k n] h IH]; intro P; cbn; [lia|]. specialize (IH (fun k' n' I => P k' n' (or_intror I))).
  pose proof (P k n (or_introl eq_refl)). destruct (_ =? _)%nat; lia.
Qed.
Lemma total_alone w h key r : (forall k n, In (k, n) h -> k <> key -> column w k r <> column w key r) ->
  weight w h r (column w key r) = total deq key h.
Proof.
  induction h as [|[k n] h IH]; intro P; cbn; auto. rewrite IH by (intros; eapply P; [right; eauto|auto]). f_equal.
  destruct (deq k key) as [->|N]; [now rewrite Nat.eqb_refl|].
  destruct (Nat.eqb_spec (column w key r) (column w k r)) as [E|]; auto. exfalso. eapply P; eauto. left; auto.
Qed.

Lemma weight_app w a b r c : weight w (a ++ b) r c = weight w a r c + weight w b r c.
Proof. induction a as [|[k n] a IH]; cbn; [lia|]. rewrite IH. lia. Qed.
Lemma inc_all_app a : forall s b, inc_all hash s (a ++ b) = obind (inc_all hash s a) (fun s' => inc_all hash s' b).
Proof.
  induction a as [|[k n] a IH]; intros s b; cbn [app inc_all obind]; auto.
  destruct (increase hash s k n); cbn [obind]; auto.
Qed.
Lemma grand_app (a b : list (D * Z)) : grand_total (a ++ b) = grand_total a + grand_total b.
Proof. induction a as [|[k n] a IH]; cbn; lia. Qed.

Lemma seen_positive w h key n r : (forall k m, In (k, m) h -> 0 < m) -> In (key, n) h -> 0 < weight w h r (column w key r).
Proof.
  induction h as [|[k m] h IH]; intros P I; [destruct I|]. cbn.
  assert (0 <= weight w h r (column w key r)).
  { apply weight_nonneg. intros k' n' J. specialize (P k' n' (or_intror J)). lia. }
  pose proof (P k m (or_introl eq_refl)).
  destruct I as [E|I].
  - inv E. rewrite Nat.eqb_refl. lia.
  - specialize (IH (fun k' n' J => P k' n' (or_intror J)) I). destruct (_ =? _)%nat; lia.
Qed.

Lemma distinct_snoc (h : list (D * Z)) key n : distinct_keys deq (h ++ [(key, n)]) =
  if in_dec deq key (map fst h) then distinct_keys deq h else S (distinct_keys deq h).
Proof.
  unfold distinct_keys. rewrite map_app. cbn [map fst].
  generalize (map fst h). intro l.
  assert (P : Permutation (nodup deq (l ++ [key])) (nodup deq (key :: l))).
  { apply NoDup_Permutation; try apply NoDup_nodup. intro x. rewrite !nodup_In, in_app_iff. cbn. tauto. }
  rewrite (Permutation_length P). cbn [nodup]. destruct (in_dec deq key l); auto.
Qed.

Lemma distinct_bound w d : (0 < w)%nat -> forall h s,
  (forall k n, In (k, n) h -> 0 < n) -> grand_total h < 256 ->
  inc_all hash (sketch_new w d) h = Ok s -> 0 <= sk_distinct s <= Z.of_nat (distinct_keys deq h).
Proof.
  intro W. induction h as [|[key n] h IH] using rev_ind; intros s P G E.
  - inv E. cbn. lia.
  - rewrite inc_all_app in E. destruct (inc_all_spec w d W h _ _ (holds_new w d)) as (s1 & E1 & H1).
    rewrite E1 in E. cbn [obind inc_all] in E.
    destruct (increase_spec w d _ _ key n W H1) as (s2 & E2 & H2 & DC). rewrite E2 in E. cbn [obind] in E. inv E.
    assert (P1 : forall k m, In (k, m) h -> 0 < m) by (intros; eapply P, in_or_app; left; eauto).
    assert (P0 : forall k m, In (k, m) h -> 0 <= m) by (intros k m J; apply P1 in J; lia).
    assert (N0 : 0 < n) by (apply (P key), in_or_app; right; left; auto).
    rewrite grand_app in G. cbn [grand_total] in G.
    specialize (IH s1 P1 ltac:(lia) E1).
    rewrite distinct_snoc. rewrite DC. destruct (in_dec deq key (map fst h)) as [I|I].
    + apply in_map_iff in I as ([k m] & <- & I). cbn [fst] in *.
      assert (F : existsb (fun r => cell (sk_rows s1) r (column w k r) =? 0) (seq 0 d) = false).
      { apply not_true_is_false. intro X. apply existsb_exists in X as (r & J & Z0). apply in_seq in J.
        destruct H1 as (_ & _ & CE). rewrite CE in Z0 by lia. pose proof (column_lt w k r W).
        destruct (Nat.ltb_spec (column w k r) w); [|lia].
        pose proof (seen_positive w h k m r P1 I). pose proof (weight_grand w h r (column w k r) P0).
        rewrite Z.add_0_l, Z.mod_small in Z0 by lia. b2p. lia. }
      rewrite F. lia.
    + destruct (existsb _ _); lia.
Qed.

(** * Interleaved atomic additions *)
Lemma upd_nth_comm {A} (f g : A -> A) : forall i j l, (forall x, f (g x) = g (f x)) ->
  upd_nth i f (upd_nth j g l) = upd_nth j g (upd_nth i f l).
Proof.
  induction i; intros [|j] [|x l] H; cbn; auto; f_equal; auto.
Qed.
Lemma add8_comm a b x : add8 a (add8 b x) = add8 b (add8 a x).
Proof. unfold add8. rewrite !Zplus_mod_idemp_l. f_equal. lia. Qed.
Lemma add_cell_comm rows r c n r' c' n' :
  add_cell (add_cell rows r c n) r' c' n' = add_cell (add_cell rows r' c' n') r c n.
Proof.
  unfold add_cell. apply upd_nth_comm. intro row. apply upd_nth_comm. intro x. apply add8_comm.
Qed.
Lemma do_adds_perm l l' : Permutation l l' -> forall rows, do_adds rows l = do_adds rows l'.
Proof.
  unfold do_adds. induction 1; intro rows; cbn; auto.
  - now rewrite add_cell_comm.
  - now rewrite IHPermutation1.
Qed.
Lemma inc_rows_adds w key n : forall m r rows b, fst (inc_rows hash m r w key n rows b) =
  do_adds rows (map (fun r => (r, column w key r, n)) (seq r m)).
Proof. unfold do_adds. induction m; intros; cbn; auto. Qed.
End C.
