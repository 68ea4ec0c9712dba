From Verif.Model Require Import Common Itoa.
From Verif.Spec Require Import ItoaSpec.
From Verif.Proofs Require Import Tac.
Local Open Scope Z_scope.

Lemma poke_at a x b c i : i = length a -> poke (a ++ x :: b) i c = Ok (a ++ c :: b).
Proof.
  intros ->. unfold poke, mem_write. rewrite app_length. cbn [length].
  replace (length a + 1 <=? length a + S (length b))%nat with true by (symmetry; apply Nat.leb_le; lia).
  rewrite firstn_app, firstn_all, Nat.sub_diag, firstn_O, app_nil_r.
  rewrite skipn_app, skipn_all2 by lia. replace (length a + 1 - length a)%nat with 1%nat by lia. reflexivity.
Qed.
Lemma split_at (m : list Z) k : (k < length m)%nat -> exists a x b, m = a ++ x :: b /\ length a = k.
Proof.
  intros H. exists (firstn k m), (nth k m 0), (skipn (S k) m). split; [|rewrite firstn_length; lia].
  rewrite <- (firstn_skipn k m) at 1. f_equal. revert m H. induction k as [|k IH]; intros [|y m] H; cbn in *; try lia; auto. apply IH. lia.
Qed.
Lemma digit_glyph d : 0 <= d < 16 -> digit_char d = glyph d.
Proof.
  intros H. assert (K : d = 0 \/ d = 1 \/ d = 2 \/ d = 3 \/ d = 4 \/ d = 5 \/ d = 6 \/ d = 7 \/ d = 8 \/ d = 9 \/ d = 10 \/ d = 11 \/ d = 12 \/ d = 13 \/ d = 14 \/ d = 15) by lia.
  repeat (destruct K as [->|K]; [reflexivity|]). now subst.
Qed.

(** The digits the loop produces, the least significant first. *)
Inductive dw (base : Z) : Z -> nat -> list Z -> Prop :=
| dw_last j pad : (0 <? j / base) || (0 <? Nat.pred pad)%nat = false -> dw base j pad [j mod base]
| dw_more j pad ds : (0 <? j / base) || (0 <? Nat.pred pad)%nat = true -> dw base (j / base) (Nat.pred pad) ds -> dw base j pad (j mod base :: ds).
Lemma dw_exists base : 2 <= base -> forall k j pad, 0 <= j -> (Z.to_nat j + pad <= k)%nat -> exists ds, dw base j pad ds.
Proof.
  intros Hb. induction k as [|k IH]; intros j pad Hj Hk.
  - assert (j = 0) by lia. subst. assert (pad = 0%nat) by lia. subst. eexists. apply dw_last. rewrite Z.div_0_l by lia. reflexivity.
  - destruct ((0 <? j / base) || (0 <? Nat.pred pad)%nat) eqn:E; [|eexists; now apply dw_last].
    destruct (IH (j / base) (Nat.pred pad)) as [ds D].
    + apply Z.div_pos; lia.
    + apply orb_prop in E. destruct E as [E|E]; b2p.
      * assert (j / base < j) by (apply Z.div_lt; [|lia]; destruct (Z.eq_dec j 0) as [->|]; [rewrite Z.div_0_l in E; lia|lia]). lia.
      * assert (j / base <= j) by (apply Z.div_le_upper_bound; nia). assert (0 <= j / base) by (apply Z.div_pos; lia). lia.
    + exists (j mod base :: ds). apply dw_more; assumption.
Qed.
Lemma value_snoc base a d : value base (a ++ [d]) = value base a * base + d.
Proof. unfold value. now rewrite fold_left_app. Qed.
Lemma dw_value base : 2 <= base -> forall j pad ds, dw base j pad ds -> 0 <= j -> value base (rev ds) = j /\ Forall (fun d => 0 <= d < base) ds /\ (1 <= length ds)%nat /\ (pad <= length ds)%nat.
Proof.
  intros Hb j pad ds D. induction D as [j pad E|j pad ds E D IH]; intros Hj.
  - b2p. pose proof (Z.div_mod j base ltac:(lia)). pose proof (Z.div_pos j base Hj ltac:(lia)). assert (X : j / base = 0) by lia. rewrite X, Z.mul_0_r in *. cbn [rev app length]. split; [unfold value; cbn; lia|]. split; [|split; lia].
    constructor; [apply Z.mod_pos_bound; lia|constructor].
  - destruct IH as (V & F & L1 & L2); [apply Z.div_pos; lia|]. cbn [rev length]. rewrite value_snoc, V.
    pose proof (Z.div_mod j base ltac:(lia)). split; [lia|]. split; [constructor; [apply Z.mod_pos_bound; lia|exact F]|]. split; lia.
Qed.
Lemma dw_lead base : 2 <= base -> forall j pad ds, dw base j pad ds -> 0 <= j -> (Nat.max 1 pad < length ds)%nat -> last ds 0 <> 0.
Proof.
  intros Hb j pad ds D. induction D as [j pad E|j pad ds E D IH]; intros Hj HL; [cbn [length] in HL; lia|].
  assert (Q : 0 <= j / base) by (apply Z.div_pos; lia).
  assert (NE : ds <> []) by (inv D; discriminate).
  replace (last (j mod base :: ds) 0) with (last ds 0) by (destruct ds; [contradiction|reflexivity]).
  destruct (Nat.ltb_spec (Nat.max 1 (Nat.pred pad)) (length ds)) as [K|K]; [now apply IH|].
  cbn [length] in HL. assert (length ds = 1%nat) by lia. assert (Hp : Nat.pred pad = 0%nat) by lia.
  inv D; [|inv H1; cbn in *; lia]. cbn [last]. rewrite Hp in *. cbn in E, H0. rewrite orb_false_r in *. b2p.
  assert (j / base / base = 0) by (pose proof (Z.div_pos (j / base) base Q ltac:(lia)); lia).
  pose proof (Z.div_mod (j / base) base ltac:(lia)). lia.
Qed.

Lemma loop_spec base sz : 2 <= base <= 16 -> forall j pad ds, dw base j pad ds -> 0 <= j -> forall fuel a rest ptr,
  ptr = length a -> (sz < fuel + S ptr)%nat -> (S ptr <= sz)%nat -> (sz <= ptr + length rest)%nat ->
  ((ptr + length ds < sz)%nat -> exists rest', rest' = skipn (length ds) rest /\
     digits_loop fuel (a ++ rest) sz base ptr (S ptr) j pad = Ok (a ++ map glyph ds ++ rest', Some (ptr + length ds)%nat)) /\
  ((sz <= ptr + length ds)%nat -> exists m, digits_loop fuel (a ++ rest) sz base ptr (S ptr) j pad = Ok (m, None) /\
     length m = length (a ++ rest) /\ hd 1 m = 0 /\ skipn sz m = skipn sz (a ++ rest)).
Proof.
  intros Hb j pad ds D. induction D as [j pad E|j pad ds E D IH]; intros Hj fuel a rest ptr -> Hf Hs Hr.
  - destruct fuel as [|fuel]; [lia|]. cbn [digits_loop length map app]. split; intros H.
    + rewrite (proj2 (Nat.ltb_ge sz (S (S (length a))))) by lia. destruct rest as [|x rest]; [cbn in Hr; lia|].
      eexists. split; [reflexivity|]. rewrite poke_at by reflexivity. cbn [obind]. rewrite E. rewrite Nat.add_1_r.
      rewrite digit_glyph by (pose proof (Z.mod_pos_bound j base); lia). reflexivity.
    + rewrite (proj2 (Nat.ltb_lt sz (S (S (length a))))) by lia.
      assert (NE : (0 < length (a ++ rest))%nat) by (rewrite app_length; lia). destruct (a ++ rest) as [|x m] eqn:Em; [cbn in NE; lia|].
      pose proof (poke_at [] x m 0 0 eq_refl) as P. cbn [app] in P. rewrite P. eexists. split; [reflexivity|]. repeat split; auto. destruct sz; [lia|reflexivity].
  - destruct fuel as [|fuel]; [lia|]. cbn [digits_loop]. split; intros H.
    + cbn [length] in H. rewrite (proj2 (Nat.ltb_ge sz (S (S (length a))))) by lia. destruct rest as [|x rest]; [cbn in Hr; lia|].
      rewrite poke_at by reflexivity. cbn [obind]. rewrite E. rewrite digit_glyph by (pose proof (Z.mod_pos_bound j base); lia).
      cbn [length] in Hr.
      destruct (IH ltac:(apply Z.div_pos; lia) fuel (a ++ [glyph (j mod base)]) rest (S (length a))) as [G _]; try (rewrite app_length; cbn); try lia.
      destruct (G ltac:(lia)) as (r' & -> & G'). rewrite <- app_assoc in G'. cbn [app] in G'. rewrite G'. eexists. split; [reflexivity|].
      cbn [length map app skipn]. rewrite <- app_assoc. cbn [app]. do 3 f_equal. lia.
    + destruct (Nat.ltb_spec sz (S (S (length a)))) as [K|K].
      * assert (NE : (0 < length (a ++ rest))%nat) by (rewrite app_length; lia). destruct (a ++ rest) as [|x m] eqn:Em; [cbn in NE; lia|].
        pose proof (poke_at [] x m 0 0 eq_refl) as P. cbn [app] in P. rewrite P. eexists. split; [reflexivity|]. repeat split; auto. destruct sz; [lia|reflexivity].
      * destruct rest as [|x rest]; [cbn in Hr; lia|]. rewrite poke_at by reflexivity. cbn [obind]. rewrite E. cbn [length] in Hr, H.
        destruct (IH ltac:(apply Z.div_pos; lia) fuel (a ++ [digit_char (j mod base)]) rest (S (length a))) as [_ G]; try (rewrite app_length; cbn); try lia.
        destruct (G ltac:(lia)) as (m & G1 & G2 & G3 & G4). rewrite <- app_assoc in G1. cbn [app] in G1. exists m. split; [exact G1|].
        rewrite !app_length in *. cbn [length] in *. split; [lia|]. split; [exact G3|]. rewrite G4.
        rewrite !skipn_app. rewrite !skipn_all2 by (try rewrite app_length; cbn; lia). rewrite app_length. cbn [length app].
        replace (sz - length a)%nat with (S (sz - (length a + 1)))%nat by lia. reflexivity.
Qed.

Lemma reverse_spec : forall k mid, (length mid <= k)%nat -> forall fuel a b, (length mid < fuel)%nat ->
  reverse_loop fuel (a ++ mid ++ b) (length a + length mid) (length a) = Ok (a ++ rev mid ++ b).
Proof.
  induction k as [|k IH]; intros mid Hk fuel a b Hf.
  - destruct mid; [|cbn in Hk; lia]. destruct fuel as [|fuel]; [cbn in Hf; lia|]. cbn [reverse_loop length rev app].
    rewrite (proj2 (Nat.ltb_ge (length a) _)) by lia. reflexivity.
  - destruct fuel as [|fuel]; [lia|]. cbn [reverse_loop]. destruct mid as [|x mid].
    { cbn [length rev app]. rewrite (proj2 (Nat.ltb_ge (length a) _)) by lia. reflexivity. }
    destruct mid as [|y0 mid0] using rev_ind.
    { cbn [length rev app]. rewrite (proj2 (Nat.ltb_ge (length a) _)) by lia. reflexivity. }
    clear IHmid0. cbn [length] in *. rewrite app_length in *. cbn [length] in *.
    rewrite (proj2 (Nat.ltb_lt (length a) _)) by lia.
    replace (Nat.pred (length a + S (length mid0 + 1))) with (length (a ++ x :: mid0)) by (rewrite app_length; cbn; lia).
    assert (E1 : a ++ (x :: mid0 ++ [y0]) ++ b = (a ++ x :: mid0) ++ y0 :: b) by (rewrite <- !app_assoc; cbn; rewrite <- app_assoc; reflexivity).
    replace (nth (length a) (a ++ (x :: mid0 ++ [y0]) ++ b) 0) with x by (cbn [app]; rewrite nth_middle; reflexivity).
    rewrite E1. rewrite nth_middle. rewrite poke_at by reflexivity. cbn [obind]. rewrite <- app_assoc. cbn [app].
    rewrite poke_at by reflexivity. cbn [obind].
    specialize (IH mid0 ltac:(lia) fuel (a ++ [y0]) (x :: b) ltac:(lia)). rewrite app_length in IH. cbn [length] in IH.
    rewrite <- !app_assoc in IH. cbn [app] in IH.
    replace (length (a ++ x :: mid0)) with (length a + 1 + length mid0)%nat by (rewrite app_length; cbn; lia).
    rewrite Nat.add_1_r in IH at 2. rewrite IH. cbn [rev app]. rewrite rev_app_distr. cbn [rev app]. now rewrite <- !app_assoc.
Qed.
Lemma hd_rev (l : list Z) : hd 0 (rev l) = last l 0.
Proof. induction l as [|x l IH] using rev_ind; [reflexivity|]. rewrite rev_app_distr, last_last. reflexivity. Qed.

Lemma itoa_main i m sz base pad : 2 <= base <= 16 -> - 2 ^ 63 <= i < 2 ^ 63 -> (sz <= length m)%nat ->
  exists t, text_of i base pad t /\
    ((length t < sz)%nat -> itoa_r i m sz base pad = Ok (t ++ 0 :: skipn (S (length t)) m, true)) /\
    ((sz <= length t)%nat -> exists m', itoa_r i m sz base pad = Ok (m', false) /\ length m' = length m /\
        skipn sz m' = skipn sz m /\ ((1 <= sz)%nat -> hd 1 m' = 0)).
Proof.
  intros Hb Hi Hm.
  set (neg := (i <? 0) && (base =? 10)).
  set (j := if neg then - (i + 1) + 1 else i mod 2 ^ 64).
  assert (Hj : 0 <= j).
  { unfold j, neg. destruct (i <? 0) eqn:E1, (base =? 10) eqn:E2; cbn [andb]; b2p; try lia; apply Z.mod_pos_bound; lia. }
  assert (HV : j = (if base =? 10 then Z.abs i else i mod 2 ^ 64)).
  { unfold j, neg. destruct (base =? 10) eqn:E2; rewrite ?andb_true_r, ?andb_false_r; [|reflexivity]. destruct (i <? 0) eqn:E1; b2p; [lia|]. rewrite Z.mod_small; lia. }
  destruct (dw_exists base ltac:(lia) (Z.to_nat j + pad) j pad Hj (le_n _)) as [ds D].
  destruct (dw_value base ltac:(lia) j pad ds D Hj) as (V & F & L1 & L2).
  pose proof (dw_lead base ltac:(lia) j pad ds D Hj) as LD.
  set (sg := if neg then [45] else []).
  exists (sg ++ map glyph (rev ds)).
  split.
  { exists (rev ds). split; [now apply Forall_rev|]. split; [congruence|]. rewrite rev_length. split; [lia|]. split; [lia|]. split.
    - rewrite hd_rev. exact LD.
    - unfold sg, neg. now rewrite (andb_comm (i <? 0)). }
  assert (LT : length (sg ++ map glyph (rev ds)) = (length sg + length ds)%nat) by (rewrite app_length, map_length, rev_length; reflexivity).
  rewrite LT.
  assert (SG : length sg = (if neg then 1 else 0)%nat) by (unfold sg; now destruct neg).
  unfold itoa_r. fold neg. fold j.
  destruct (Nat.ltb_spec sz 1) as [S0|S0].
  { split; intros H; [lia|]. exists m. repeat split; auto. lia. }
  replace ((base <? 2) || (16 <? base)) with false by (symmetry; apply orb_false_intro; apply Z.ltb_ge; lia).
  destruct m as [|x0 m0]; [cbn in Hm; lia|].
  pose proof (poke_at [] x0 m0 0 0 eq_refl) as P0. cbn [app] in P0.
  destruct (neg && (sz <? 2)%nat) eqn:En.
  { apply andb_prop in En. destruct En as [En1 En2]. rewrite En1 in SG. b2p. rewrite P0. cbn [obind]. split; intros H; [lia|]. eexists. split; [reflexivity|].
    repeat split; auto. destruct sz; [lia|reflexivity]. }
  assert (S1 : (S (length sg) <= sz)%nat) by (rewrite SG; destruct neg; [cbn [andb] in En; b2p|]; lia).
  assert (M : exists rest, (if neg then poke (x0 :: m0) 0 45 else Ok (x0 :: m0)) = Ok (sg ++ rest) /\ length (sg ++ rest) = length (x0 :: m0) /\ (forall k, (length sg <= k)%nat -> skipn k (sg ++ rest) = skipn k (x0 :: m0)) /\ (forall k, skipn (length sg + k) (x0 :: m0) = skipn k rest)).
  { unfold sg. destruct neg.
    - exists m0. pose proof (poke_at [] x0 m0 45 0 eq_refl) as P. cbn [app] in P. rewrite P. split; [reflexivity|]. split; [reflexivity|]. split; [|reflexivity].
      intros [|k] Hk; [cbn in Hk; lia|reflexivity].
    - exists (x0 :: m0). repeat split; auto. }
  destruct M as (rest & -> & M1 & M2 & M3). cbn [obind].
  replace (if neg then 1%nat else 0%nat) with (length sg) by (rewrite SG; reflexivity).
  rewrite app_length in M1.
  destruct (loop_spec base sz Hb j pad ds D Hj (S sz) sg rest (length sg) eq_refl ltac:(lia) S1 ltac:(lia)) as [G1 G2].
  split; intros H.
  - destruct (G1 H) as (r' & Er & G). rewrite G. cbn [obind].
    assert (Lr : (1 <= length r')%nat) by (subst r'; rewrite skipn_length; lia).
    destruct r' as [|y r']; [cbn in Lr; lia|].
    rewrite app_assoc, poke_at by (rewrite app_length, map_length; reflexivity). cbn [obind]. rewrite <- app_assoc.
    replace (length sg + length ds)%nat with (length sg + length (map glyph ds))%nat by (now rewrite map_length).
    rewrite (reverse_spec (length ds) (map glyph ds)) by (rewrite map_length; lia). cbn [obind].
    rewrite <- map_rev, <- app_assoc. do 4 f_equal.
    replace (length (map glyph ds)) with (length ds) by (now rewrite map_length).
    rewrite <- Nat.add_succ_r. rewrite M3. replace (S (length ds)) with (length ds + 1)%nat by lia. rewrite skipn_add, <- Er. reflexivity.
  - destruct (G2 H) as (m' & G & A & B & C). rewrite G. cbn [obind]. exists m'. split; [reflexivity|].
    rewrite app_length in A. split; [lia|]. split; [rewrite C; apply M2; lia|]. intros _. exact B.
Qed.

(** All texts of a number have the same length. *)
Lemma value_acc base ds : forall a, fold_left (fun a d => a * base + d) ds a = a * base ^ Z.of_nat (length ds) + value base ds.
Proof.
  unfold value. induction ds as [|d ds IH]; intros a; [cbn; lia|]. cbn [fold_left]. rewrite IH, (IH (0 * base + d)).
  cbn [length]. rewrite Nat2Z.inj_succ, Z.pow_succ_r by lia. ring.
Qed.
Lemma value_cons base d ds : value base (d :: ds) = d * base ^ Z.of_nat (length ds) + value base ds.
Proof. unfold value at 1. cbn [fold_left]. rewrite value_acc. ring. Qed.
Lemma value_bound base ds : 2 <= base -> Forall (fun d => 0 <= d < base) ds -> 0 <= value base ds < base ^ Z.of_nat (length ds).
Proof.
  intros Hb F. induction F as [|d ds D F IH]; [cbn; lia|]. rewrite value_cons. cbn [length]. rewrite Nat2Z.inj_succ, Z.pow_succ_r by lia. nia.
Qed.
Lemma text_shorter base pad ds ds' : 2 <= base -> Forall (fun d => 0 <= d < base) ds -> Forall (fun d => 0 <= d < base) ds' -> value base ds = value base ds' ->
  (1 <= length ds)%nat -> (pad <= length ds)%nat -> ((Nat.max 1 pad < length ds')%nat -> hd 0 ds' <> 0) -> (length ds' <= length ds)%nat.
Proof.
  intros Hb F F' V L1 L2 N. destruct (Nat.le_gt_cases (length ds') (length ds)) as [K|K]; [exact K|exfalso].
  specialize (N ltac:(lia)). destruct ds' as [|d ds']; [cbn in K; lia|]. cbn [hd] in N. inversion F' as [|? ? D F2]; subst.
  pose proof (value_bound base ds Hb F) as B. pose proof (value_bound base ds' Hb F2) as B'. rewrite value_cons in V. cbn [length] in K.
  assert (P : base ^ Z.of_nat (length ds) <= base ^ Z.of_nat (length ds')) by (apply Z.pow_le_mono_r; lia). nia.
Qed.
Lemma text_unique i base pad t t' : 2 <= base -> text_of i base pad t -> text_of i base pad t' -> length t = length t'.
Proof.
  intros Hb (ds & A1 & A2 & A3 & A4 & A5 & ->) (ds' & B1 & B2 & B3 & B4 & B5 & ->). rewrite !app_length, !map_length. f_equal.
  apply Nat.le_antisymm; [eapply (text_shorter base pad ds' ds)|eapply (text_shorter base pad ds ds')]; eauto; congruence.
Qed.
