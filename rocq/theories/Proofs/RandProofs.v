From Verif.Model Require Import Common Rand.
From Verif.Proofs Require Import Tac.
From Coq Require Import QArith.
Local Open Scope Z_scope.

Lemma limit_val range : 0 < range < 2 ^ 64 -> ((max64 / range) * range - 1) mod 2 ^ 64 = (max64 / range) * range - 1.
Proof.
  intros H. unfold max64. assert (1 <= (2 ^ 64 - 1) / range) by (apply Z.div_le_lower_bound; lia).
  pose proof (Z.mul_div_le (2 ^ 64 - 1) range ltac:(lia)). apply Z.mod_small. nia.
Qed.
Lemma generator_one range v : 0 < range < 2 ^ 64 -> 0 <= v ->
  rand_generator range [v] = Ok (if v <? (max64 / range) * range then Some (v mod range) else None).
Proof.
  intros H Hv. unfold rand_generator. rewrite (proj2 (Z.eqb_neq range 0)) by lia. cbv zeta. rewrite limit_val by lia. cbn [first_accepted].
  destruct (Z.ltb_spec ((max64 / range) * range - 1) v), (Z.ltb_spec v ((max64 / range) * range)); try lia; reflexivity.
Qed.
Lemma generator_cons range v vs : range <> 0 ->
  rand_generator range (v :: vs) = match rand_generator range [v] with Ok None => rand_generator range vs | r => r end.
Proof. intros H. unfold rand_generator. rewrite (proj2 (Z.eqb_neq range 0)) by lia. cbn [first_accepted]. now destruct (_ <? v). Qed.
Lemma residue_class range n r v : 0 < range -> 0 <= n -> 0 <= r < range ->
  (0 <= v < n * range /\ v mod range = r) <-> (exists q, 0 <= q < n /\ v = r + range * q).
Proof.
  intros H Hn Hr. split.
  - intros [Hv <-]. exists (v / range). pose proof (Z.div_mod v range ltac:(lia)). split; [|lia]. split; [apply Z.div_pos; lia|]. apply Z.div_lt_upper_bound; lia.
  - intros (q & Hq & ->). split; [nia|]. rewrite Z.mul_comm, Z.mod_add by lia. now apply Z.mod_small.
Qed.
Lemma generator_range range vs r : 0 < range < 2 ^ 64 -> rand_generator range vs = Ok (Some r) -> 0 <= r < range.
Proof.
  intros H. unfold rand_generator. rewrite (proj2 (Z.eqb_neq range 0)) by lia. intros E. destruct (first_accepted _ vs); inv E. apply Z.mod_pos_bound. lia.
Qed.
Lemma int_range min max : - 2 ^ 31 <= min -> min <= max -> max < 2 ^ 31 -> (max mod 2 ^ 64 - min mod 2 ^ 64 + 1) mod 2 ^ 64 = max - min + 1.
Proof.
  intros. rewrite <- (Z.mod_small (max - min + 1) (2 ^ 64)) by lia.
  rewrite Zplus_mod, Zminus_mod, !Zmod_mod, <- Zminus_mod, <- Zplus_mod. reflexivity.
Qed.
Lemma int_eq min max vs : - 2 ^ 31 <= min -> min <= max -> max < 2 ^ 31 ->
  rand_int min max vs = obind (rand_generator (max - min + 1) vs) (fun r => Ok (match r with None => None | Some v => Some (min + v) end)).
Proof.
  intros A B C. unfold rand_int. rewrite int_range by lia. destruct (rand_generator (max - min + 1) vs) as [[v|]| |] eqn:E; try reflexivity. cbn [obind].
  apply generator_range in E; [|lia]. do 2 f_equal. unfold as_int64. rewrite (proj2 (Z.ltb_lt v (2 ^ 63))) by lia. unfold as_int. cbv zeta.
  destruct (Z.ltb_spec ((min + v) mod 2 ^ 32) (2 ^ 31)) as [K|K]; destruct (Z_lt_le_dec (min + v) 0) as [N|N].
  - exfalso. rewrite <- (Z_mod_plus_full _ 1) in K. rewrite Z.mod_small in K; lia.
  - apply Z.mod_small. lia.
  - rewrite <- (Z_mod_plus_full _ 1). rewrite Z.mod_small; lia.
  - exfalso. rewrite Z.mod_small in K; lia.
Qed.
Lemma land_mask bits : Z.land bits (Z.shiftl 1 53 - 1) = bits mod 2 ^ 53.
Proof. change (Z.shiftl 1 53 - 1) with (Z.ones 53). apply Z.land_ones. lia. Qed.

(** The bytes a script of reads delivers before it ends or fails. *)
Lemma read_prefix : forall reads got n b ok, (length got <= n)%nat -> read_from_fd reads got n = Some (ok, b) -> (length b <= n)%nat /\ (ok = true <-> length b = n).
Proof.
  induction reads as [|r reads IH]; intros got n b ok L H; cbn [read_from_fd] in H; destruct (Nat.ltb_spec (length got) n).
  - discriminate.
  - inv H. split; [lia|]. rewrite Nat.eqb_eq. lia.
  - destruct r as [[|x d]| | |].
    + inv H. split; [lia|]. rewrite Nat.eqb_eq. lia.
    + apply IH in H; [exact H|]. rewrite app_length, firstn_length. lia.
    + inv H. split; [lia|]. rewrite Nat.eqb_eq. lia.
    + now apply IH in H.
    + inv H. split; [lia|]. rewrite Nat.eqb_eq. lia.
  - inv H. split; [lia|]. rewrite Nat.eqb_eq. lia.
Qed.
From Verif.Spec Require Import RandSpec.
Lemma read_all : forall reads got n, (length got <= n)%nat -> honest (n - length got) reads ->
  read_from_fd reads got n =
    if (n - length got <=? length (delivered reads))%nat then Some (true, got ++ firstn (n - length got) (delivered reads))
    else if broken reads then Some (false, got ++ delivered reads) else None.
Proof.
  induction reads as [|r reads IH]; intros got n L H; cbn [read_from_fd]; destruct (Nat.ltb_spec (length got) n) as [K|K].
  - cbn. rewrite (proj2 (Nat.leb_gt (n - length got) 0)) by lia. reflexivity.
  - assert (length got = n) by lia. subst n. rewrite Nat.sub_diag, Nat.eqb_refl. cbn. now rewrite app_nil_r.
  - assert (NE : (length got =? n)%nat = false) by (apply Nat.eqb_neq; lia).
    destruct r as [[|x d]| | |]; cbn [delivered broken].
    + cbn [length]. rewrite (proj2 (Nat.leb_gt (n - length got) 0)) by lia. now rewrite NE, app_nil_r.
    + cbn [honest] in H. destruct H as [H|[H1 H2]]; [lia|]. rewrite firstn_all2 by lia.
      rewrite IH.
      * rewrite !app_length. replace (n - (length got + length (x :: d)))%nat with (n - length got - length (x :: d))%nat by lia.
        rewrite <- !app_assoc. rewrite firstn_app, (firstn_all2 (x :: d)) by lia.
        destruct (Nat.leb_spec (n - length got - length (x :: d)) (length (delivered reads))), (Nat.leb_spec (n - length got) (length (x :: d) + length (delivered reads))); try lia; reflexivity.
      * rewrite app_length. lia.
      * rewrite app_length. replace (n - (length got + length (x :: d)))%nat with (n - length got - length (x :: d))%nat by lia. exact H2.
    + cbn [length]. rewrite (proj2 (Nat.leb_gt (n - length got) 0)) by lia. now rewrite NE, app_nil_r.
    + apply IH; auto.
    + cbn [length]. rewrite (proj2 (Nat.leb_gt (n - length got) 0)) by lia. now rewrite NE, app_nil_r.
  - assert (length got = n) by lia. subst n. rewrite Nat.sub_diag, Nat.eqb_refl. cbn [firstn Nat.leb]. rewrite app_nil_r. reflexivity.
Qed.
