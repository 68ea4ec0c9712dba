(** Proofs about the Bloom filter. *)
From Coq Require Import List Arith ZArith Bool Lia.
From Verif.Model Require Import Common Bloom.
From Verif.Proofs Require Import Tac.
Import ListNotations.
Local Open Scope Z_scope.

Lemma set_nth_length n v : forall t, length (set_nth n v t) = length t.
Proof. induction n; intros [|x t]; cbn; auto. Qed.
Lemma set_nth_same n v : forall t, (n < length t)%nat -> nth n (set_nth n v t) 0 = v.
Proof. induction n; intros [|x t] L; cbn in *; try lia; auto. apply IHn. lia. Qed.
Lemma set_nth_other n v m : forall t, n <> m -> nth m (set_nth n v t) 0 = nth m t 0.
Proof. revert m. induction n; intros [|m] [|x t] N; cbn; auto; try lia. Qed.

Lemma set_bit_length t p : length (set_bit t p) = length t.
Proof. apply set_nth_length. Qed.
Lemma bit_of_range p : 0 <= bit_of p < 8.
Proof. unfold bit_of. change 7 with (Z.ones 3). rewrite Z.land_ones by lia. apply Z.mod_pos_bound. reflexivity. Qed.
Lemma byte_of_lt t p : t <> [] -> (byte_of t p < length t)%nat.
Proof.
  intro N. unfold byte_of. assert (0 < Z.of_nat (length t)) by (destruct t; [congruence|cbn [length]; lia]).
  pose proof (Z.mod_pos_bound (Z.shiftr p 3) _ H). lia.
Qed.
Lemma byte_of_eq t u p : length t = length u -> byte_of t p = byte_of u p.
Proof. unfold byte_of. now intros ->. Qed.

(** reading a bit after setting one *)
Lemma test_set t p q : t <> [] ->
  test_bit (set_bit t p) q = test_bit t q || ((byte_of t p =? byte_of t q)%nat && (bit_of p =? bit_of q)).
Proof.
  intro N. unfold test_bit. rewrite (byte_of_eq _ t q (set_bit_length t p)). unfold set_bit.
  pose proof (bit_of_range p). pose proof (bit_of_range q).
  destruct (Nat.eqb_spec (byte_of t p) (byte_of t q)) as [E|E].
  - rewrite E. rewrite set_nth_same by (apply byte_of_lt; auto).
    rewrite Z.lor_spec. f_equal. rewrite Z.shiftl_spec by lia. cbn [andb].
    destruct (Z.eqb_spec (bit_of p) (bit_of q)) as [F|F].
    + rewrite F, Z.sub_diag. reflexivity.
    + destruct (Z.ltb_spec (bit_of q) (bit_of p)); [apply Z.testbit_neg_r; lia|].
      replace 1 with (2 ^ 0) by reflexivity. apply Z.pow2_bits_false. lia.
  - rewrite set_nth_other by auto. cbn. now rewrite orb_false_r.
Qed.
Lemma test_set_same t p : t <> [] -> test_bit (set_bit t p) p = true.
Proof. intro N. rewrite test_set by auto. rewrite Nat.eqb_refl, Z.eqb_refl. apply orb_true_r. Qed.
Lemma test_set_mono t p q : t <> [] -> test_bit t q = true -> test_bit (set_bit t p) q = true.
Proof. intros N E. now rewrite test_set, E by auto. Qed.
Lemma set_bit_nonempty t p : t <> [] -> set_bit t p <> [].
Proof. intros N E. apply N. destruct t; auto. apply (f_equal (@length Z)) in E. rewrite set_bit_length in E. discriminate. Qed.

Section B.
Context {D : Type} (hash : D -> nat -> Z * Z) (k : nat).
Notation pos := (positions hash k).

Definition covered (t : table) (d : D) : Prop := forall p, In p (pos d) -> test_bit t p = true.
Definition le_tab (t u : table) : Prop := length t = length u /\ forall p, test_bit t p = true -> test_bit u p = true.

Lemma le_refl t : le_tab t t. Proof. split; auto. Qed.
Lemma le_trans a b c : le_tab a b -> le_tab b c -> le_tab a c.
Proof. intros [L H] [L' H']. split; [congruence|auto]. Qed.
Lemma le_set t p : t <> [] -> le_tab t (set_bit t p).
Proof. split; [symmetry; apply set_bit_length|]. intros; apply test_set_mono; auto. Qed.
Lemma le_covered t u d : le_tab t u -> covered t d -> covered u d.
Proof. intros [_ H] C p I. auto. Qed.
Lemma le_nonempty t u : le_tab t u -> t <> [] -> u <> [].
Proof. intros [L _] N ->. destruct t; [auto|discriminate]. Qed.

Lemma fold_set_le ps : forall t, t <> [] -> le_tab t (fold_left set_bit ps t) /\ forall p, In p ps -> test_bit (fold_left set_bit ps t) p = true.
Proof.
  induction ps as [|q ps IH]; intros t N; cbn.
  - split; [apply le_refl|tauto].
  - destruct (IH (set_bit t q) (set_bit_nonempty _ _ N)) as [A B]. split.
    + eapply le_trans; [apply le_set; auto|exact A].
    + intros p [->|I]; auto. destruct A as [_ A]. apply A. now apply test_set_same.
Qed.
Lemma tas_fst ps : forall t b, fst (fold_left (fun p q => (set_bit (fst p) q, snd p && test_bit (fst p) q)) ps (t, b)) = fold_left set_bit ps t.
Proof. induction ps; intros; cbn; auto. Qed.

(** Which bits a table has after setting some. *)
Lemma fold_set_bits ps : forall t q, t <> [] ->
  test_bit (fold_left set_bit ps t) q =
  test_bit t q || existsb (fun p => (byte_of t p =? byte_of t q)%nat && (bit_of p =? bit_of q)) ps.
Proof.
  induction ps as [|p ps IH]; intros t q N; cbn.
  - now rewrite orb_false_r.
  - rewrite IH by (apply set_bit_nonempty; auto). rewrite test_set by auto.
    rewrite <- orb_assoc. f_equal. f_equal. clear IH. induction ps as [|x ps IH]; cbn; auto. rewrite IH.
    f_equal. now rewrite !(byte_of_eq (set_bit t p) t) by apply set_bit_length.
Qed.

(** * Concurrent runs *)
Definition thr_ok (t : table) (ph : @phase D) : Prop :=
  match ph with
  | Idle => True
  | Run o ps _ => match o with BIsSet _ => True | _ => exists done, pos (bkey o) = done ++ ps /\ forall p, In p done -> test_bit t p = true end
  | Mid o p ps _ => match o with BTas _ => exists done, pos (bkey o) = done ++ p :: ps /\ forall p, In p done -> test_bit t p = true | _ => False end
  end.
Definition binvt (s : bstate) : Prop := b_tab s <> [] /\ forall th, thr_ok (b_tab s) (b_thr s th).

Lemma thr_ok_le t u ph : le_tab t u -> thr_ok t ph -> thr_ok u ph.
Proof.
  intros [_ L]. destruct ph as [|o ps a|o p ps a]; cbn; auto; destruct o; auto; intros (d0 & E & F); exists d0; split; auto.
Qed.

Lemma bstep_ok s a s' es : binvt s -> bstep hash k s a = Some (s', es) ->
  binvt s' /\ le_tab (b_tab s) (b_tab s') /\
  (forall th o r, In (EDone th o r) es -> (forall d, o <> BIsSet d) -> covered (b_tab s') (bkey o)).
Proof.
  intros [N T] E.
  assert (UP : forall t th ph, le_tab (b_tab s) t -> thr_ok t ph -> forall x, thr_ok t (upd (b_thr s) th ph x)).
  { intros t th ph L O x. unfold upd. destruct (x =? th)%nat; auto. eapply thr_ok_le; eauto. }
  destruct a as [th o|th]; cbn in E.
  - destruct (b_thr s th) eqn:P; try discriminate. inv E. cbn. split; [|split; [apply le_refl|intros ? ? ? [I|[]]; discriminate]].
    split; auto. apply UP; [apply le_refl|]. cbn. destruct o; auto; exists []; split; auto; cbn; tauto.
  - pose proof (T th) as TO. destruct (b_thr s th) as [|o [|p ps] acc|o p ps acc] eqn:P; try discriminate.
    + inv E. cbn. split; [split; auto; apply UP; [apply le_refl|exact Logic.I]|]. split; [apply le_refl|].
      intros th' o' r' [I|[]] NI. inv I. cbn in TO. destruct o'; try (exfalso; eapply NI; reflexivity);
      destruct TO as (d0 & E0 & F0); rewrite app_nil_r in E0; unfold covered; cbn in *; now rewrite E0.
    + destruct o as [d|d|d].
      * inv E. cbn. pose proof (le_set (b_tab s) p N) as L. split; [|split; [auto|intros ? ? ? []]].
        split; [apply set_bit_nonempty; auto|]. apply UP; auto. cbn in TO |- *. destruct TO as (d0 & E0 & F0).
        exists (d0 ++ [p]). split; [now rewrite <- app_assoc|]. intros q I. apply in_app_or in I as [I|[->|[]]].
        { destruct L as [_ L]; auto. } { now apply test_set_same. }
      * destruct (test_bit (b_tab s) p) eqn:TB; inv E; cbn; (split; [split; auto; apply UP; [apply le_refl|exact Logic.I]|]);
          (split; [apply le_refl|]); [intros ? ? ? []|].
        intros ? ? ? [I|[]] NI. inv I. exfalso. eapply NI; eauto.
      * inv E. cbn. split; [|split; [apply le_refl|intros ? ? ? []]]. split; auto. apply UP; [apply le_refl|]. cbn in TO |- *. exact TO.
    + inv E. cbn. cbn in TO. destruct o as [d|d|d]; try contradiction.
      pose proof (le_set (b_tab s) p N) as L. split; [|split; [auto|intros ? ? ? []]].
      split; [apply set_bit_nonempty; auto|]. apply UP; auto. cbn. destruct TO as (d0 & E0 & F0).
      exists (d0 ++ [p]). split; [now rewrite <- app_assoc|]. intros q I. apply in_app_or in I as [I|[->|[]]].
      { destruct L as [_ L]; auto. } { now apply test_set_same. }
Qed.

Lemma brun_ok acts : forall s s' es, binvt s -> brun hash k s acts = Some (s', es) ->
  binvt s' /\ le_tab (b_tab s) (b_tab s').
Proof.
  induction acts as [|a acts IH]; intros s s' es I E; cbn in E.
  - inv E. split; auto. apply le_refl.
  - destruct (bstep hash k s a) as [[s1 e1]|] eqn:E1; [|discriminate].
    destruct (brun hash k s1 acts) as [[s2 e2]|] eqn:E2; [|discriminate]. inv E.
    destruct (bstep_ok _ _ _ _ I E1) as (I1 & L1 & _). destruct (IH _ _ _ I1 E2) as (I2 & L2).
    split; auto. eapply le_trans; eauto.
Qed.

Lemma brun_app a1 : forall s a2, brun hash k s (a1 ++ a2) =
  match brun hash k s a1 with
  | None => None
  | Some (s1, es) => match brun hash k s1 a2 with None => None | Some (s2, es') => Some (s2, es ++ es') end
  end.
Proof.
  induction a1 as [|a a1 IH]; intros s a2; cbn.
  - destruct (brun hash k s a2) as [[]|]; auto.
  - destruct (bstep hash k s a) as [[s1 e1]|]; auto. rewrite IH.
    destruct (brun hash k s1 a1) as [[s2 e2]|]; auto.
    destruct (brun hash k s2 a2) as [[s3 e3]|]; auto. now rewrite app_assoc.
Qed.

(** each step produces at most one event, so an event splits the run *)
Lemma bstep_one s a s' es : bstep hash k s a = Some (s', es) -> es = [] \/ exists e, es = [e].
Proof.
  destruct a as [th o|th]; cbn; destruct (b_thr s th) as [|o' [|p ps] acc|o' p ps acc]; try discriminate;
    try (intro E; inv E; eauto; fail). destruct o'; try (intro E; inv E; eauto; fail).
  destruct (test_bit _ _); intro E; inv E; eauto.
Qed.
Lemma brun_split acts : forall s s' es1 e es2, brun hash k s acts = Some (s', es1 ++ e :: es2) ->
  exists a1 a a2 s1 s2, acts = a1 ++ a :: a2 /\ brun hash k s a1 = Some (s1, es1) /\
    bstep hash k s1 a = Some (s2, [e]) /\ brun hash k s2 a2 = Some (s', es2).
Proof.
  induction acts as [|a acts IH]; intros s s' es1 e es2 E; cbn in E.
  - injection E as _ E. destruct es1; discriminate.
  - destruct (bstep hash k s a) as [[s1 e1]|] eqn:E1; [|discriminate].
    destruct (brun hash k s1 acts) as [[s2 e2]|] eqn:E2; [|discriminate]. injection E as <- E.
    destruct (bstep_one _ _ _ _ E1) as [->|(x & ->)]; cbn [app] in E.
    + subst e2. destruct (IH _ _ _ _ _ E2) as (a1 & b & a2 & s3 & s4 & -> & P & Q & R).
      exists (a :: a1), b, a2, s3, s4. split; auto. split; auto. cbn. now rewrite E1, P.
    + destruct es1 as [|y es1]; cbn [app] in E; injection E as -> E; subst.
      * exists [], a, acts, s, s1. auto.
      * destruct (IH _ _ _ _ _ E2) as (a1 & b & a2 & s3 & s4 & -> & P & Q & R).
        exists (a :: a1), b, a2, s3, s4. split; auto. split; auto. cbn. now rewrite E1, P.
Qed.

(** a query of [d] that started after [d] was covered *)
Definition asking (d : D) (ph : @phase D) : Prop :=
  match ph with
  | Run o ps acc => o <> BSet d /\ bkey o = d /\ acc = true /\ (forall p, In p ps -> In p (pos d))
  | Mid o p ps acc => o <> BSet d /\ bkey o = d /\ acc = true /\ (forall q, In q (p :: ps) -> In q (pos d))
  | Idle => False
  end.

Lemma asking_step d th s a s' es : b_tab s <> [] -> covered (b_tab s) d -> asking d (b_thr s th) ->
  bstep hash k s a = Some (s', es) ->
  asking d (b_thr s' th) /\ (forall o r, ~ In (EDone th o r) es) \/ (exists o, es = [EDone th o true]).
Proof.
  intros N C A E. destruct a as [th' o|th']; cbn in E.
  - destruct (b_thr s th') eqn:P; try discriminate. inv E. cbn. unfold upd.
    destruct (Nat.eqb_spec th th') as [->|]; [rewrite P in A; destruct A|].
    left. split; auto. intros ? ? [I|[]]; discriminate.
  - destruct (Nat.eq_dec th th') as [<-|NE].
    + destruct (b_thr s th) as [|o [|p ps] acc|o p ps acc] eqn:P; try discriminate; cbn in A.
      * inv E. destruct A as (_ & _ & -> & _). right. eauto.
      * destruct A as (NS & BK & -> & I). destruct o as [d'|d'|d']; cbn in BK; subst d'.
        { congruence. }
        { rewrite (C p) in E by (apply I; left; auto). inv E. cbn. unfold upd. rewrite Nat.eqb_refl. left. split; [|intros ? ? []].
          cbn. split; [auto|]. split; [auto|]. split; [auto|]. intros q J. apply I. right; auto. }
        { inv E. cbn. unfold upd. rewrite Nat.eqb_refl. left. split; [|intros ? ? []].
          cbn. rewrite (C p) by (apply I; left; auto). repeat split; auto. }
      * destruct A as (NS & BK & -> & I). inv E. cbn. unfold upd. rewrite Nat.eqb_refl. left. split; [|intros ? ? []].
        cbn. split; [auto|]. split; [auto|]. split; [auto|]. intros q J. apply I. right; auto.
    + assert (X : b_thr s' th = b_thr s th /\ forall o r, ~ In (EDone th o r) es).
      { assert (U : forall ph, upd (b_thr s) th' ph th = b_thr s th) by (intro; unfold upd; destruct (Nat.eqb_spec th th'); congruence).
        destruct (b_thr s th') as [|o [|p ps] acc|o p ps acc]; try discriminate;
          [|destruct o; [|destruct (test_bit _ _)|]|]; inv E; cbn [b_thr]; rewrite U; split; auto; intros ? ? I;
          cbn in I; try tauto; destruct I as [I|[]]; congruence. }
      destruct X as [-> X]. auto.
Qed.

Lemma asking_run d th acts : forall s s' es, binvt s -> covered (b_tab s) d -> asking d (b_thr s th) ->
  brun hash k s acts = Some (s', es) ->
  forall es1 o r es2, es = es1 ++ EDone th o r :: es2 -> (forall o' r', ~ In (EDone th o' r') es1) -> r = true.
Proof.
  induction acts as [|a acts IH]; intros s s' es I C A E es1 o r es2 Q N1; cbn in E.
  - injection E as _ E. rewrite Q in E. destruct es1; discriminate.
  - destruct (bstep hash k s a) as [[s1 e1]|] eqn:E1; [|discriminate].
    destruct (brun hash k s1 acts) as [[s2 e2]|] eqn:E2; [|discriminate]. injection E as E' F. rewrite Q in F. clear Q. rename F into Q. subst s2.
    destruct (bstep_ok _ _ _ _ I E1) as (I1 & L1 & _).
    destruct (asking_step d th s a s1 e1 (proj1 I) C A E1) as [[A1 ND]|(o' & ->)].
    + pose proof (le_covered _ _ _ L1 C) as C1.
      destruct (bstep_one _ _ _ _ E1) as [->|(x & ->)]; cbn [app] in *.
      * eapply IH; eauto.
      * destruct es1 as [|y es1]; cbn [app] in Q; injection Q as Qx Q.
        { exfalso. eapply (ND o r). left. auto. }
        { eapply (IH s1 s' e2); eauto. intros o' r' J. apply (N1 o' r'). right. auto. }
    + cbn [app] in *. destruct es1 as [|y es1]; cbn [app] in Q; injection Q as Qx Q.
      * congruence.
      * exfalso. apply (N1 o' true). left. auto.
Qed.
End B.
