(** The date parser: it stays inside the string and within the ranges of its variables. *)
From Verif Require Import Model.Common Model.TimeDelta Model.PrTime Spec.TimeSpec Spec.DateSpec Proofs.Tac Proofs.Calendar Proofs.PrTimeProofs.
Local Open Scope Z_scope.

(** ** Reads *)
Lemma pk0 s : pk s 0 = Ok (nth 0 s 0).
Proof. reflexivity. Qed.
Lemma pk1 c t : pk (c :: t) 1 = Ok (nth 0 t 0).
Proof. reflexivity. Qed.
Lemma pk2 c d t : pk (c :: d :: t) 2 = Ok (nth 0 t 0).
Proof. reflexivity. Qed.
Lemma nth0_nz (s : cstr) c : nth 0 s 0 = c -> c <> 0 -> exists t, s = c :: t.
Proof. destruct s as [|x t]; cbn; intros <- N; [contradiction|eauto]. Qed.

(** Well-formed parser variables. *)
Definition ok_st (st : pst) : Prop :=
  (forall m, s_month st = Some m -> -1 <= m <= 11) /\ Z.abs (s_zoff st) <= 6039 /\
  -1 <= s_date st <= 99 /\ -1 <= s_year st <= 99999 /\ -1 <= s_hour st <= 111 /\ -1 <= s_min st <= 99 /\
  -1 <= s_sec st <= 99 /\ -1 <= s_usec st <= 999999.
Lemma ok_st0 : ok_st pst0.
Proof. unfold ok_st, pst0; cbn [s_month s_zoff s_date s_year s_hour s_min s_sec s_usec]. repeat split; try lia; discriminate. Qed.
Ltac st_tac := unfold ok_st in *; cbn [set_dotw set_month set_zone set_zoff set_date set_year set_clock
   s_dotw s_month s_zone s_zoff s_date s_year s_hour s_min s_sec s_usec] in *.

Ltac st_done K := let K1 := fresh "K1" in let K2 := fresh "K2" in
  st_tac; destruct K as [K1 K2]; split; [first [exact K1 | intros ? [= <-]; lia]|lia].
(** [s'] is a position at or behind [s]. *)
Definition behind (s s' : cstr) : Prop := exists p, s = p ++ s'.
Lemma behind_refl s : behind s s. Proof. exists []. reflexivity. Qed.
Lemma behind_cons c t : behind (c :: t) t. Proof. exists [c]. reflexivity. Qed.
Lemma behind_trans a b c : behind a b -> behind b c -> behind a c.
Proof. intros [p ->] [q ->]. exists (p ++ q). now rewrite app_assoc. Qed.
Lemma behind_step a c t : behind a (c :: t) -> behind a t.
Proof. intros H. eapply behind_trans; [exact H|apply behind_cons]. Qed.

(** ** Letters *)
Definition slot_ok (x : slot) : Prop := match x with SMonth m => 0 <= m <= 11 | _ => True end.
Lemma alternatives_ok l : Forall (fun a => slot_ok (fst (fst a)) /\ snd (fst a) > 96 /\ snd a > 96) (alternatives l).
Proof.
  unfold alternatives.
  repeat match goal with |- context [if ?b then _ else _] => destruct b end;
    repeat constructor; cbn; lia.
Qed.
Lemma ci_nz c l : l > 96 -> ci c l = true -> c <> 0.
Proof. intros H. unfold ci. rewrite orb_true_iff, !Z.eqb_eq. lia. Qed.
Lemma alt_matches_ok st c t a : snd (fst a) > 96 -> exists b, alt_matches st (c :: t) a = Ok b.
Proof.
  destruct a as [[x l1] l2]. cbn [fst snd]. intros H. unfold alt_matches. destruct (slot_free st x); [|eauto].
  rewrite pk1. cbn [obind]. destruct (ci (nth 0 t 0) l1) eqn:E; [|eauto].
  apply ci_nz in E; [|exact H]. destruct (nth0_nz t _ eq_refl E) as [u ->]. rewrite pk2. cbn [obind]. eauto.
Qed.
Lemma slot_set_ok st x : ok_st st -> slot_ok x -> ok_st (slot_set st x).
Proof.
  intros H S. destruct x as [d|m|z]; cbn [slot_set]; cbn in S; st_done H.
Qed.
Lemma slot_set_year st x : s_year (slot_set st x) = s_year st.
Proof. destruct x; reflexivity. Qed.
Lemma try_alts_ok st c t l : ok_st st ->
  Forall (fun a => slot_ok (fst (fst a)) /\ snd (fst a) > 96 /\ snd a > 96) l ->
  exists st', try_alts st (c :: t) l = Ok st' /\ ok_st st'.
Proof.
  intros K F. induction F as [|a r (S & H1 & H2) F IH]; cbn [try_alts]; [eauto|].
  destruct (alt_matches_ok st c t a H1) as [b ->]. cbn [obind]. destruct b; [|exact IH].
  eexists. split; [reflexivity|]. now apply slot_set_ok.
Qed.
Lemma case_u_ok st c t : ok_st st -> exists st', case_u st (c :: t) = Ok st' /\ ok_st st'.
Proof.
  intros K. unfold case_u. destruct (slot_free st (SZone GMT)); [|eauto]. rewrite pk1. cbn [obind].
  destruct (ci (nth 0 t 0) 116) eqn:E; [|eauto]. apply ci_nz in E; [|lia].
  destruct (nth0_nz t _ eq_refl E) as [u ->]. rewrite pk2. cbn [obind].
  destruct (negb (is_upper (nth 0 u 0)) && negb (is_lower (nth 0 u 0))); [|eauto].
  eexists. split; [reflexivity|]. exact (slot_set_ok st (SZone GMT) K Logic.I).
Qed.

(** ** Digits *)
Lemma span_digits_ok s : let '(d, r) := span_digits s in s = d ++ r /\ Forall (fun c => is_digit c = true) d /\ is_digit (nth 0 r 0) = false.
Proof.
  induction s as [|c t IH]; cbn [span_digits]; [repeat split; constructor|].
  destruct (is_digit c) eqn:E.
  - destruct (span_digits t) as [d r]. destruct IH as (-> & F & N). repeat split; auto.
  - repeat split; [constructor|exact E].
Qed.
Lemma is_digit_range c : is_digit c = true <-> 48 <= c <= 57.
Proof. unfold is_digit. rewrite andb_true_iff, !Z.leb_le. tauto. Qed.
Lemma dec_value_acc l : forall a, Forall (fun c => is_digit c = true) l -> 0 <= a ->
  0 <= fold_left (fun a c => a * 10 + (c - 48)) l a <= (a + 1) * 10 ^ Z.of_nat (length l) - 1.
Proof.
  induction l as [|c l IH]; intros a F A; cbn [fold_left length]; [change (10 ^ Z.of_nat 0) with 1; lia|].
  inversion F as [|x y D F']; subst. apply is_digit_range in D.
  specialize (IH (a * 10 + (c - 48)) F' ltac:(lia)). rewrite Nat2Z.inj_succ, Z.pow_succ_r by lia.
  assert (0 < 10 ^ Z.of_nat (length l)) by (apply Z.pow_pos_nonneg; lia). nia.
Qed.
Lemma dec_value_bound l : Forall (fun c => is_digit c = true) l -> 0 <= dec_value l < 10 ^ Z.of_nat (length l).
Proof. intros F. pose proof (dec_value_acc l 0 F ltac:(lia)). unfold dec_value. lia. Qed.
Lemma dec_value_bound_le l n : Forall (fun c => is_digit c = true) l -> (length l <= n)%nat -> 0 <= dec_value l <= 10 ^ Z.of_nat n - 1.
Proof.
  intros F L. pose proof (dec_value_bound l F). pose proof (Z.pow_le_mono_r 10 (Z.of_nat (length l)) (Z.of_nat n) ltac:(lia) ltac:(lia)). lia.
Qed.
Ltac dig_facts := repeat match goal with
  | H : Forall _ (_ :: _) |- _ => let A := fresh in let B := fresh in inversion H as [|? ? A B]; subst; clear H; apply is_digit_range in A
  end.

Definition fine (st : pst) (s : cstr) (o : outcome (pst * cstr)) : Prop :=
  exists st' s', o = Ok (st', s') /\ ok_st st' /\ behind s s'.
Lemma fine_intro st s st' s' : ok_st st' -> behind s s' -> fine st s (Ok (st', s')).
Proof. intros. exists st', s'. auto. Qed.

Lemma case_sign_ok st c t x : ok_st st -> fine st (c :: t) (case_sign st (c :: t) x).
Proof.
  intros K. unfold case_sign. cbn [adv obind].
  assert (B : behind (c :: t) t) by apply behind_cons.
  destruct (negb (s_zoff st =? -1)); [now apply fine_intro|].
  destruct (match s_zone st with None => false | Some GMT => false | Some _ => true end); [now apply fine_intro|].
  pose proof (span_digits_ok t) as SD. destruct (span_digits t) as [ds e]. destruct SD as (_ & F & _).
  destruct ds as [|a [|b [|d [|f [|g ds]]]]]; try (now apply fine_intro); apply fine_intro; try assumption;
    dig_facts; destruct (x =? 43); st_done K.
Qed.
Lemma am_pm_ok h s : 0 <= h <= 99 -> exists h', am_pm h s = Ok h' /\ 0 <= h' <= 111.
Proof.
  intros H. unfold am_pm. rewrite pk0. cbn [obind].
  assert (R : forall l, l > 96 -> exists b, (if ci (nth 0 s 0) l then obind (pk s 1) (fun c1 => Ok (ci c1 109)) else Ok false) = Ok b).
  { intros l L. destruct (ci (nth 0 s 0) l) eqn:E; [|eauto]. apply ci_nz in E; [|exact L].
    destruct (nth0_nz s _ eq_refl E) as [u Eu]. rewrite Eu, pk1. cbn [obind]. eauto. }
  destruct (R 112 ltac:(lia)) as [b ->]. cbn [obind]. destruct b.
  - eexists. split; [reflexivity|]. destruct (h =? 12); lia.
  - destruct (h =? 12) eqn:E12; [|eexists; split; [reflexivity|lia]]. destruct (R 97 ltac:(lia)) as [b ->]. cbn [obind].
    eexists. split; [reflexivity|]. destruct b; lia.
Qed.
Lemma skip_blanks_behind s : behind s (skip_blanks s).
Proof.
  induction s as [|c t IH]; cbn [skip_blanks]; [apply behind_refl|]. destruct (is_blank c); [|apply behind_refl].
  eapply behind_trans; [apply behind_cons|exact IH].
Qed.
Lemma set_clock_ok st h mi s u : ok_st st -> -1 <= h <= 111 -> -1 <= mi <= 99 -> -1 <= s <= 99 -> -1 <= u <= 999999 ->
  ok_st (set_clock st h mi s u).
Proof. intros K. intros. st_done K. Qed.
Lemma set_zone_ok st z : ok_st st -> ok_st (set_zone st z).
Proof. intros K. exact K. Qed.

Lemma case_clock_ok st s ds e : ok_st st -> s = ds ++ e -> Forall (fun c => is_digit c = true) ds -> nth 0 e 0 = 58 ->
  fine st s (case_clock st s ds e).
Proof.
  intros K Es F E58. unfold case_clock.
  destruct ((0 <=? s_hour st) && (0 <=? s_min st)); [apply fine_intro; [exact K|apply behind_refl]|].
  destruct (2 <? length ds)%nat eqn:L; [apply fine_intro; [exact K|apply behind_refl]|]. apply Nat.ltb_ge in L.
  pose proof (dec_value_bound_le ds 2 F L) as BH. change (10 ^ Z.of_nat 2 - 1) with 99 in BH.
  destruct (nth0_nz e _ E58 ltac:(lia)) as [r1 ->]. cbn [adv obind].
  assert (B1 : behind s r1) by (subst s; exists (ds ++ [58]); now rewrite <- app_assoc).
  pose proof (span_digits_ok r1) as SD. destruct (span_digits r1) as [ds2 e2]. destruct SD as (-> & F2 & _).
  destruct (length ds2 =? 0)%nat; [now apply fine_intro|].
  destruct (2 <? length ds2)%nat eqn:L2; [now apply fine_intro|]. apply Nat.ltb_ge in L2.
  pose proof (dec_value_bound_le ds2 2 F2 L2) as BM. change (10 ^ Z.of_nat 2 - 1) with 99 in BM.
  assert (B2 : behind s e2) by (eapply behind_trans; [exact B1|exists ds2; reflexivity]).
  rewrite pk0. cbn [obind].
  assert (exists r3, (if nth 0 e2 0 =? 58 then adv e2 else Ok e2) = Ok r3 /\ behind s r3) as (r3 & -> & B3).
  { destruct (Z.eqb_spec (nth 0 e2 0) 58) as [E|E]; [|eauto]. destruct (nth0_nz e2 _ E ltac:(lia)) as [u ->].
    cbn [adv]. eexists. split; [reflexivity|]. eapply behind_step; exact B2. }
  cbn [obind]. pose proof (span_digits_ok r3) as SD. destruct (span_digits r3) as [ds3 e3]. destruct SD as (-> & F3 & _).
  destruct (2 <? length ds3)%nat eqn:L3; [now apply fine_intro|]. apply Nat.ltb_ge in L3.
  pose proof (dec_value_bound_le ds3 2 F3 L3) as BS. change (10 ^ Z.of_nat 2 - 1) with 99 in BS.
  assert (BS' : -1 <= (if (length ds3 =? 0)%nat then -1 else dec_value ds3) <= 99) by (destruct (length ds3 =? 0)%nat; lia).
  set (sec := if (length ds3 =? 0)%nat then -1 else dec_value ds3) in *. clearbody sec.
  assert (B4 : behind s e3) by (eapply behind_trans; [exact B3|exists ds3; reflexivity]).
  rewrite pk0. cbn [obind].
  assert (exists u e4, (if nth 0 e3 0 =? 46 then obind (adv e3) (fun r4 => let '(ds4, e4) := span_digits r4 in
              Ok (dec_value (firstn 6 ds4) * 10 ^ Z.of_nat (6 - length ds4), e4)) else Ok (-1, e3)) = Ok (u, e4) /\
            -1 <= u <= 999999 /\ behind s e4) as (u & e4 & -> & BU & B5).
  { destruct (Z.eqb_spec (nth 0 e3 0) 46) as [E|E]; [|exists (-1), e3; repeat split; [lia|lia|exact B4]].
    destruct (nth0_nz e3 _ E ltac:(lia)) as [r4 ->]. cbn [adv obind].
    pose proof (span_digits_ok r4) as SD. destruct (span_digits r4) as [ds4 e4]. destruct SD as (-> & F4 & _).
    do 2 eexists. split; [reflexivity|].
    assert (F6 : Forall (fun c => is_digit c = true) (firstn 6 ds4)).
    { apply Forall_forall. intros x Hx. rewrite Forall_forall in F4. apply F4. rewrite <- (firstn_skipn 6 ds4). apply in_or_app. now left. }
    pose proof (dec_value_bound _ F6) as BV. rewrite firstn_length in BV.
    split.
    - set (n := length ds4) in *. destruct (Nat.le_gt_cases 6 n) as [G|G].
      + rewrite Nat.min_l in BV by exact G. replace (6 - n)%nat with 0%nat by lia. change (10 ^ Z.of_nat 0) with 1.
        change (10 ^ Z.of_nat 6) with 1000000 in BV. lia.
      + rewrite Nat.min_r in BV by lia.
        assert (10 ^ Z.of_nat n * 10 ^ Z.of_nat (6 - n) = 1000000) as P.
        { rewrite <- Z.pow_add_r by lia. replace (Z.of_nat n + Z.of_nat (6 - n)) with 6 by lia. reflexivity. }
        assert (0 < 10 ^ Z.of_nat (6 - n)) by (apply Z.pow_pos_nonneg; lia). nia.
    - eapply behind_trans; [exact B4|]. exists (46 :: ds4). reflexivity. }
  cbn [obind]. rewrite pk0. cbn [obind].
  destruct (nth 0 e4 0 =? 90).
  - apply fine_intro; [|exact B5]. apply set_clock_ok; try lia. exact K.
  - assert (exists h', (if dec_value ds <=? 12 then am_pm (dec_value ds) (skip_blanks e4) else Ok (dec_value ds)) = Ok h' /\ 0 <= h' <= 111)
      as (h' & -> & BH').
    { destruct (dec_value ds <=? 12); [now apply am_pm_ok|]. eexists. split; [reflexivity|lia]. }
    cbn [obind]. apply fine_intro; [|exact B5]. apply set_clock_ok; try lia. exact K.
Qed.

(** Numbers of numeric dates. *)
Lemma dig_ok s : dig s = Ok None \/ exists v r, dig s = Ok (Some (v, r)) /\ 0 <= v <= 9 /\ exists c, s = c :: r.
Proof.
  unfold dig. rewrite pk0. cbn [obind]. destruct (is_digit (nth 0 s 0)) eqn:E; [|auto].
  apply is_digit_range in E. destruct (nth0_nz s _ eq_refl ltac:(lia)) as [r Er]. right.
  rewrite Er. cbn [adv obind nth]. do 2 eexists. split; [reflexivity|]. split; [lia|]. eexists. reflexivity.
Qed.
Lemma slash_ok s : slash s = Ok None \/ exists r, slash s = Ok (Some r) /\ exists c, s = c :: r.
Proof.
  unfold slash. rewrite pk0. cbn [obind]. destruct ((nth 0 s 0 =? 47) || (nth 0 s 0 =? 45)) eqn:E; [|auto].
  apply orb_true_iff in E. rewrite !Z.eqb_eq in E. right.
  assert (nth 0 s 0 <> 0) as N by lia. destruct (nth0_nz s _ eq_refl N) as [r Er]. rewrite Er. cbn [adv obind nth].
  eexists. split; [reflexivity|]. eexists. reflexivity.
Qed.
Lemma num1_ok s : num1 s = Ok None \/ exists v r, num1 s = Ok (Some (v, r)) /\ 0 <= v <= 9999 /\ behind s r.
Proof.
  unfold num1.
  destruct (dig_ok s) as [-> | (a & r & -> & A & c & ->)]; cbn [obind]; [auto|].
  destruct (dig_ok r) as [-> | (b & r2 & -> & B & c2 & ->)]; cbn [obind];
    [right; do 2 eexists; split; [reflexivity|]; split; [lia|exists [c]; reflexivity]|].
  destruct (dig_ok r2) as [-> | (d & r3 & -> & D & c3 & ->)]; cbn [obind];
    [right; do 2 eexists; split; [reflexivity|]; split; [lia|exists [c; c2]; reflexivity]|].
  destruct (dig_ok r3) as [-> | (f & r4 & -> & G & c4 & ->)]; cbn [obind]; [auto|].
  right. do 2 eexists. split; [reflexivity|]. split; [lia|exists [c; c2; c3; c4]; reflexivity].
Qed.
Lemma num2_ok s : num2 s = Ok None \/ exists v r, num2 s = Ok (Some (v, r)) /\ 0 <= v <= 99 /\ behind s r.
Proof.
  unfold num2.
  destruct (dig_ok s) as [-> | (a & r & -> & A & c & ->)]; cbn [obind]; [auto|].
  destruct (dig_ok r) as [-> | (b & r2 & -> & B & c2 & ->)]; cbn [obind];
    right; do 2 eexists; (split; [reflexivity|]); (split; [lia|]); [exists [c]|exists [c; c2]]; reflexivity.
Qed.
Lemma num3_ok s : num3 s = Ok None \/ exists v r, num3 s = Ok (Some (v, r)) /\ 0 <= v <= 99999 /\ behind s r.
Proof.
  unfold num3. destruct (num1_ok s) as [-> | (v & r & -> & V & B)]; cbn [obind]; [auto|].
  destruct (length s - length r =? 4)%nat; [|right; do 2 eexists; split; [reflexivity|]; split; [lia|exact B]].
  destruct (dig_ok r) as [-> | (b & r2 & -> & Bb & c2 & ->)]; cbn [obind];
    right; do 2 eexists; (split; [reflexivity|]); (split; [lia|]); [exact B|].
  eapply behind_step; exact B.
Qed.
Lemma two_digit_year_ok n : 0 <= n <= 99999 -> 0 <= two_digit_year n <= 99999.
Proof. intros H. unfold two_digit_year. destruct (Z.ltb_spec n 70), (Z.ltb_spec n 100); lia. Qed.
Lemma case_date_ok st s : ok_st st -> fine st s (case_date st s).
Proof.
  intros K. unfold case_date. destruct (s_month st); [apply fine_intro; [exact K|apply behind_refl]|].
  assert (T : fine st s (Ok (st, s))) by (apply fine_intro; [exact K|apply behind_refl]).
  destruct (num1_ok s) as [-> | (n1 & s1 & -> & N1 & B1)]; cbn [obind]; [exact T|].
  destruct (slash_ok s1) as [-> | (s2 & -> & c1 & ->)]; cbn [obind]; [exact T|].
  destruct (num2_ok s2) as [-> | (n2 & s3 & -> & N2 & B3)]; cbn [obind]; [exact T|].
  destruct (slash_ok s3) as [-> | (s4 & -> & c2 & ->)]; cbn [obind]; [exact T|].
  destruct (num3_ok s4) as [-> | (n3 & s5 & -> & N3 & B5)]; cbn [obind]; [exact T|].
  assert (B : behind s s5).
  { eapply behind_trans; [eapply behind_step; exact B1|]. eapply behind_trans; [eapply behind_step; exact B3|exact B5]. }
  rewrite pk0. cbn [obind].
  assert (exists b, (if nth 0 s5 0 =? 84 then obind (pk s5 1) (fun c1 => Ok (is_digit c1)) else Ok false) = Ok b) as [iso ->].
  { destruct (Z.eqb_spec (nth 0 s5 0) 84) as [E|E]; [|eauto]. destruct (nth0_nz s5 _ E ltac:(lia)) as [u ->].
    rewrite pk1. cbn [obind]. eauto. }
  cbn [obind].
  destruct (negb iso && (is_digit (nth 0 s5 0) || is_upper (nth 0 s5 0) || is_lower (nth 0 s5 0))); [exact T|].
  pose proof (two_digit_year_ok n1 ltac:(lia)). pose proof (two_digit_year_ok n3 ltac:(lia)).
  destruct (Z.ltb_spec 31 n1), (Z.eqb_spec n1 0); cbn [orb]; try lia;
    try (destruct (Z.ltb_spec 12 n2); [exact T|]; destruct (Z.ltb_spec 31 n3); [exact T|]; apply fine_intro; [|exact B];
         st_done K).
  destruct (Z.ltb_spec 12 n1), (Z.ltb_spec 12 n2); cbn [andb]; apply fine_intro; try exact B; try exact K;
    st_done K.
Qed.
Lemma case_digit_ok st s : ok_st st -> fine st s (case_digit st s).
Proof.
  intros K. unfold case_digit. pose proof (span_digits_ok s) as SD. destruct (span_digits s) as [ds e].
  destruct SD as (Es & F & _). rewrite pk0. cbn [obind].
  assert (T : fine st s (Ok (st, s))) by (apply fine_intro; [exact K|apply behind_refl]).
  destruct (Z.eqb_spec (nth 0 e 0) 58) as [E|E]; [now apply case_clock_ok|].
  assert (exists b, (if (nth 0 e 0 =? 47) || (nth 0 e 0 =? 45) then obind (pk e 1) (fun c1 => Ok (is_digit c1)) else Ok false) = Ok b) as [dt ->].
  { destruct ((nth 0 e 0 =? 47) || (nth 0 e 0 =? 45)) eqn:Q; [|eauto]. apply orb_true_iff in Q. rewrite !Z.eqb_eq in Q.
    assert (nth 0 e 0 <> 0) as N by lia. destruct (nth0_nz e _ eq_refl N) as [u Eu]. rewrite Eu, pk1. cbn [obind]. eauto. }
  cbn [obind]. destruct dt; [now apply case_date_ok|].
  destruct (is_upper (nth 0 e 0) || is_lower (nth 0 e 0)); [exact T|].
  destruct ((length ds =? 5)%nat || (length ds =? 4)%nat) eqn:L.
  { assert (length ds <= 5)%nat as L5 by (apply orb_true_iff in L; rewrite !Nat.eqb_eq in L; lia).
    pose proof (dec_value_bound_le ds 5 F L5) as V. change (10 ^ Z.of_nat 5 - 1) with 99999 in V.
    apply fine_intro; [|apply behind_refl]. destruct (s_year st <? 0); [|exact K]. st_done K. }
  destruct (Nat.eqb_spec (length ds) 2) as [L2|L2].
  { pose proof (dec_value_bound_le ds 2 F ltac:(lia)) as V. change (10 ^ Z.of_nat 2 - 1) with 99 in V.
    destruct ((s_date st <? 0) && (dec_value ds <? 32)); [apply fine_intro; [|apply behind_refl]; st_done K|].
    destruct (s_year st <? 0); [|exact T]. apply fine_intro; [|apply behind_refl].
    destruct (dec_value ds <? 70), (dec_value ds <? 100); st_done K. }
  destruct (Nat.eqb_spec (length ds) 1) as [L1|L1]; [|exact T].
  pose proof (dec_value_bound_le ds 1 F ltac:(lia)) as V. change (10 ^ Z.of_nat 1 - 1) with 9 in V.
  apply fine_intro; [|apply behind_refl]. destruct (s_date st <? 0); [|exact K]. st_done K.
Qed.
Lemma token_ok st c t : ok_st st -> fine st (c :: t) (token st (c :: t)).
Proof.
  intros K. unfold token. rewrite pk0. cbn [obind nth].
  destruct (is_digit c); [now apply case_digit_ok|].
  destruct ((c =? 43) || (c =? 45)); [now apply case_sign_ok|].
  destruct (ci c 117).
  - destruct (case_u_ok st c t K) as (st' & -> & K'). apply fine_intro; [exact K'|apply behind_refl].
  - destruct (try_alts_ok st c t _ K (alternatives_ok (lower c))) as (st' & -> & K'). apply fine_intro; [exact K'|apply behind_refl].
Qed.
Theorem tokens_ok fuel : forall str st s, ok_st st -> exists o, tokens fuel str st s = Ok o /\ forall st', o = Some st' -> ok_st st'.
Proof.
  induction fuel as [|f IH]; intros str st s K; destruct s as [|c t]; cbn [tokens].
  - eexists. split; [reflexivity|]. now intros st' [= <-].
  - eexists. split; [reflexivity|]. discriminate.
  - eexists. split; [reflexivity|]. now intros st' [= <-].
  - destruct (token_ok st c t K) as (st' & s' & -> & K' & _). cbn [obind]. apply IH. exact K'.
Qed.
