From Coq Require Import List Arith ZArith Bool Lia Znumtheory.
From Verif.Model Require Import Common LoadBalance Maglev1.
From Verif.Proofs Require Import Tac MaglevProofs.
Import ListNotations.
Local Open Scope Z_scope.

Section M.
Variables (p : Z) (fuel : nat).
Hypotheses (P1 : 1 <= p) (FU : 2 ^ 32 <= Z.of_nat fuel).
Definition ok_ep (e : epst) : Prop := 0 <= es_num e /\ 0 <= es_weight e /\ surj p (es_off e) (es_skip e).
Definition at_next (res : list Z) (e : epst) : Prop := 0 <= es_next e < 2 ^ 32 /\ forall m, 0 <= m < es_next e -> filled res (cur_of p (es_off e) (es_skip e) m).
Definition tab_ok (res : list Z) (runs : Z) : Prop := Z.of_nat (length res) = p /\ runs = cnt isset res.
(** What any step keeps: the filled slots, the values, the counts of the others. *)
Definition grows (nums : list Z) (res res' : list Z) : Prop :=
  (forall i, filled res i -> filled res' i) /\ (forall x, In x res' -> In x res \/ In x nums) /\ (forall x, 0 <= x -> ~ In x nums -> cnt (isnum x) res' = cnt (isnum x) res).
Lemma grows_refl nums res : grows nums res res. Proof. repeat split; auto. Qed.
Lemma grows_trans n1 n2 n a b c : incl n1 n -> incl n2 n -> grows n1 a b -> grows n2 b c -> grows n a c.
Proof.
  intros I1 I2 (A1 & A2 & A3) (B1 & B2 & B3). split; [auto|]. split.
  - intros x X. destruct (B2 x X) as [Y|Y]; [destruct (A2 x Y); auto|auto].
  - intros x X N. rewrite B3, A3; auto.
Qed.
Lemma at_next_grows nums res res' e : grows nums res res' -> at_next res e -> at_next res' e.
Proof. intros (G & _) (A & B). split; auto. Qed.

Lemma give_spec j : forall e res runs, ok_ep e -> at_next res e -> tab_ok res runs -> runs < p ->
  exists e' res' runs' b, give fuel j p e res runs = Some (e', res', runs', b) /\
    es_num e' = es_num e /\ es_weight e' = es_weight e /\ ok_ep e' /\ at_next res' e' /\ tab_ok res' runs' /\ grows [es_num e] res res' /\
    (b = false -> runs' < p /\ runs' = runs + Z.of_nat j /\ cnt (isnum (es_num e)) res' = cnt (isnum (es_num e)) res + Z.of_nat j) /\
    (b = true -> runs' = p /\ cnt (isnum (es_num e)) res + 1 <= cnt (isnum (es_num e)) res' <= cnt (isnum (es_num e)) res + Z.of_nat j).
Proof.
  induction j as [|j IH]; intros e res runs OK AN TO RP; cbn [give].
  - exists e, res, runs, false. split; [reflexivity|]. split; [auto|]. split; [auto|]. split; [auto|]. split; [auto|]. split; [auto|]. split; [apply grows_refl|]. split; [intros _; lia|discriminate].
  - destruct OK as (N0 & W0 & SJ). destruct AN as (NX & PF). destruct TO as (LR & RU).
    destruct (cnt_free isset res) as (k & KL & KF); [lia|].
    assert (SL : slot res (Z.of_nat k) < 0) by (unfold slot; rewrite Nat2Z.id; unfold isset in KF; apply Z.leb_gt in KF; exact KF).
    destruct (SJ (Z.of_nat k)) as (n0 & NR0 & CN0); [lia|].
    assert (NX0 : es_next e <= n0).
    { destruct (Z.le_gt_cases (es_next e) n0); auto. exfalso. specialize (PF n0 ltac:(lia)). unfold filled in PF. rewrite CN0 in PF. lia. }
    destruct (probe_spec p fuel (es_off e) (es_skip e) res fuel (es_next e)) as (n & PE & NR & NF & FI); [lia| |].
    { exists n0. split; [lia|]. split; [unfold filled; rewrite CN0; lia|lia]. }
    rewrite PE. set (cur := cur_of p (es_off e) (es_skip e) n) in *.
    pose proof (cur_range p fuel P1 (es_off e) (es_skip e) n) as CR. fold cur in CR.
    set (k' := Z.to_nat cur). assert (KL' : (k' < length res)%nat) by (subst k'; lia).
    assert (NEG : nth k' res (-1) < 0) by (unfold filled, slot in NF; fold k' in NF; lia).
    set (res1 := put k' (es_num e) res). set (e1 := mkes (es_num e) (es_weight e) (es_off e) (es_skip e) (w32 (n + 1)) (es_cum e)).
    assert (L1 : Z.of_nat (length res1) = p) by (unfold res1; rewrite put_length; auto).
    assert (R1 : runs + 1 = cnt isset res1).
    { unfold res1. rewrite put_cnt by auto. unfold isset at 2 3. destruct (Z.leb_spec 0 (nth k' res (-1))); [lia|]. destruct (Z.leb_spec 0 (es_num e)); lia. }
    assert (CO : forall x, 0 <= x -> x <> es_num e -> cnt (isnum x) res1 = cnt (isnum x) res).
    { intros x X0 XN. unfold res1. rewrite put_cnt by auto. unfold isnum at 2 3. destruct (Z.eqb_spec x (nth k' res (-1))); [lia|]. destruct (Z.eqb_spec x (es_num e)); [congruence|lia]. }
    assert (CS : cnt (isnum (es_num e)) res1 = cnt (isnum (es_num e)) res + 1).
    { unfold res1. rewrite put_cnt by auto. unfold isnum at 2 3. destruct (Z.eqb_spec (es_num e) (nth k' res (-1))); [lia|]. rewrite Z.eqb_refl. lia. }
    assert (MONO : forall i, filled res i -> filled res1 i) by (intros; apply filled_put; auto).
    assert (G1 : grows [es_num e] res res1).
    { split; [exact MONO|]. split; [intros x X; apply put_in in X; destruct X as [->|X]; [right; cbn; auto|auto]|]. intros x X N. apply CO; [exact X|]. intros ->. apply N. cbn. auto. }
    assert (OK1 : ok_ep e1) by (split; [exact N0|split; [exact W0|exact SJ]]).
    assert (AN1 : at_next res1 e1).
    { unfold at_next, e1. cbn [es_next es_off es_skip]. split; [apply Z.mod_pos_bound; lia|]. intros m M. destruct (Z.eq_dec (n + 1) (2 ^ 32)) as [Q|Q].
      - rewrite Q in M. unfold w32 in M. rewrite Z_mod_same_full in M. lia.
      - unfold w32 in M. rewrite Z.mod_small in M by lia. destruct (Z.eq_dec m n) as [->|].
        + fold cur. unfold filled, slot. fold k'. unfold res1. rewrite put_same by auto. auto.
        + apply MONO. destruct (Z.lt_ge_cases m (es_next e)); [apply PF; lia|apply FI; lia]. }
    fold k'. fold res1. fold e1. destruct (Z.eqb_spec (runs + 1) p) as [FULL|NOT].
    + exists e1, res1, (runs + 1), true. split; [reflexivity|]. repeat (split; [first [reflexivity|assumption|split; assumption]|]). split; [discriminate|]. intros _. lia.
    + assert (RP1 : runs + 1 < p) by lia. destruct (IH e1 res1 (runs + 1) OK1 AN1 (conj L1 R1) RP1) as (e' & res' & runs' & b & E & A1 & A2 & A3 & A4 & A5 & A6 & A7 & A8).
      exists e', res', runs', b. split; [exact E|]. cbn [es_num es_weight e1] in *. split; [exact A1|]. split; [exact A2|]. split; [exact A3|]. split; [exact A4|]. split; [exact A5|].
      split; [eapply grows_trans; [| |exact G1|exact A6]; apply incl_refl|]. split; [intros X; destruct (A7 X); lia|intros X; destruct (A8 X); lia].
Qed.

Definition count (res : list Z) (e : epst) : Z := cnt (isnum (es_num e)) res.
Lemma round_spec : forall es res runs, NoDup (map es_num es) -> Forall ok_ep es -> Forall (at_next res) es -> tab_ok res runs -> runs < p ->
  exists es' res' runs' b, round fuel p es res runs = Some (es', res', runs', b) /\ map es_num es' = map es_num es /\ tab_ok res' runs' /\ grows (map es_num es) res res' /\
    (b = false -> runs' < p /\ Forall ok_ep es' /\ Forall (at_next res') es' /\ Forall (fun e => es_weight e = 1) es' /\
       runs' = runs + fold_right (fun e n => es_weight e + n) 0 es /\ (forall e, In e es -> count res' e = count res e + es_weight e)) /\
    (b = true -> runs' = p /\ forall e, In e es -> count res e <= count res' e <= count res e + es_weight e).
Proof.
  induction es as [|e es IH]; intros res runs ND OK AN TO RP; cbn [round].
  - exists [], res, runs, false. split; [reflexivity|]. split; [reflexivity|]. split; [exact TO|]. split; [apply grows_refl|]. split; [|discriminate]. intros _. cbn. split; [exact RP|]. split; [constructor|]. split; [constructor|]. split; [constructor|]. split; [lia|]. intros x [].
  - cbn [map] in ND. inversion_clear ND as [|? ? NI ND']. inversion_clear OK as [|? ? OK0 OK']. inversion_clear AN as [|? ? AN0 AN'].
    destruct (give_spec (Z.to_nat (es_weight e)) e res runs OK0 AN0 TO RP) as (e1 & res1 & runs1 & b1 & E1 & A1 & A2 & A3 & A4 & A5 & A6 & A7 & A8).
    rewrite E1. assert (W0 : 0 <= es_weight e) by (destruct OK0 as (_ & W & _); exact W).
    assert (OTH : forall x, In x es -> count res1 x = count res x).
    { intros x X. destruct A6 as (_ & _ & G). unfold count. apply G; [rewrite Forall_forall in OK'; destruct (OK' x X) as (Y & _); exact Y|]. intros [Y|[]]. apply NI. rewrite Y. now apply in_map. }
    destruct b1.
    + destruct (A8 eq_refl) as (B1 & B2). exists (e1 :: es), res1, runs1, true. split; [reflexivity|]. cbn [map]. split; [now rewrite A1|]. split; [exact A5|].
      split; [eapply grows_trans; [| |exact A6|apply (grows_refl [])]; [intros x [<-|[]]; cbn; auto|intros x []]|]. split; [discriminate|]. intros _. split; [exact B1|].
      intros x [<-|X]; [unfold count; lia|]. rewrite (OTH x X). rewrite Forall_forall in OK'. destruct (OK' x X) as (_ & W & _). lia.
    + destruct (A7 eq_refl) as (B1 & B2 & B3).
      assert (AN1 : Forall (at_next res1) es) by (eapply Forall_impl; [|exact AN']; intros x X; eapply at_next_grows; eauto).
      destruct (IH res1 runs1 ND' OK' AN1 A5 B1) as (es' & res' & runs' & b & E & C1 & C2 & C3 & C4 & C5). rewrite E.
      assert (KEEP : cnt (isnum (es_num e)) res' = cnt (isnum (es_num e)) res1) by (destruct C3 as (_ & _ & G); apply G; [destruct OK0 as (N & _); exact N|exact NI]).
      exists (spent e1 :: es'), res', runs', b. split; [reflexivity|]. cbn [map]. split; [cbn [spent es_num]; now rewrite A1, C1|]. split; [exact C2|].
      split; [eapply grows_trans; [| |exact A6|exact C3]; [intros x [<-|[]]; cbn; auto|intros x X; cbn; auto]|]. split.
      * intros ->. destruct (C4 eq_refl) as (D1 & D2 & D3 & D4 & D5 & D6). split; [exact D1|]. split; [constructor; [|exact D2]|].
        { destruct A3 as (F1 & F2 & F3). split; [exact F1|]. split; [cbn; lia|exact F3]. }
        split; [constructor; [|exact D3]; eapply at_next_grows; [exact C3|exact A4]|]. split; [constructor; [reflexivity|exact D4]|]. cbn [fold_right]. split; [lia|].
        intros x [<-|X]; [unfold count; lia|]. rewrite (D6 x X), (OTH x X). reflexivity.
      * intros ->. destruct (C5 eq_refl) as (D1 & D2). split; [exact D1|]. intros x [<-|X]; [unfold count; lia|]. specialize (D2 x X). rewrite (OTH x X) in D2. exact D2.
Qed.
(** Rounds in which every weight is 1. *)
Lemma rounds_spec n : forall es res runs, NoDup (map es_num es) -> es <> [] -> Forall ok_ep es -> Forall (at_next res) es -> Forall (fun e => es_weight e = 1) es -> tab_ok res runs -> runs < p -> p - runs < Z.of_nat n ->
  exists tab t, rounds n fuel p es res runs = Some tab /\ tab_ok tab p /\ grows (map es_num es) res tab /\ 0 <= t /\ forall x, In x (map es_num es) -> cnt (isnum x) res + t <= cnt (isnum x) tab <= cnt (isnum x) res + t + 1.
Proof.
  induction n as [|n IH]; intros es res runs ND NE OK AN W1 TO RP N; [lia|]. cbn [rounds].
  destruct (round_spec es res runs ND OK AN TO RP) as (es' & res' & runs' & b & E & C1 & C2 & C3 & C4 & C5). rewrite E.
  assert (WE : forall e, In e es -> es_weight e = 1) by (now rewrite <- Forall_forall). destruct b.
  - destruct (C5 eq_refl) as (D1 & D2). subst runs'. exists res', 0. split; [reflexivity|]. split; [exact C2|]. split; [exact C3|]. split; [lia|].
    intros x X. apply in_map_iff in X. destruct X as (e & <- & X). specialize (D2 e X). rewrite (WE e X) in D2. unfold count in D2. lia.
  - destruct (C4 eq_refl) as (D1 & D2 & D3 & D4 & D5 & D6).
    assert (S : 1 <= fold_right (fun e n => es_weight e + n) 0 es).
    { destruct es as [|e es]; [congruence|]. cbn [fold_right]. rewrite (WE e (or_introl eq_refl)).
      assert (0 <= fold_right (fun e n => es_weight e + n) 0 es); [|lia]. clear -W1. inversion_clear W1 as [|? ? _ F]. induction F as [|x l X F IH]; cbn [fold_right]; lia. }
    destruct (IH es' res' runs') as (tab & t & F1 & F2 & F3 & F4 & F5); try assumption; [now rewrite C1|intros ->; destruct es; [congruence|discriminate]|lia|].
    exists tab, (t + 1). split; [exact F1|]. split; [exact F2|]. rewrite C1 in *. split; [eapply grows_trans; [| |exact C3|exact F3]; apply incl_refl|]. split; [lia|].
    intros x X. specialize (F5 x X). apply in_map_iff in X. destruct X as (e & <- & X). specialize (D6 e X). rewrite (WE e X) in D6. unfold count in D6. lia.
Qed.
(** From the start. *)
Lemma hash_spec n es : NoDup (map es_num es) -> (2 <= length es)%nat -> Forall ok_ep es -> Forall (fun e => es_next e = 0) es -> p + 2 <= Z.of_nat n ->
  exists tab, rounds n fuel p es (repeat (-1) (Z.to_nat p)) 0 = Some tab /\ Z.of_nat (length tab) = p /\ (forall x, In x tab -> In x (map es_num es)) /\
   (fold_right (fun e n => es_weight e + n) 0 es < p -> exists t, 0 <= t /\ forall e, In e es -> es_weight e + t <= cnt (isnum (es_num e)) tab <= es_weight e + t + 1) /\
   (p <= fold_right (fun e n => es_weight e + n) 0 es -> forall e, In e es -> cnt (isnum (es_num e)) tab <= es_weight e).
Proof.
  intros ND L2 OK NX N. set (res := repeat (-1) (Z.to_nat p)).
  assert (Z0 : forall f, f (-1) = false -> cnt f res = 0).
  { intros f F. unfold cnt, res. generalize (Z.to_nat p). intros m. induction m as [|m IH]; cbn [repeat filter]; [reflexivity|]. now rewrite F. }
  assert (TO : tab_ok res 0) by (split; [unfold res; rewrite repeat_length; lia|symmetry; apply Z0; reflexivity]).
  assert (AN : Forall (at_next res) es) by (eapply Forall_impl; [|exact NX]; cbn; intros e E; unfold at_next; rewrite E; split; [lia|intros; lia]).
  assert (C0 : forall e, In e es -> count res e = 0).
  { intros e I. apply Z0. unfold isnum. rewrite Forall_forall in OK. destruct (OK e I) as (A & _). destruct (Z.eqb_spec (es_num e) (-1)); [lia|reflexivity]. }
  assert (SET : forall tab, tab_ok tab p -> grows (map es_num es) res tab -> forall x, In x tab -> In x (map es_num es)).
  { intros tab (T1 & T2) (_ & G & _) x X. destruct (G x X) as [Y|Y]; [|exact Y]. apply repeat_spec in Y. subst x. exfalso. rewrite <- T1 in T2. pose proof (cnt_full isset tab (eq_sym T2) (-1) X). discriminate. }
  destruct n as [|n]; [lia|]. cbn [rounds].
  destruct (round_spec es res 0 ND OK AN TO ltac:(lia)) as (es' & res' & runs' & b & E & C1 & C2 & C3 & C4 & C5). rewrite E. destruct b.
  - destruct (C5 eq_refl) as (D1 & D2). subst runs'. exists res'. split; [reflexivity|]. split; [apply C2|]. split; [apply SET; assumption|]. 
    assert (LE : forall e, In e es -> cnt (isnum (es_num e)) res' <= es_weight e) by (intros e I; specialize (D2 e I); rewrite (C0 e I) in D2; unfold count in D2; lia).
    split; [|auto]. intros S. exfalso. destruct C2 as (T1 & T2).
    assert (SUM : forall l, NoDup (map es_num l) -> (forall e, In e l -> In e es) -> forall tab, (forall x, In x tab -> In x (map es_num l)) -> (forall e, In e l -> cnt (isnum (es_num e)) tab <= es_weight e) -> Z.of_nat (length tab) <= fold_right (fun e n => es_weight e + n) 0 l).
    { clear. induction l as [|e l IH]; intros ND IN tab V LE; cbn [fold_right].
      - destruct tab as [|x tab]; [cbn; lia|]. destruct (V x (or_introl eq_refl)).
      - cbn [map] in ND. inversion_clear ND as [|? ? NI ND'].
        assert (SP : Z.of_nat (length tab) = cnt (isnum (es_num e)) tab + Z.of_nat (length (filter (fun x => negb (isnum (es_num e) x)) tab))).
        { clear. unfold cnt. induction tab as [|x tab IH]; [reflexivity|]. cbn [length filter]. destruct (isnum (es_num e) x); cbn [negb length]; lia. }
        assert (R : Z.of_nat (length (filter (fun x => negb (isnum (es_num e) x)) tab)) <= fold_right (fun e n => es_weight e + n) 0 l).
        { apply IH; [exact ND'|intros; apply IN; now right| |].
          - intros x X. apply filter_In in X. destruct X as [X Y]. destruct (V x X) as [Z|Z]; [|exact Z]. unfold isnum in Y. rewrite Z, Z.eqb_refl in Y. discriminate.
          - intros e' I. etransitivity; [|apply LE; now right]. unfold cnt. assert (FL : forall f g (l : list Z), (length (filter f (filter g l)) <= length (filter f l))%nat).
            { clear. intros f g l. induction l as [|x l IH]; [reflexivity|]. cbn [filter]. destruct (g x); cbn [filter]; destruct (f x); cbn [length]; lia. }
            specialize (FL (isnum (es_num e')) (fun x => negb (isnum (es_num e) x)) tab). lia. }
        specialize (LE e (or_introl eq_refl)). lia. }
    specialize (SUM es ND (fun e I => I) res' (SET res' (conj T1 T2) C3) LE). lia.
  - destruct (C4 eq_refl) as (D1 & D2 & D3 & D4 & D5 & D6).
    destruct (rounds_spec n es' res' runs') as (tab & t & F1 & F2 & F3 & F4 & F5); try assumption; [now rewrite C1|intros ->; destruct es; [cbn in L2; lia|discriminate]| |].
    { assert (0 <= runs'); [|lia]. destruct C2 as (_ & ->). apply cnt_le. }
    exists tab. rewrite C1 in *. assert (G : grows (map es_num es) res tab) by (eapply grows_trans; [| |exact C3|exact F3]; apply incl_refl).
    split; [exact F1|]. split; [apply F2|]. split; [apply SET; assumption|]. split; [|intros S; lia]. intros _. exists t. split; [exact F4|].
    intros e I. specialize (F5 (es_num e) (in_map es_num _ _ I)). specialize (D6 e I). rewrite (C0 e I) in D6. unfold count in D6. lia.
Qed.
End M.

(** The default ring with the skip that wraps. *)
Lemma stuck_give fuel j : forall e res runs, stuck_ep e -> stuck_tab res runs ->
  match give fuel j 65537 e res runs with None => True | Some (e', res', runs', b) => b = false /\ stuck_ep e' /\ stuck_tab res' runs' end.
Proof.
  induction j as [|j IH]; intros e res runs ST TB; cbn [give]; [auto|]. destruct ST as (O & S & N). rewrite O, S.
  destruct (probe fuel 65537 0 65536 (es_next e) res) as [[n cur]|] eqn:E; auto. apply probe_cur in E as (m & -> & NEG).
  pose proof (cur_65536 m) as N1. assert (CR : 0 <= cur_of 65537 0 65536 m < 65537) by (apply Z.mod_pos_bound; lia).
  set (cur := cur_of 65537 0 65536 m) in *. destruct TB as (L & S1 & RU).
  assert (TB1 : stuck_tab (put (Z.to_nat cur) (es_num e) res) (runs + 1)).
  { split; [now rewrite put_length|]. split.
    - unfold slot. rewrite put_other; [exact S1|]. lia.
    - rewrite put_cnt by lia. unfold isset at 2 3. unfold slot in NEG. destruct (Z.leb_spec 0 (nth (Z.to_nat cur) res (-1))); [lia|]. destruct (Z.leb_spec 0 (es_num e)); lia. }
  pose proof (stuck_small _ _ TB1). destruct (Z.eqb_spec (runs + 1) 65537); [lia|]. apply IH; [repeat split; auto|exact TB1].
Qed.
Lemma stuck_round fuel es : forall res runs, Forall stuck_ep es -> stuck_tab res runs ->
  match round fuel 65537 es res runs with None => True | Some (es', res', runs', b) => b = false /\ Forall stuck_ep es' /\ stuck_tab res' runs' end.
Proof.
  induction es as [|e es IH]; intros res runs ST TB; cbn [round]; [auto|]. inversion_clear ST as [|? ? S ST'].
  pose proof (stuck_give fuel (Z.to_nat (es_weight e)) e res runs S TB) as G. destruct (give _ _ _ _ _ _) as [[[[e1 res1] runs1] b1]|]; [|exact I]. destruct G as (-> & S1 & T1).
  specialize (IH res1 runs1 ST' T1). destruct (round fuel 65537 es res1 runs1) as [[[[es2 res2] runs2] b2]|]; [|exact I]. destruct IH as (-> & S2 & T2).
  split; [reflexivity|]. split; [|exact T2]. constructor; [|exact S2]. destruct S1 as (A & B & C). repeat split; assumption.
Qed.
Lemma stuck_rounds fuel n : forall es res runs, Forall stuck_ep es -> stuck_tab res runs -> rounds n fuel 65537 es res runs = None.
Proof.
  induction n as [|n IH]; intros es res runs ST TB; cbn [rounds]; [reflexivity|].
  pose proof (stuck_round fuel es res runs ST TB) as G. destruct (round _ _ _ _ _) as [[[[es2 res2] runs2] b]|]; [|reflexivity]. destruct G as (-> & B & C). auto.
Qed.
