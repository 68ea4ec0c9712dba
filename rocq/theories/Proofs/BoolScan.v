(** Proofs about the scan over field cursors. *)
From Coq Require Import List Arith ZArith Bool Lia Sorting Permutation.
From Verif.Model Require Import Common BoolIndex.
From Verif.Proofs Require Import Tac BoolIds.
Import ListNotations.
Local Open Scope Z_scope.

(** an entry id of conjunction [c] *)
Definition ent (e : Z) : Prop := exists c x, 0 <= c < 2 ^ 60 /\ e = gen_entry_id c x.
Lemma ent_range e : ent e -> 0 <= e < NULLENTRY.
Proof. intros (c & x & C & ->). rewrite gen_entry_id_eq by auto. unfold NULLENTRY. destruct x; lia. Qed.
Lemma ent_inv e : ent e -> 0 <= entry_conj e < 2 ^ 60 /\ e = gen_entry_id (entry_conj e) (negb (is_include e)).
Proof. intros (c & x & C & ->). rewrite entry_conj_gen, is_include_gen by auto. destruct x; cbn; auto. Qed.
Lemma ent_conj_mono a b : a <= b -> entry_conj a <= entry_conj b.
Proof. intros L. unfold entry_conj. rewrite !Z.shiftr_div_pow2 by lia. apply Z.div_le_mono; lia. Qed.
Lemma csize_mono a b : 0 <= a < 2 ^ 60 -> 0 <= b < 2 ^ 60 -> a <= b -> conj_size_of a <= conj_size_of b.
Proof.
  intros A B L. unfold conj_size_of. rewrite !(land_ones' _ 8 0xFF) by (auto; lia). rewrite !Z.shiftr_div_pow2 by lia.
  assert (X : forall c, 0 <= c < 2 ^ 60 -> 0 <= c / 2 ^ 52 < 2 ^ 8).
  { intros c C. split; [apply Z.div_pos; lia|apply Z.div_lt_upper_bound; lia]. }
  rewrite !Z.mod_small by auto. apply Z.div_le_mono; lia.
Qed.
Lemma csize_range a : 0 <= conj_size_of a < 256.
Proof. unfold conj_size_of. rewrite (land_ones' _ 8 0xFF) by (auto; lia). apply Z.mod_pos_bound. lia. Qed.
Definition esize (e : Z) : Z := conj_size_of (entry_conj e).
Lemma esize_mono a b : ent a -> ent b -> a <= b -> esize a <= esize b.
Proof. intros A B L. apply csize_mono; try apply ent_inv; auto. now apply ent_conj_mono. Qed.

(** * Lengths *)
Lemma cu_move_length below c : cuok c -> down below (cu_list c) ->
  (length (rest (cu_move below c)) <= length (rest c))%nat /\
  (length (rest (cu_move below c)) = length (rest c) -> rest (cu_move below c) = rest c).
Proof.
  intros OK D. destruct (cu_move_spec below c D (cu_in c OK)) as (EL & RG & _). unfold rest. rewrite EL, !skipn_length.
  split; [lia|]. intro E. assert (cu_idx (cu_move below c) = cu_idx c) by lia. congruence.
Qed.
Lemma flat_map_length_le {A B} (f g : A -> list B) l :
  (forall a, In a l -> (length (f a) <= length (g a))%nat /\ (length (f a) = length (g a) -> f a = g a)) ->
  (length (flat_map f l) <= length (flat_map g l))%nat /\ (length (flat_map f l) = length (flat_map g l) -> flat_map f l = flat_map g l).
Proof.
  induction l as [|a l IH]; intro H; cbn; [split; auto|]. rewrite !app_length.
  destruct (H a (or_introl eq_refl)) as [A1 A2]. destruct IH as [B1 B2]; [intros; apply H; right; auto|].
  split; [lia|]. intro E. rewrite A2, B2 by lia. reflexivity.
Qed.
Lemma fc_move_length below f : fcok f -> (forall c, In c (fc_cursors f) -> down below (cu_list c)) ->
  (length (rem (fc_move (cu_move below) f)) <= length (rem f))%nat /\
  (length (rem (fc_move (cu_move below) f)) = length (rem f) -> rem (fc_move (cu_move below) f) = rem f).
Proof.
  intros OK D. unfold fc_move, rem. destruct (pick_min _ _ _ _). cbn [fc_cursors]. rewrite flat_map_concat_map, map_map, <- flat_map_concat_map.
  apply flat_map_length_le. intros c I. apply cu_move_length; auto. apply (fc_ok f OK c I).
Qed.
Lemma fc_skip_to_length id f : fcok f -> (length (rem (fc_skip_to id f)) <= length (rem f))%nat /\
  (length (rem (fc_skip_to id f)) = length (rem f) -> rem (fc_skip_to id f) = rem f).
Proof. intro OK. apply fc_move_length; auto. intros c I. apply down_lt. apply (fc_ok f OK c I). Qed.
Lemma fc_skip_length id f : fcok f -> (length (rem (fc_skip id f)) <= length (rem f))%nat.
Proof. intro OK. apply (fc_move_length _ f OK). intros c I. apply down_le. apply (fc_ok f OK c I). Qed.
Fixpoint total (cs : list fcursor) : nat := match cs with [] => 0 | f :: cs' => length (rem f) + total cs' end.
Lemma total_app a b : total (a ++ b) = (total a + total b)%nat.
Proof. induction a; cbn [total app]; lia. Qed.
Lemma total_perm a b : Permutation a b -> total a = total b.
Proof. induction 1; cbn [total]; lia. Qed.

Lemma some_pair_inj {A B} (a c : A) (b d : B) : Some (a, b) = Some (c, d) -> c = a /\ d = b.
Proof. intro E. now inversion E. Qed.
Section Scan.
Variable srt : list fcursor -> list fcursor.
Definition leid (a b : fcursor) : Prop := fc_id a <= fc_id b.
Hypothesis SP : forall l, Permutation l (srt l).
Hypothesis SS : forall l, StronglySorted leid (srt l).

Record csok (cs : list fcursor) : Prop := {
  cs_ok : forall f, In f cs -> fcok f;
  cs_ent : forall f e, In f cs -> In e (rem f) -> ent e
}.

Lemma drop_ended_prefix cs : exists n, drop_ended cs = firstn n cs.
Proof.
  induction cs as [|c cs [n IH]]; cbn; [exists 0%nat; auto|]. destruct (drop_ended cs) as [|x y].
  - destruct (fc_id c =? NULLENTRY); [exists 0%nat|exists 1%nat]; reflexivity.
  - exists (S n). cbn. now rewrite IH.
Qed.
Lemma drop_ended_or cs f : (forall f, In f cs -> fcok f) -> In f cs -> In f (drop_ended cs) \/ rem f = [].
Proof.
  induction cs as [|c cs IH]; intros OK I; [destruct I|]. cbn [drop_ended].
  assert (OK' : forall f, In f cs -> fcok f) by (intros; apply OK; right; auto).
  destruct I as [->|I].
  - destruct (drop_ended cs); [|left; left; auto]. destruct (Z.eqb_spec (fc_id f) NULLENTRY); [|left; left; auto].
    right. destruct (fc_min f (OK f (or_introl eq_refl))) as [[E _]|[J _]]; auto.
    apply in_flat_map in J as (c & J & K). pose proof (rest_small c (fc_id f) (fc_ok f (OK f (or_introl eq_refl)) c J) K). lia.
  - destruct (IH OK' I) as [J|J]; auto. destruct (drop_ended cs) as [|x y]; [destruct J|]. left. right. exact J.
Qed.
Lemma drop_ended_last cs d : drop_ended cs <> [] -> fc_id (last (drop_ended cs) d) <> NULLENTRY.
Proof.
  induction cs as [|c cs IH]; cbn [drop_ended]; [congruence|]. destruct (drop_ended cs) as [|x y].
  - destruct (Z.eqb_spec (fc_id c) NULLENTRY); [congruence|]. intros _. exact n.
  - intros _. apply IH. discriminate.
Qed.
Lemma sorted_last cs d f : StronglySorted leid cs -> In f cs -> fc_id f <= fc_id (last cs d).
Proof.
  induction 1 as [|x l S IH F]; [intros []|]. rewrite Forall_forall in F. intros [<-|I].
  - destruct l as [|y l]; [cbn; lia|]. change (last (x :: y :: l) d) with (last (y :: l) d).
    apply F. destruct (exists_last (l := y :: l)) as (l' & z & E); [discriminate|]. rewrite E, last_last. apply in_app_iff. right; left; auto.
  - destruct l as [|y l]; [destruct I|]. change (last (x :: y :: l) d) with (last (y :: l) d). auto.
Qed.
Lemma fc_id_null f : fcok f -> fc_id f <= NULLENTRY /\ (fc_id f <> NULLENTRY -> In (fc_id f) (rem f)).
Proof.
  intro OK. destruct (fc_min f OK) as [[E ->]|[I M]]; [split; [lia|congruence]|]. split; auto.
  apply in_flat_map in I as (c & J & K). pose proof (rest_small c (fc_id f) (fc_ok f OK c J) K). lia.
Qed.
Lemma fc_id_le f e : fcok f -> In e (rem f) -> fc_id f <= e.
Proof. intros OK I. destruct (fc_min f OK) as [[E _]|[_ M]]; [rewrite E in I; destruct I|auto]. Qed.

(** the cursors of a round, once sorted and cleaned *)
Lemma front cs : csok cs -> let cs1 := drop_ended (srt cs) in
  csok cs1 /\ StronglySorted leid cs1 /\ (forall f, In f cs1 -> In f cs) /\
  (forall f, In f cs -> In f cs1 \/ rem f = []) /\ (total cs1 <= total cs)%nat /\
  (forall f, In f cs1 -> In (fc_id f) (rem f)) /\
  match cs1 with
  | [] => forall f, In f cs -> rem f = []
  | c0 :: _ => In (fc_id c0) (rem c0) /\ forall f e, In f cs -> In e (rem f) -> fc_id c0 <= e
  end.
Proof.
  intros [OK EN]. cbn zeta. set (s := srt cs). assert (SO : forall f, In f s -> fcok f).
  { intros f I. apply OK. eapply Permutation_in; [symmetry; apply SP|exact I]. }
  destruct (drop_ended_prefix s) as (n & E).
  assert (SUB : forall f, In f (drop_ended s) -> In f cs).
  { intros f I. rewrite E in I. apply firstn_In in I || apply In_firstn in I || idtac. eapply Permutation_in; [symmetry; apply SP|].
    rewrite <- (firstn_skipn n (srt cs)). apply in_app_iff. left. exact I. }
  assert (OR : forall f, In f cs -> In f (drop_ended s) \/ rem f = []).
  { intros f I. apply drop_ended_or; auto. eapply Permutation_in; [apply SP|exact I]. }
  assert (SRT : StronglySorted leid (drop_ended s)).
  { rewrite E. pose proof (SS cs) as S. fold s in S. clear - S. revert n. induction S as [|x l S IH F]; intros [|n]; cbn; try constructor; auto.
    rewrite Forall_forall in *. intros y I. apply F. rewrite <- (firstn_skipn n l). apply in_app_iff. auto. }
  split; [split; [intros; apply OK; auto|intros f e I; eapply EN; eauto]|]. split; [exact SRT|]. split; [exact SUB|]. split; [exact OR|]. split.
  { rewrite (total_perm cs s) by apply SP. rewrite <- (firstn_skipn n s) at 2. rewrite total_app, E. lia. }
  assert (NN : forall f, In f (drop_ended s) -> In (fc_id f) (rem f)).
  { intros f I. assert (NE : drop_ended s <> []) by (intro X; rewrite X in I; destruct I).
    apply (fc_id_null f); [apply OK; auto|]. pose proof (drop_ended_last s f NE) as LN. pose proof (sorted_last _ f f SRT I) as LL.
    assert (X : In (last (drop_ended s) f) (drop_ended s)).
    { destruct (exists_last NE) as (l' & z & E'). rewrite E', last_last. apply in_app_iff. right; left; auto. }
    pose proof (fc_id_null _ (OK _ (SUB _ X))). lia. }
  split; [exact NN|].
  destruct (drop_ended s) as [|c0 t] eqn:ED.
  - intros f I. destruct (OR f I) as [[]|]; auto.
  - assert (OK1 : forall f, In f (c0 :: t) -> fcok f) by (intros; apply OK; auto).
    assert (MIN : forall f, In f (c0 :: t) -> fc_id c0 <= fc_id f).
    { intros f [<-|I]; [lia|]. inversion_clear SRT as [|? ? ? F]. rewrite Forall_forall in F. apply F, I. }
    split; [apply NN; left; auto|].
    intros f e I J. destruct (OR f I) as [K|K]; [|rewrite K in J; destruct J].
    pose proof (MIN f K). pose proof (fc_id_le f e (OK1 f K) J). lia.
Qed.

Definition kof (e : Z) : nat := Z.to_nat (if esize e =? 0 then 1 else esize e).
Lemma kof_pos e : (1 <= kof e)%nat.
Proof. unfold kof. destruct (Z.eqb_spec (esize e) 0); [cbn; lia|]. unfold esize in *. pose proof (csize_range (entry_conj e)). lia. Qed.
Lemma kof_one e : esize e <= 1 -> kof e = 1%nat.
Proof. unfold kof. unfold esize. pose proof (csize_range (entry_conj e)). intro L. destruct (Z.eqb_spec (conj_size_of (entry_conj e)) 0); [auto|]. replace (conj_size_of (entry_conj e)) with 1 by lia. reflexivity. Qed.

Lemma skip_same_in cid next cs f' : In f' (skip_same cid next cs) -> exists f, In f cs /\ (f' = f \/ f' = fc_skip next f).
Proof.
  induction cs as [|c cs IH]; cbn [skip_same In]; [tauto|]. destruct (cid =? entry_conj (fc_id c)).
  - intros [<-|I]; [eauto|]. apply IH in I as (f & A & B). eauto.
  - intros [<-|I]; eauto.
Qed.
Lemma skip_same_total cid next cs : (forall f, In f cs -> fcok f) -> (total (skip_same cid next cs) <= total cs)%nat.
Proof.
  induction cs as [|c cs IH]; intro OK; cbn [skip_same total]; [lia|]. destruct (cid =? entry_conj (fc_id c)); [|cbn [total]; lia].
  cbn [total]. pose proof (fc_skip_length next c (OK c (or_introl eq_refl))). specialize (IH (fun f I => OK f (or_intror I))). lia.
Qed.

Lemma round_none cs : csok cs -> round srt cs = None -> forall f e, In f cs -> In e (rem f) -> 2 <= esize e.
Proof.
  intros OK E f e I J. destruct (front cs OK) as (OK1 & SRT & SUB & OR & _ & NN & FR). unfold round in E.
  destruct (drop_ended (srt cs)) as [|c0 t]; [rewrite (FR f I) in J; destruct J|].
  destruct FR as [IN0 MIN]. fold (esize (fc_id c0)) in E. fold (kof (fc_id c0)) in E.
  destruct (Nat.ltb_spec (length (c0 :: t)) (kof (fc_id c0))) as [L|L]; [|discriminate].
  assert (S2 : 2 <= esize (fc_id c0)).
  { destruct (Z.le_gt_cases (esize (fc_id c0)) 1) as [G|G]; [|lia]. rewrite kof_one in L by auto. cbn in L. lia. }
  assert (esize (fc_id c0) <= esize e); [|lia]. apply esize_mono; [|exact (cs_ent _ OK f e I J)|eapply MIN; eauto].
  eapply (cs_ent _ OK1 c0); [left; auto|auto].
Qed.

Lemma round_some cs cs' out : csok cs -> round srt cs = Some (cs', out) ->
  exists eid, (exists f, In f cs /\ In eid (rem f)) /\ (forall f e, In f cs -> In e (rem f) -> eid <= e) /\
    out = (if is_include eid then [entry_doc eid] else []) /\
    csok cs' /\ (total cs' < total cs)%nat /\
    (forall f', In f' cs' -> exists f, In f cs /\ forall e, In e (rem f') -> In e (rem f)) /\
    (esize eid <= 1 ->
      (forall f e, In f cs -> In e (rem f) -> entry_conj e <> entry_conj eid -> exists f', In f' cs' /\ In e (rem f')) /\
      (is_include eid = false -> (forall f, In f cs -> In eid (rem f) -> ~ In (eid + 1) (rem f)) ->
         forall f', In f' cs' -> ~ In (eid + 1) (rem f'))).
Proof.
  intros OK E. destruct (front cs OK) as (OK1 & SRT & SUB & OR & TT & NN & FR). unfold round in E.
  destruct (drop_ended (srt cs)) as [|c0 t] eqn:ED; [discriminate|]. set (cs1 := c0 :: t) in *.
  destruct FR as [IN0 MIN]. fold (esize (fc_id c0)) in E. fold (kof (fc_id c0)) in E.
  destruct (Nat.ltb_spec (length cs1) (kof (fc_id c0))) as [L|L]; [discriminate|].
  rewrite Z.eqb_refl in E. cbn [andb] in E.
  set (eid := fc_id c0) in *. set (k := kof eid) in *. pose proof (kof_pos eid) as K1. fold k in K1.
  set (end_eid := fc_id (nth (k - 1) cs1 c0)) in *.
  assert (EE : ent eid) by (eapply (cs_ent _ OK1 c0); [left; auto|auto]).
  assert (EL : eid <= end_eid).
  { assert (X : In (nth (k - 1) cs1 c0) cs1) by (apply nth_In; lia). unfold end_eid. revert X. generalize (nth (k - 1) cs1 c0). intros f X.
    destruct X as [<-|X]; [unfold eid; lia|]. inversion_clear SRT as [|? ? ? F]. rewrite Forall_forall in F. apply (F f X). }
  assert (EN : ent end_eid).
  { assert (X : In (nth (k - 1) cs1 c0) cs1) by (apply nth_In; lia). unfold end_eid. eapply (cs_ent _ OK1); [exact X|]. apply NN, X. }
  assert (NX : u64 (end_eid + 1) = end_eid + 1).
  { unfold u64. apply Z.mod_small. apply ent_range in EN. unfold NULLENTRY in EN. lia. }
  rewrite NX in E. set (next := end_eid + 1) in *.
  assert (NEQ : next = end_eid + 1) by reflexivity.
  assert (KE1 : esize eid <= 1 -> k = 1%nat) by apply kof_one.
  assert (KE2 : k = 1%nat -> end_eid = eid) by (intro X; unfold end_eid; rewrite X; reflexivity).
  clearbody next end_eid k.
  apply some_pair_inj in E as [E1 E2].
  assert (OKF : forall f, In f cs1 -> fcok f) by apply OK1.
  assert (FST : forall f, In f (firstn k cs1) -> In f cs1).
  { intros f I. rewrite <- (firstn_skipn k cs1). apply in_app_iff. auto. }
  assert (SND : forall f, In f (skipn k cs1) -> In f cs1).
  { intros f I. rewrite <- (firstn_skipn k cs1). apply in_app_iff. auto. }
  (* every new cursor comes from an old one *)
  assert (FROM : forall f', In f' cs' -> exists f, In f cs1 /\ (f' = f \/ f' = fc_skip_to next f \/ f' = fc_skip next f)).
  { intros f' I. rewrite E1 in I. apply in_app_iff in I as [I|I].
    - apply in_map_iff in I as (f & <- & I). exists f. auto.
    - destruct (negb (is_include eid)); [apply skip_same_in in I as (f & I & [->| ->])|];
        [exists f|exists f|exists f']; (split; [apply SND; exact I|auto]). }
  assert (FROM' : forall f', In f' cs' -> fcok f' /\ exists f, In f cs1 /\ forall e, In e (rem f') -> In e (rem f)).
  { intros f' I. destruct (FROM f' I) as (f & J & [->|[->| ->]]).
    - split; eauto.
    - destruct (fc_skip_to_ok next f (OKF f J)) as [A B]. split; auto. exists f. split; auto. intros e X. now apply B.
    - destruct (fc_skip_ok next f (OKF f J)) as [A B]. split; auto. exists f. split; auto. intros e X. now apply B. }
  exists eid. split; [exists c0; split; [apply SUB; left; auto|auto]|]. split; [exact MIN|]. split; [exact E2|].
  split. { split; [intros; now apply FROM'|]. intros f' e I J. destruct (FROM' f' I) as (_ & f & K & S). eapply (cs_ent _ OK1); eauto. }
  split.
  { apply Nat.lt_le_trans with (total cs1); [|exact TT]. rewrite E1, total_app.
    assert (TS : total cs1 = (total (firstn k cs1) + total (skipn k cs1))%nat) by (rewrite <- total_app, firstn_skipn; auto). rewrite TS.
    assert (T2 : (total (if negb (is_include eid) then skip_same (entry_conj eid) next (skipn k cs1) else skipn k cs1) <= total (skipn k cs1))%nat).
    { destruct (negb (is_include eid)); auto. apply skip_same_total. auto. }
    assert (T1 : (total (map (fc_skip_to next) (firstn k cs1)) < total (firstn k cs1))%nat); [|lia].
    destruct k as [|k']; [lia|]. unfold cs1. cbn [firstn map total].
    assert (S0 : (length (rem (fc_skip_to next c0)) < length (rem c0))%nat).
    { destruct (fc_skip_to_length next c0 (OKF c0 (or_introl eq_refl))) as [A B].
      destruct (Nat.eq_dec (length (rem (fc_skip_to next c0))) (length (rem c0))) as [Q|Q]; [|lia]. exfalso.
      destruct (fc_skip_to_ok next c0 (OKF c0 (or_introl eq_refl))) as [_ C]. specialize (C eid). rewrite (B Q) in C.
      apply C in IN0 as [_ X]. lia. }
    assert (SR : forall l, (forall f, In f l -> fcok f) -> (total (map (fc_skip_to next) l) <= total l)%nat).
    { clear. induction l as [|f l IH]; intro O; cbn [map total]; [lia|].
      destruct (fc_skip_to_length next f (O f (or_introl eq_refl))). specialize (IH (fun g I => O g (or_intror I))). lia. }
    specialize (SR (firstn k' t)). assert (forall f, In f (firstn k' t) -> fcok f) by (intros; apply OKF; apply FST; right; auto). specialize (SR H). lia. }
  split. { intros f' I. destruct (FROM' f' I) as (_ & f & K & S). exists f. split; auto. }
  intro S1. pose proof (KE1 S1) as KE. pose proof (KE2 KE) as END.
  rewrite KE in E1. unfold cs1 in E1. cbn [firstn skipn map app] in E1. rewrite NEQ, END in E1.
  split.
  - intros f e I J NC. destruct (OR f I) as [K|K]; [|rewrite K in J; destruct J].
    assert (EG : eid < e). { pose proof (MIN f e I J). destruct (Z.eq_dec eid e) as [->|]; [congruence|lia]. }
    destruct K as [<-|K].
    + exists (fc_skip_to (eid + 1) c0). split; [rewrite E1; left; auto|]. apply fc_skip_to_ok; [apply OKF; left; auto|]. split; [auto|lia].
    + assert (TL : exists f', In f' (if negb (is_include eid) then skip_same (entry_conj eid) (eid + 1) t else t) /\ In e (rem f')).
      { destruct (is_include eid) eqn:IE; cbn [negb]; [eauto|].
        assert (EB : eid + 1 < e).
        { destruct (ent_inv eid EE) as [R0 Q0]. rewrite IE in Q0. cbn [negb] in Q0.
          assert (He : ent e) by (eapply (cs_ent _ OK); eauto). destruct (ent_inv e He) as [R1 Q1].
          rewrite gen_entry_id_eq in Q0, Q1 by auto. destruct (negb (is_include e)); lia. }
        assert (G : forall l, (forall g, In g l -> fcok g) -> In f l -> exists f', In f' (skip_same (entry_conj eid) (eid + 1) l) /\ In e (rem f')).
        { induction l as [|c l IH]; intros O IL; [destruct IL|]. cbn [skip_same].
          destruct (entry_conj eid =? entry_conj (fc_id c)).
          - destruct IL as [->|IL].
            + exists (fc_skip (eid + 1) f). split; [left; auto|]. apply fc_skip_ok; [apply O; left; auto|auto].
            + destruct IH as (f' & A & B); auto; [intros; apply O; right; auto|]. exists f'. split; [right; auto|auto].
          - exists f. auto. }
        apply G; auto. intros g Ig. apply OKF. right; auto. }
      destruct TL as (f' & A & B). exists f'. split; [rewrite E1; right; auto|auto].
  - intros IE EX f' I. rewrite E1 in I. rewrite IE in I. cbn [negb] in I.
    destruct (ent_inv eid EE) as [R0 Q0]. rewrite IE in Q0. cbn [negb] in Q0. rewrite gen_entry_id_eq in Q0 by auto.
    assert (C1 : entry_conj (eid + 1) = entry_conj eid).
    { replace (eid + 1) with (gen_entry_id (entry_conj eid) false) by (rewrite gen_entry_id_eq by auto; lia). now apply entry_conj_gen. }
    destruct I as [<-|I].
    + intro J. apply fc_skip_to_ok in J as [J _]; [|apply OKF; left; auto]. revert J. apply EX; [apply SUB; left; auto|auto].
    + assert (G : forall l, (forall g, In g l -> fcok g /\ eid <= fc_id g) -> StronglySorted leid l ->
        forall g', In g' (skip_same (entry_conj eid) (eid + 1) l) -> ~ In (eid + 1) (rem g')).
      { induction l as [|c l IH]; intros O SL g' IG; [destruct IG|]. cbn [skip_same] in IG.
        inversion_clear SL as [|? ? SL' F]. rewrite Forall_forall in F.
        destruct (Z.eqb_spec (entry_conj eid) (entry_conj (fc_id c))) as [Q|Q].
        - destruct IG as [<-|IG].
          + intro J. apply fc_skip_ok in J as [_ J]; [lia|apply O; left; auto].
          + apply (IH (fun g I => O g (or_intror I)) SL' g' IG).
        - assert (CL : entry_conj eid < entry_conj (fc_id c)).
          { pose proof (ent_conj_mono eid (fc_id c) (proj2 (O c (or_introl eq_refl)))). lia. }
          intro J. assert (LE : fc_id c <= fc_id g') by (destruct IG as [<-|IG]; [lia|apply F, IG]).
          pose proof (fc_id_le g' (eid + 1) (proj1 (O g' IG)) J) as L2.
          pose proof (ent_conj_mono (fc_id c) (eid + 1) ltac:(lia)). lia. }
      inversion_clear SRT as [|? ? ST F]. rewrite Forall_forall in F.
      apply (G t); auto. intros g Ig. split; [apply OKF; right; auto|]. apply F, Ig.
Qed.

Definition inc (X : Z) : Z := gen_entry_id X false.
Definition exc (X : Z) : Z := gen_entry_id X true.
Definition left (cs : list fcursor) (e : Z) : Prop := exists f, In f cs /\ In e (rem f).

Lemma scan_terminates fuel : forall cs, csok cs -> (total cs < fuel)%nat -> exists r, scan srt fuel cs = Some r.
Proof.
  induction fuel as [|fuel IH]; intros cs OK L; [lia|]. cbn [scan].
  destruct (round srt cs) as [[cs' out]|] eqn:E; [|eauto].
  destruct (round_some cs cs' out OK E) as (eid & _ & _ & _ & OK' & T & _).
  destruct (IH cs' OK') as (r & ->); [lia|]. eauto.
Qed.

Lemma ent_of_conj X e : 0 <= X < 2 ^ 60 -> ent e -> entry_conj e = X -> e = inc X \/ e = exc X.
Proof. intros R He <-. destruct (ent_inv e He) as [_ Q]. rewrite Q at 1 3. unfold inc, exc. destruct (is_include e); auto. Qed.
Lemma inc_exc X : 0 <= X < 2 ^ 60 -> inc X = exc X + 1.
Proof. intro R. unfold inc, exc. rewrite !gen_entry_id_eq by auto. lia. Qed.
Lemma inc_ent X : 0 <= X < 2 ^ 60 -> ent (inc X) /\ entry_conj (inc X) = X /\ is_include (inc X) = true.
Proof. intro R. unfold inc. split; [exists X, false; auto|]. now rewrite entry_conj_gen, is_include_gen. Qed.
Lemma exc_ent X : 0 <= X < 2 ^ 60 -> ent (exc X) /\ entry_conj (exc X) = X /\ is_include (exc X) = false.
Proof. intro R. unfold exc. split; [exists X, true; auto|]. now rewrite entry_conj_gen, is_include_gen. Qed.

Lemma scan_complete X fuel : 0 <= X < 2 ^ 60 -> conj_size_of X <= 1 -> forall cs r, csok cs ->
  left cs (inc X) -> ~ left cs (exc X) -> scan srt fuel cs = Some r -> In (conj_doc X) r.
Proof.
  intros R S1. destruct (inc_ent X R) as (EI & CI & II).
  induction fuel as [|fuel IH]; intros cs r OK LI NE E; [discriminate|]. cbn [scan] in E. destruct LI as (f & F & J).
  destruct (round srt cs) as [[cs' out]|] eqn:RD.
  - destruct (scan srt fuel cs') as [r'|] eqn:SC; [|discriminate]. inv E.
    destruct (round_some cs cs' out OK RD) as (eid & (g & G1 & G2) & MIN & -> & OK' & _ & SUB & K1).
    assert (HE : ent eid) by (eapply (cs_ent _ OK); eauto).
    assert (SZ : esize eid <= 1).
    { assert (esize eid <= esize (inc X)) by (exact (esize_mono _ _ HE EI (MIN f _ F J))). unfold esize in *. rewrite CI in H. lia. }
    destruct (Z.eq_dec (entry_conj eid) X) as [Q|Q].
    + destruct (ent_of_conj X eid R HE Q) as [->| ->].
      * rewrite II. apply in_app_iff. left. left. unfold entry_doc. now rewrite CI.
      * exfalso. apply NE. exists g. auto.
    + apply in_app_iff. right. destruct (K1 SZ) as [KEEP _]. destruct (KEEP f (inc X) F J) as (f' & A & B); [congruence|].
      apply (IH cs'); auto.
      * exists f'. auto.
      * intros (h & H1 & H2). destruct (SUB h H1) as (h0 & H3 & H4). apply NE. exists h0. auto.
  - pose proof (round_none cs OK RD f (inc X) F J) as S2. unfold esize in S2. rewrite CI in S2. lia.
Qed.

(** no cursor has both entries of a conjunction *)
Definition excl (X : Z) (cs : list fcursor) : Prop := forall f, In f cs -> In (exc X) (rem f) -> ~ In (inc X) (rem f).

Lemma scan_sound fuel : forall cs r d, csok cs -> scan srt fuel cs = Some r -> In d r ->
  exists X, 0 <= X < 2 ^ 60 /\ d = conj_doc X /\ left cs (inc X) /\
    (conj_size_of X <= 1 -> excl X cs -> ~ left cs (exc X)).
Proof.
  induction fuel as [|fuel IH]; intros cs r d OK E I; [discriminate|]. cbn [scan] in E.
  destruct (round srt cs) as [[cs' out]|] eqn:RD; [|inv E; destruct I].
  destruct (scan srt fuel cs') as [r'|] eqn:SC; [|discriminate]. inv E.
  destruct (round_some cs cs' out OK RD) as (eid & (g & G1 & G2) & MIN & -> & OK' & _ & SUB & K1).
  assert (HE : ent eid) by (eapply (cs_ent _ OK); eauto). pose proof (ent_inv eid HE) as [R0 Q0].
  apply in_app_iff in I as [I|I].
  - destruct (is_include eid) eqn:IE; [|destruct I]. destruct I as [<-|[]]. cbn [negb] in Q0.
    exists (entry_conj eid). split; auto. split; auto. split; [exists g; unfold inc; rewrite <- Q0; auto|].
    intros _ _ (h & H1 & H2). pose proof (MIN h _ H1 H2) as L. pose proof (inc_exc (entry_conj eid) R0) as IX. unfold inc in IX at 1. rewrite <- Q0 in IX. lia.
  - destruct (IH cs' r' d OK' SC I) as (X & R & -> & (f' & F1 & F2) & S). exists X. split; auto. split; auto.
    destruct (SUB f' F1) as (f & F3 & F4). split; [exists f; auto|].
    intros SZ EX (h & H1 & H2).
    assert (EX' : excl X cs').
    { intros k' A B C. destruct (SUB k' A) as (k0 & D & E0). apply (EX k0 D); auto. }
    specialize (S SZ EX').
    destruct (exc_ent X R) as (EE & CE & IE). destruct (inc_ent X R) as (EI & CI & _).
    assert (SE : esize eid <= 1).
    { assert (esize eid <= esize (exc X)) by (exact (esize_mono _ _ HE EE (MIN h _ H1 H2))). unfold esize in *. rewrite CE in H. lia. }
    destruct (K1 SE) as [KEEP KILL]. destruct (Z.eq_dec (entry_conj eid) X) as [Q|Q].
    + destruct (ent_of_conj X eid R HE Q) as [->| ->].
      * pose proof (MIN h _ H1 H2). pose proof (inc_exc X R). lia.
      * pose proof (inc_exc X R) as IX. rewrite <- IX in KILL. apply (KILL IE EX f' F1 F2).
    + apply S. destruct (KEEP h _ H1 H2) as (h' & A & B); [congruence|]. exists h'. auto.
Qed.
End Scan.
