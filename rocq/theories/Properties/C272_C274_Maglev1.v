(** C272-C274: the first version of the Maglev table. [slots], [complete], [proportional] and [good_ring] are those of C35. *)
From Coq Require Import List Arith ZArith Bool Lia Znumtheory.
From Verif.Model Require Import Common LoadBalance Maglev1.
From Verif.Proofs Require Import Tac MaglevProofs Maglev1Proofs.
From Verif.Properties Require Import C35_C37_LoadBalance.
Import ListNotations.
Local Open Scope Z_scope.

(** Valid input: as for C35, with weight 0 allowed. *)
Record maglev1_input (eps : list endpoint) (ring : Z) : Prop := {
  m1_two : (2 <= length eps)%nat;
  m1_nums : NoDup (map ep_num eps);
  m1_num : forall e, In e eps -> 0 <= ep_num e < 2 ^ 31;
  m1_weight : forall e, In e eps -> 0 <= ep_weight e < 2 ^ 32;
  m1_ring : prime ring;
  m1_ring32 : ring < 2 ^ 32
}.
Definition sum_weights (eps : list endpoint) : Z := fold_right (fun e n => ep_weight e + n) 0 eps.

Lemma maglev1_done hash eps ring fuel : maglev1_input eps ring -> good_ring hash eps ring -> 2 ^ 32 + 2 <= Z.of_nat fuel ->
  exists tab, gen_hash fuel hash eps ring = Some tab /\ complete eps ring tab /\
    (sum_weights eps < ring -> exists t, 0 <= t /\ forall e, In e eps -> ep_weight e + t <= slots tab (ep_num e) <= ep_weight e + t + 1) /\
    (ring <= sum_weights eps -> forall e, In e eps -> slots tab (ep_num e) <= ep_weight e).
Proof.
  intros [M1 M2 M3 M4 M5 M6] G F. assert (R2 : 2 <= ring) by (destruct M5; lia). set (gp := gen_permutation hash ring).
  assert (GP : forall e, es_num (gp e) = ep_num e /\ es_weight (gp e) = ep_weight e /\ es_next (gp e) = 0 /\
     es_off (gp e) = fst (hash (ep_hash e)) mod ring /\ es_skip (gp e) = snd (hash (ep_hash e)) mod (ring - 1) + 1).
  { intros e. unfold gp, gen_permutation. destruct (hash (ep_hash e)) as [h0 h1]. repeat split. }
  assert (EN : map es_num (map gp eps) = map ep_num eps) by (rewrite map_map; apply map_ext; intros e; apply GP).
  assert (SW : fold_right (fun e n => es_weight e + n) 0 (map gp eps) = sum_weights eps).
  { unfold sum_weights. clear -GP. induction eps as [|e eps IH]; [reflexivity|]. cbn [map fold_right]. rewrite IH. now destruct (GP e) as (_ & -> & _). }
  assert (X1 : 1 <= ring) by lia. assert (X3 : 2 ^ 32 <= Z.of_nat fuel) by lia.
  destruct (hash_spec ring fuel X1 X3 fuel (map gp eps)) as (tab & E & L & V & A & B).
  - now rewrite EN.
  - now rewrite map_length.
  - apply Forall_forall. intros x I. apply in_map_iff in I as (e & <- & I). destruct (GP e) as (A1 & A2 & A3 & A4 & A5). unfold ok_ep. rewrite A1, A2, A4, A5.
    split; [apply M3; auto|]. split; [apply M4; auto|]. destruct (Z.eq_dec ring 2) as [->|]; [eapply good_surj2; eauto|eapply good_surj; eauto; lia].
  - apply Forall_forall. intros x I. apply in_map_iff in I as (e & <- & I). apply GP.
  - lia.
  - rewrite EN, SW in *. exists tab. split; [unfold gen_hash; destruct eps as [|a [|b eps0]]; [cbn in M1; lia|cbn in M1; lia|exact E]|]. split; [split; [exact L|exact V]|].
    assert (GI : forall e, In e eps -> In (gp e) (map gp eps)) by (intros; now apply in_map). split.
    + intros S. destruct (A S) as (t & T & H). exists t. split; [exact T|]. intros e I. specialize (H (gp e) (GI e I)). destruct (GP e) as (X & Y & _). rewrite X, Y in H. rewrite slots_cnt. exact H.
    + intros S e I. specialize (B S (gp e) (GI e I)). destruct (GP e) as (X & Y & _). rewrite X, Y in B. rewrite slots_cnt. exact B.
Qed.

(** *** C272: the table is generated, and every slot belongs to an endpoint. *)
Definition C272_statement : Prop := forall hash eps ring, (forall x, 0 <= fst (hash x) < 2 ^ 64 /\ 0 <= snd (hash x) < 2 ^ 64) -> maglev1_input eps ring ->
  exists fuel tab, gen_hash fuel hash eps ring = Some tab /\ complete eps ring tab.
(** As for C35: with the default ring the 32-bit product wraps, and an endpoint whose skip is 65536 never reaches one of the slots. *)
Theorem C272_statement_refuted : ~ C272_statement.
Proof.
  intro S. destruct (S (fun _ => (0, 65535)) [mkep 0 1 7; mkep 1 1 8] 65537) as (fuel & tab & E & _).
  - intro x. cbn. lia.
  - split; [cbn; lia| | | |apply prime_65537|lia].
    + repeat constructor; cbn; lia.
    + intros e [<-|[<-|[]]]; cbn; lia.
    + intros e [<-|[<-|[]]]; cbn; lia.
  - unfold gen_hash in E. rewrite stuck_rounds in E; [discriminate| |].
    + repeat constructor; cbn; lia.
    + split; [rewrite repeat_length; lia|]. split.
      * unfold slot. vm_compute. reflexivity.
      * vm_compute. reflexivity.
Qed.
Theorem C272_complete_partial : forall hash eps ring, maglev1_input eps ring -> good_ring hash eps ring -> exists fuel tab, gen_hash fuel hash eps ring = Some tab /\ complete eps ring tab.
Proof. intros hash eps ring M G. destruct (maglev1_done hash eps ring (Z.to_nat (2 ^ 32 + 2)) M G) as (tab & E & C & _); [lia|]. eauto. Qed.
Definition h3 (x : Z) : Z * Z := (x * 11 + 3, x * 5 + 1).
Definition ex_eps := [mkep 0 1 7; mkep 1 3 8].
Lemma prime_13 : prime 13.
Proof.
  constructor; [lia|]. intros n R. apply Zgcd_1_rel_prime.
  assert (C : n = 1 \/ n = 2 \/ n = 3 \/ n = 4 \/ n = 5 \/ n = 6 \/ n = 7 \/ n = 8 \/ n = 9 \/ n = 10 \/ n = 11 \/ n = 12) by lia.
  repeat (destruct C as [->|C]; [reflexivity|]). subst n. reflexivity.
Qed.
Lemma good13 h eps : good_ring h eps 13.
Proof. left. lia. Qed.
Lemma ex_input : maglev1_input ex_eps 13.
Proof. split; [cbn; lia|repeat constructor; cbn; lia| | |exact prime_13|lia]; intros e [<-|[<-|[] ] ]; cbn; lia. Qed.
Example C272_example : maglev1_input ex_eps 13 /\ good_ring h3 ex_eps 13 /\ gen_hash 40 h3 ex_eps 13 = Some [1; 0; 0; 0; 0; 1; 1; 0; 0; 1; 1; 1; 1].
Proof. split; [exact ex_input|]. split; [left; lia|]. vm_compute. reflexivity. Qed.

(** *** C273: shares follow the weights, as they do for the second version (C35). *)
Definition C273_statement : Prop := forall fuel hash eps ring tab, maglev1_input eps ring -> good_ring hash eps ring -> gen_hash fuel hash eps ring = Some tab -> proportional eps tab.
(** Weights count in the first round only: with weights 1 and 3 the shares of a ring of 13 are 6 and 7. *)
Theorem C273_statement_refuted : ~ C273_statement.
Proof.
  intros H. destruct (H 40%nat h3 ex_eps 13 _ ex_input (good13 _ _) (proj2 (proj2 C272_example))) as (t & _ & P).
  pose proof (P (mkep 0 1 7) (or_introl eq_refl)) as A. pose proof (P (mkep 1 3 8) (or_intror (or_introl eq_refl))) as B. cbn [ep_weight ep_num] in A, B. change (max_weight ex_eps) with 3 in *.
  assert (S0 : slots [1; 0; 0; 0; 0; 1; 1; 0; 0; 1; 1; 1; 1] 0 = 6) by reflexivity. assert (S1 : slots [1; 0; 0; 0; 0; 1; 1; 0; 0; 1; 1; 1; 1] 1 = 7) by reflexivity. lia.
Qed.
(** Each endpoint gets its weight and the same number of slots besides, to within one: shares differ by the difference of the weights, whatever the size of the ring. *)
Theorem C273_shares_partial : forall hash eps ring, maglev1_input eps ring -> good_ring hash eps ring -> sum_weights eps < ring -> exists fuel tab, gen_hash fuel hash eps ring = Some tab /\
  forall e e', In e eps -> In e' eps -> ep_weight e - ep_weight e' - 1 <= slots tab (ep_num e) - slots tab (ep_num e') <= ep_weight e - ep_weight e' + 1.
Proof.
  intros hash eps ring M G S. destruct (maglev1_done hash eps ring (Z.to_nat (2 ^ 32 + 2)) M G) as (tab & E & _ & A & _); [lia|]. destruct (A S) as (t & _ & H). exists (Z.to_nat (2 ^ 32 + 2)), tab. split; [exact E|].
  intros e e' I I'. pose proof (H e I). pose proof (H e' I'). lia.
Qed.
Example C273_example : sum_weights ex_eps < 13.
Proof. cbn. lia. Qed.

(** *** C274: an endpoint of weight 0 gets no slots. *)
Definition C274_statement : Prop := forall fuel hash eps ring tab, maglev1_input eps ring -> good_ring hash eps ring -> gen_hash fuel hash eps ring = Some tab ->
  forall e, In e eps -> ep_weight e = 0 -> (exists e', In e' eps /\ 0 < ep_weight e') -> slots tab (ep_num e) = 0.
Definition zero_eps := [mkep 0 0 7; mkep 1 3 8].
Lemma zero_input : maglev1_input zero_eps 13.
Proof. split; [cbn; lia|repeat constructor; cbn; lia| | |exact prime_13|lia]; intros e [<-|[<-|[] ] ]; cbn; lia. Qed.
Theorem C274_statement_refuted : ~ C274_statement.
Proof.
  intros H. assert (E : exists t, gen_hash 40 h3 zero_eps 13 = Some t /\ 0 < slots t 0) by (vm_compute; eexists; split; [reflexivity|constructor]).
  destruct E as (t & E & P). pose proof (H 40%nat h3 zero_eps 13 t zero_input (good13 _ _) E (mkep 0 0 7) (or_introl eq_refl) eq_refl) as Z. clear E.
  assert (X : exists e', In e' zero_eps /\ 0 < ep_weight e') by (exists (mkep 1 3 8); split; [right; left; reflexivity|reflexivity]).
  specialize (Z X). change (ep_num (mkep 0 0 7)) with 0 in Z. rewrite Z in P. discriminate P.
Qed.
(** It gets none only where the weights of the others fill the ring; otherwise as many as the slots the others have beyond their weights, to within one. *)
Theorem C274_zero_partial : forall hash eps ring, maglev1_input eps ring -> good_ring hash eps ring -> exists fuel tab, gen_hash fuel hash eps ring = Some tab /\ forall e, In e eps -> ep_weight e = 0 ->
  (ring <= sum_weights eps -> slots tab (ep_num e) = 0) /\
  (sum_weights eps < ring -> forall e', In e' eps -> slots tab (ep_num e') - ep_weight e' - 1 <= slots tab (ep_num e) <= slots tab (ep_num e') - ep_weight e' + 1).
Proof.
  intros hash eps ring M G. destruct (maglev1_done hash eps ring (Z.to_nat (2 ^ 32 + 2)) M G) as (tab & E & _ & A & B); [lia|]. exists (Z.to_nat (2 ^ 32 + 2)), tab. split; [exact E|]. intros e I W. split.
  - intros S. pose proof (B S e I). unfold slots in *. lia.
  - intros S e' I'. destruct (A S) as (t & _ & H). pose proof (H e I). pose proof (H e' I'). lia.
Qed.
Example C274_example : maglev1_input zero_eps 13 /\ sum_weights zero_eps < 13 /\ sum_weights [mkep 0 0 7; mkep 1 20 8] >= 13.
Proof. split; [exact zero_input|]. cbn. lia. Qed.

Print Assumptions C272_statement_refuted.
Print Assumptions C272_complete_partial.
Print Assumptions C273_statement_refuted.
Print Assumptions C273_shares_partial.
Print Assumptions C274_statement_refuted.
Print Assumptions C274_zero_partial.
