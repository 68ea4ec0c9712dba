(** C35-C37, C57, C58: Maglev, the consistent hash ring and round robin. *)
From Coq Require Import List Arith ZArith Bool Lia Znumtheory Permutation Sorting.
From Verif.Model Require Import Common LoadBalance.
From Verif.Spec Require Import RingSpec.
From Verif.Proofs Require Import Tac MaglevProofs RingProofs.
Import ListNotations.
Local Open Scope Z_scope.

(** * C35: Maglev *)

(** the number of slots of [tab] that endpoint number [x] owns *)
Definition slots (tab : list Z) (x : Z) : Z := Z.of_nat (count_occ Z.eq_dec tab x).

Lemma slots_cnt tab x : slots tab x = cnt (isnum x) tab.
Proof.
  unfold slots, cnt, isnum. f_equal. induction tab as [|y tab IH]; cbn; auto.
  destruct (Z.eq_dec y x), (Z.eqb_spec x y); cbn; congruence.
Qed.

(** valid input: two or more endpoints with distinct numbers, positive weights, a prime ring size *)
Record maglev_input (eps : list endpoint) (ring : Z) : Prop := {
  mi_two : (2 <= length eps)%nat;
  mi_nums : NoDup (map ep_num eps);
  mi_num : forall e, In e eps -> 0 <= ep_num e < 2 ^ 31;
  mi_weight : forall e, In e eps -> 0 < ep_weight e < 2 ^ 31;
  mi_ring : prime ring;
  mi_ring32 : ring < 2 ^ 32
}.

(** the table has exactly [ring] slots, all of them owned by endpoints *)
Definition complete (eps : list endpoint) (ring : Z) (tab : list Z) : Prop :=
  Z.of_nat (length tab) = ring /\ forall x, In x tab -> In x (map ep_num eps).
Definition fair (eps : list endpoint) (tab : list Z) : Prop :=
  (forall e e', In e eps -> In e' eps -> ep_weight e = ep_weight e') ->
  forall e e', In e eps -> In e' eps -> Z.abs (slots tab (ep_num e) - slots tab (ep_num e')) <= 1.
(** shares follow the weights, to within one slot and one round *)
Definition proportional (eps : list endpoint) (tab : list Z) : Prop :=
  exists t, 0 <= t /\ forall e, In e eps ->
    t * ep_weight e - max_weight eps < max_weight eps * slots tab (ep_num e) <= (t + 1) * ep_weight e.

Definition C35_statement : Prop := forall hash eps ring,
  (forall x, 0 <= fst (hash x) < 2 ^ 64 /\ 0 <= snd (hash x) < 2 ^ 64) ->
  maglev_input eps ring ->
  exists fuel tab, gen_ring fuel hash eps ring = Some tab /\ complete eps ring tab /\ fair eps tab.

(** With the default ring size an endpoint whose skip is 65536 probes only part of the ring, because
    [next * skip] is computed modulo 2^32: when all endpoints are like that the loop never ends. *)
Theorem C35_statement_refuted : ~ C35_statement.
Proof.
  intro S. destruct (S (fun _ => (0, 65535)) [mkep 0 1 7; mkep 1 1 8] 65537) as (fuel & tab & E & _).
  - intro x. cbn. lia.
  - split; [cbn; lia| | | |apply prime_65537|lia].
    + repeat constructor; cbn; lia.
    + intros e [<-|[<-|[]]]; cbn; lia.
    + intros e [<-|[<-|[]]]; cbn; lia.
  - unfold gen_ring in E. rewrite stuck_passes in E; [discriminate| |].
    + repeat constructor; cbn; lia.
    + split; [rewrite repeat_length; lia|]. split.
      * unfold slot. vm_compute. reflexivity.
      * vm_compute. reflexivity.
Qed.
Print Assumptions C35_statement_refuted.

(** rings for which the probe sequence cannot wrap, or the default ring without the bad skip *)
Definition good_ring (hash : Z -> Z * Z) (eps : list endpoint) (ring : Z) : Prop :=
  ring * ring <= 2 ^ 32 \/
  (ring = 65537 /\ forall e, In e eps -> snd (hash (ep_hash e)) mod 65536 <> 65535).

Lemma good_surj hash eps ring : prime ring -> good_ring hash eps ring -> 2 < ring ->
  forall e, In e eps -> surj ring (fst (hash (ep_hash e)) mod ring) (snd (hash (ep_hash e)) mod (ring - 1) + 1).
Proof.
  intros P G R e I. pose proof (Z.mod_pos_bound (fst (hash (ep_hash e))) ring ltac:(lia)).
  pose proof (Z.mod_pos_bound (snd (hash (ep_hash e))) (ring - 1) ltac:(lia)).
  destruct G as [G|[-> G]].
  - apply surj_no_wrap; auto; try lia. apply rel_prime_sym, prime_rel_prime; auto.
    intros D. apply Z.divide_pos_le in D; lia.
  - change (65537 - 1) with 65536 in *. apply surj_65537; [lia|]. specialize (G e I). lia.
Qed.
Lemma good_surj2 hash eps e : In e eps -> surj 2 (fst (hash (ep_hash e)) mod 2) (snd (hash (ep_hash e)) mod (2 - 1) + 1).
Proof.
  intros I. apply surj_no_wrap; try lia.
  - pose proof (Z.mod_pos_bound (fst (hash (ep_hash e))) 2 ltac:(lia)). lia.
  - change (2 - 1) with 1. rewrite Z.mod_1_r. lia.
  - change (2 - 1) with 1. rewrite Z.mod_1_r. apply rel_prime_1.
Qed.

Lemma maglev_done hash eps ring fuel : maglev_input eps ring -> good_ring hash eps ring -> 2 ^ 32 <= Z.of_nat fuel ->
  exists tab, gen_ring fuel hash eps ring = Some tab /\ done ring (max_weight eps) tab (map ep_num eps) (map ep_weight eps).
Proof.
  intros [M1 M2 M3 M4 M5 M6] G F.
  assert (R2 : 2 <= ring) by (destruct M5; lia).
  set (gp := gen_permutation hash ring).
  assert (EN : map es_num (map gp eps) = map ep_num eps).
  { rewrite map_map. apply map_ext. intro e. unfold gp, gen_permutation. destruct (hash (ep_hash e)). reflexivity. }
  assert (EW : map es_weight (map gp eps) = map ep_weight eps).
  { rewrite map_map. apply map_ext. intro e. unfold gp, gen_permutation. destruct (hash (ep_hash e)). reflexivity. }
  pose proof (max_weight_acc eps 0) as MW. cbn zeta in MW. fold (max_weight eps) in MW. destruct MW as (_ & MX & MA).
  set (W := max_weight eps) in *.
  assert (MI : In W (map ep_weight eps) /\ 0 < W < 2 ^ 31).
  { destruct eps as [|e0 eps0]; [cbn in M1; lia|]. destruct MA as [MA|(e & I & MA)].
    - specialize (MX e0 (or_introl eq_refl)). specialize (M4 e0 (or_introl eq_refl)). lia.
    - rewrite <- MA. split; [now apply in_map|auto]. }
  destruct MI as [MI (W0 & W31)].
  destruct (passes_spec ring W fuel ltac:(lia) F W31 fuel 0 (map gp eps) (repeat (-1) (Z.to_nat ring)) 0) as (tab & E & D).
  - lia.
  - now rewrite EN.
  - apply Forall_forall. intros x I. apply in_map_iff in I as (e & <- & I). unfold gp, gen_permutation, stat.
    assert (SJ : surj ring (fst (hash (ep_hash e)) mod ring) (snd (hash (ep_hash e)) mod (ring - 1) + 1)).
    { destruct (Z.eq_dec ring 2) as [->|]; [eapply good_surj2; eauto|eapply good_surj; eauto; lia]. }
    destruct (hash (ep_hash e)) as [h0 h1]. cbn [fst snd] in SJ. cbn. split; [apply M3; auto|].
    split; [split; [apply M4; auto|apply MX; auto]|exact SJ].
  - apply Forall_forall. intros x I. apply in_map_iff in I as (e & <- & I). unfold gp, gen_permutation, dyn.
    destruct (hash (ep_hash e)) as [h0 h1]. cbn [es_next es_off es_skip es_cum es_num es_weight]. split; [lia|]. split; [intros; lia|]. split; [lia|].
    assert (Z0 : cnt (isnum (ep_num e)) (repeat (-1) (Z.to_nat ring)) = 0).
    { unfold cnt. generalize (Z.to_nat ring). intro n. induction n as [|n IH]; cbn [repeat filter]; auto.
      unfold isnum at 1. specialize (M3 e I). destruct (Z.eqb_spec (ep_num e) (-1)); [lia|auto]. }
    rewrite Z0. lia.
  - now rewrite EW.
  - rewrite repeat_length. lia.
  - unfold cnt. generalize (Z.to_nat ring). intro n. induction n as [|n IH]; cbn [repeat filter]; auto.
  - lia.
  - lia.
  - intros x I. apply repeat_spec in I. auto.
  - rewrite EN, EW in D. exists tab. split; auto. unfold gen_ring.
    destruct eps as [|a [|b eps0]]; [cbn in M1; lia|cbn in M1; lia|]. exact E.
Qed.
Lemma combine_map_in {A} (f g : A -> Z) l a : In a l -> In (f a, g a) (combine (map f l) (map g l)).
Proof. induction l as [|b l IH]; cbn; [tauto|]. intros [->|I]; auto. Qed.
Lemma done_fair eps ring tab : done ring (max_weight eps) tab (map ep_num eps) (map ep_weight eps) ->
  (forall e, In e eps -> 0 < ep_weight e) ->
  complete eps ring tab /\ fair eps tab /\ proportional eps tab.
Proof.
  intros (L & V & t & T0 & D) WP.
  pose proof (max_weight_acc eps 0) as MW. cbn zeta in MW. fold (max_weight eps) in MW. destruct MW as (M0 & MX & MA).
  split; [split; auto|]. split.
  - intros EQ e e' I I'.
    assert (WE : forall e, In e eps -> ep_weight e = max_weight eps).
    { intros x J. destruct MA as [MA|(y & K & MA)].
      - pose proof (WP x J). pose proof (MX x J). lia.
      - rewrite <- MA. auto. }
    assert (P : forall e, In e eps -> exists d, t <= d <= t + 1 /\ slots tab (ep_num e) = d).
    { intros x J. destruct (D _ _ (combine_map_in ep_num ep_weight eps x J)) as (d & cum & DR & C & E).
      exists d. split; auto. rewrite slots_cnt. rewrite (WE x J) in E. pose proof (WP x J). rewrite (WE x J) in *. nia. }
    destruct (P e I) as (d & A & B). destruct (P e' I') as (d' & A' & B'). lia.
  - exists t. split; auto. intros e I. destruct (D _ _ (combine_map_in ep_num ep_weight eps e I)) as (d & cum & DR & C & E).
    rewrite slots_cnt. pose proof (WP e I). nia.
Qed.

(** The ring is complete and fair, and proportional to the weights, for the rings above. *)
Theorem C35_maglev_complete_and_fair_partial : forall hash eps ring,
  maglev_input eps ring -> good_ring hash eps ring ->
  exists fuel tab, gen_ring fuel hash eps ring = Some tab /\ complete eps ring tab /\ fair eps tab /\ proportional eps tab.
Proof.
  intros hash eps ring M G. destruct (maglev_done hash eps ring (Z.to_nat (2 ^ 32)) M G) as (tab & E & D); [lia|].
  exists (Z.to_nat (2 ^ 32)), tab. split; auto. apply done_fair; auto. intros e I. apply (mi_weight _ _ M e I).
Qed.
Print Assumptions C35_maglev_complete_and_fair_partial.

(** the result does not depend on how many rounds we allow *)
Lemma probe_mono f f' p off skip res : (f <= f')%nat -> forall next r, probe f p off skip next res = Some r -> probe f' p off skip next res = Some r.
Proof.
  revert f'. induction f as [|f IH]; intros f' L next r E; cbn in E; [discriminate|].
  destruct f' as [|f']; [lia|]. cbn. destruct (0 <=? slot res (cur_of p off skip next)); auto. apply IH; auto. lia.
Qed.
Lemma pass_mono f f' p W es : (f <= f')%nat -> forall res runs r, pass f p W es res runs = Some r -> pass f' p W es res runs = Some r.
Proof.
  intro L. induction es as [|e es IH]; intros res runs r E; cbn [pass] in *; auto.
  destruct (W <=? w32 (es_cum e + es_weight e)).
  - destruct (probe f p (es_off e) (es_skip e) (es_next e) res) as [[n cur]|] eqn:P; [|discriminate].
    rewrite (probe_mono f f' p _ _ res L _ _ P). destruct (runs + 1 =? p); auto.
    destruct (pass f p W es _ (runs + 1)) as [[[[a b] c] d]|] eqn:Q; [|discriminate]. now rewrite (IH _ _ _ Q).
  - destruct (pass f p W es res runs) as [[[[a b] c] d]|] eqn:Q; [|discriminate]. now rewrite (IH _ _ _ Q).
Qed.
Lemma passes_mono f f' p W n n' : (f <= f')%nat -> (n <= n')%nat -> forall es res runs r,
  passes n f p W es res runs = Some r -> passes n' f' p W es res runs = Some r.
Proof.
  intro L. revert n'. induction n as [|n IH]; intros n' LN es res runs r E; cbn [passes] in E; [discriminate|].
  destruct n' as [|n']; [lia|]. cbn [passes].
  destruct (pass f p W es res runs) as [[[[a b] c] d]|] eqn:Q; [|discriminate].
  rewrite (pass_mono _ _ _ _ _ L _ _ _ Q). destruct d; auto. apply IH; auto. lia.
Qed.
Lemma gen_ring_mono f f' hash eps ring tab : (f <= f')%nat -> gen_ring f hash eps ring = Some tab -> gen_ring f' hash eps ring = Some tab.
Proof. unfold gen_ring. destruct eps as [|a [|b eps]]; auto. intros. eapply passes_mono; eauto. Qed.
Theorem C35_table_is_unique_partial : forall hash eps ring f f' tab tab',
  gen_ring f hash eps ring = Some tab -> gen_ring f' hash eps ring = Some tab' -> tab = tab'.
Proof.
  intros hash eps ring f f' tab tab' E E'.
  apply (gen_ring_mono _ (f + f')) in E; [|lia]. apply (gen_ring_mono _ (f + f')) in E'; [|lia]. congruence.
Qed.
Print Assumptions C35_table_is_unique_partial.

(** a concrete ring with unequal weights *)
Example C35_example :
  gen_ring 100 (fun x => (x * 11 + 3, x * 5 + 1)) [mkep 0 1 7; mkep 1 2 8; mkep 2 2 9] 13
  = Some [1; 2; 0; 0; 1; 1; 1; 2; 0; 2; 2; 2; 1]
  /\ maglev_input [mkep 0 1 7; mkep 1 2 8; mkep 2 2 9] 13 /\ good_ring (fun x => (x * 11 + 3, x * 5 + 1)) [mkep 0 1 7; mkep 1 2 8; mkep 2 2 9] 13.
Proof.
  split; [vm_compute; reflexivity|]. split.
  - split; [cbn; lia| | | | |lia].
    + repeat constructor; cbn; lia.
    + intros e [<-|[<-|[<-|[]]]]; cbn; lia.
    + intros e [<-|[<-|[<-|[]]]]; cbn; lia.
    + constructor; [lia|]. intros n N. apply Zgcd_1_rel_prime.
      assert (E : coprime_upto 20 12 13 = true) by reflexivity. eapply coprime_upto_spec; eauto. lia.
  - left. lia.
Qed.

(** * C57: the Maglev router *)
Definition C57_statement : Prop := forall hash addr_hash (n : nat) key_hash,
  (forall x, 0 <= fst (hash x) < 2 ^ 64 /\ 0 <= snd (hash x) < 2 ^ 64) ->
  (0 < n)%nat -> Z.of_nat n < 2 ^ 31 -> 0 <= key_hash < 2 ^ 32 ->
  exists fuel tab, gen_ring fuel hash (router_endpoints addr_hash n) 65537 = Some tab /\
  exists i, (i < n)%nat /\ maglev_lookup tab n key_hash = Ok (Some i).

Theorem C57_statement_refuted : ~ C57_statement.
Proof.
  intro S. destruct (S (fun _ => (0, 65535)) (fun _ => 5) 2%nat 0) as (fuel & tab & E & _); try lia.
  - intro x. cbn. lia.
  - unfold gen_ring in E. cbn [router_endpoints seq map] in E. rewrite stuck_passes in E; [discriminate| |].
    + repeat constructor; cbn; lia.
    + split; [rewrite repeat_length; lia|]. split.
      * unfold slot. vm_compute. reflexivity.
      * vm_compute. reflexivity.
Qed.
Print Assumptions C57_statement_refuted.

Lemma router_input addr_hash n : (2 <= n)%nat -> Z.of_nat n < 2 ^ 31 -> maglev_input (router_endpoints addr_hash n) 65537.
Proof.
  intros N B. unfold router_endpoints. split.
  - rewrite map_length, seq_length. lia.
  - rewrite map_map. cbn [ep_num]. apply (FinFun.Injective_map_NoDup Nat2Z.inj). apply seq_NoDup.
  - intros e I. apply in_map_iff in I as (i & <- & I). apply in_seq in I. cbn. lia.
  - intros e I. apply in_map_iff in I as (i & <- & I). apply in_seq in I. cbn. lia.
  - apply prime_65537.
  - lia.
Qed.

(** When no client has the bad skip, every key is given a client, and each client owns
    either floor or ceiling of its equal share of the 65537 slots. *)
Theorem C57_router_always_answers_partial : forall hash addr_hash (n : nat),
  (0 < n)%nat -> Z.of_nat n < 2 ^ 31 ->
  (forall i, (i < n)%nat -> snd (hash (addr_hash i)) mod 65536 <> 65535) ->
  exists fuel tab, gen_ring fuel hash (router_endpoints addr_hash n) 65537 = Some tab /\
  (forall key_hash, 0 <= key_hash < 2 ^ 32 -> exists i, (i < n)%nat /\ maglev_lookup tab n key_hash = Ok (Some i)) /\
  (forall i j, (i < n)%nat -> (j < n)%nat -> Z.abs (slots tab (Z.of_nat i) - slots tab (Z.of_nat j)) <= 1).
Proof.
  intros hash addr_hash n N B G.
  assert (X : exists fuel tab, gen_ring fuel hash (router_endpoints addr_hash n) 65537 = Some tab /\ complete (router_endpoints addr_hash n) 65537 tab /\ fair (router_endpoints addr_hash n) tab).
  { destruct n as [|[|n]]; [lia| |].
    - exists 0%nat, (repeat 0 (Z.to_nat 65537)). split; [reflexivity|]. split.
      + split; [rewrite repeat_length; lia|]. intros x I. apply repeat_spec in I. subst. left. reflexivity.
      + intros _ e e' [<-|[]] [<-|[]]. rewrite Z.sub_diag. cbn. lia.
    - destruct (C35_maglev_complete_and_fair_partial hash (router_endpoints addr_hash (S (S n))) 65537) as (fuel & tab & E & C & F & _); eauto.
      + apply router_input; lia.
      + right. split; auto. intros e I. apply in_map_iff in I as (i & <- & I). apply in_seq in I. cbn [ep_hash]. apply G. lia. }
  destruct X as (fuel & tab & E & (L & V) & F). exists fuel, tab. split; auto.
  assert (NV : forall x, In x tab -> 0 <= x < Z.of_nat n).
  { intros x I. apply V in I. apply in_map_iff in I as (e & <- & I). apply in_map_iff in I as (i & <- & I). apply in_seq in I. cbn. lia. }
  split.
  - intros kh K. unfold maglev_lookup. destruct (Nat.eqb_spec n 0); [lia|]. destruct (Nat.eqb_spec (length tab) 0); [lia|].
    set (s := slot tab (kh mod Z.of_nat (length tab))).
    assert (S : 0 <= s < Z.of_nat n).
    { apply NV. apply nth_In. pose proof (Z.mod_pos_bound kh (Z.of_nat (length tab)) ltac:(lia)). lia. }
    assert (WS : w32 s = s) by (apply Z.mod_small; lia). rewrite WS. destruct (Z.ltb_spec s (Z.of_nat n)); [|lia].
    exists (Z.to_nat s). split; [lia|auto].
  - intros i j I J.
    assert (EI : forall i, (i < n)%nat -> In (mkep (Z.of_nat i) (Z.of_nat n) (addr_hash i)) (router_endpoints addr_hash n)).
    { intros k K. unfold router_endpoints. apply in_map_iff. exists k. split; auto. apply in_seq. lia. }
    refine (F _ _ _ (EI i I) (EI j J)). intros e e' A A'. apply in_map_iff in A as (? & <- & _). apply in_map_iff in A' as (? & <- & _). reflexivity.
Qed.
Print Assumptions C57_router_always_answers_partial.

(** Before StartRouter the table is empty and the lookup divides by zero. *)
Theorem C57_lookup_before_start_is_undefined_partial : forall n kh, (0 < n)%nat -> maglev_lookup [] n kh = UB.
Proof. intros n kh N. unfold maglev_lookup. destruct (Nat.eqb_spec n 0); [lia|reflexivity]. Qed.
Print Assumptions C57_lookup_before_start_is_undefined_partial.

(** * C36: the consistent hash ring *)

Section C36.
Context {T : Type} (hasher : T -> Z).
Inductive ring_op := Ins (v : T) | Del (v : T).
Definition ring_do (m : @ring_map T) (o : ring_op) : @ring_map T :=
  match o with Ins v => ring_insert hasher v m | Del v => ring_erase hasher v m end.
(** the ring after a history of insertions and removals *)
Definition ring_after (ops : list ring_op) : @ring_map T := fold_left ring_do ops [].

(** [v] is in the node set after [ops]: the last operation on it was an insertion *)
Fixpoint live (ops : list ring_op) (v : T) : Prop :=   (* newest operation first *)
  match ops with
  | [] => False
  | Ins u :: ops' => u = v \/ live ops' v
  | Del u :: ops' => u <> v /\ live ops' v
  end.
Definition mentioned (ops : list ring_op) (v : T) : Prop := In (Ins v) ops \/ In (Del v) ops.
End C36.
Arguments ring_op : clear implicits.

Lemma ring_after_ok {T} (hasher : T -> Z) ops : ringok hasher (ring_after hasher ops).
Proof.
  unfold ring_after. assert (G : forall m, ringok hasher m -> ringok hasher (fold_left (ring_do hasher) ops m)).
  { induction ops as [|o ops IH]; intros m M; cbn; auto. apply IH. destruct o; cbn; [now apply ring_insert_ok|now apply ring_erase_ok]. }
  apply G. apply ringok_nil.
Qed.
Lemma ring_after_snoc {T} (hasher : T -> Z) ops o : ring_after hasher (ops ++ [o]) = ring_do hasher (ring_after hasher ops) o.
Proof. unfold ring_after. now rewrite fold_left_app. Qed.

(** the full statement *)
Definition C36_statement : Prop := forall (T : Type) (hasher : T -> Z), (forall v, 0 <= hasher v < 2 ^ 32) ->
  forall (ops : list (ring_op T)) k, 0 <= k < 2 ^ 32 ->
  (forall q, ring_find k (ring_after hasher ops) = Some q <-> owner k (ring_after hasher ops) q) /\
  (forall v q, ring_find k (ring_after hasher (ops ++ [Ins v])) = Some q ->
     ring_find k (ring_after hasher ops) = Some q \/ q = (hasher v, v)) /\
  (forall v h u, ring_find k (ring_after hasher ops) = Some (h, u) -> u <> v ->
     ring_find k (ring_after hasher (ops ++ [Del v])) = Some (h, u)).

(** Removing a node whose hash collides with another node's removes that other node. *)
Theorem C36_statement_refuted : ~ C36_statement.
Proof.
  intro S. destruct (S nat (fun _ => 5) (fun _ => ltac:(lia)) [Ins 1%nat] 0 ltac:(lia)) as (_ & _ & D).
  specialize (D 2%nat 5 1%nat eq_refl ltac:(lia)). discriminate.
Qed.
Print Assumptions C36_statement_refuted.

Theorem C36_lookup_is_first_clockwise_partial : forall (T : Type) (hasher : T -> Z), (forall v, 0 <= hasher v < 2 ^ 32) ->
  forall (ops : list (ring_op T)) k q, 0 <= k < 2 ^ 32 ->
  (ring_find k (ring_after hasher ops) = Some q <-> owner k (ring_after hasher ops) q).
Proof. intros. apply (ring_find_iff hasher); auto. apply ring_after_ok. Qed.
Print Assumptions C36_lookup_is_first_clockwise_partial.

Theorem C36_insert_moves_only_to_new_node_partial : forall (T : Type) (hasher : T -> Z), (forall v, 0 <= hasher v < 2 ^ 32) ->
  forall (ops : list (ring_op T)) k v, 0 <= k < 2 ^ 32 ->
  ring_find k (ring_after hasher (ops ++ [Ins v])) = ring_find k (ring_after hasher ops) \/
  ring_find k (ring_after hasher (ops ++ [Ins v])) = Some (hasher v, v).
Proof.
  intros T hasher HR ops k v K. rewrite ring_after_snoc. cbn [ring_do].
  pose proof (ring_after_ok hasher ops) as OK. set (m := ring_after hasher ops) in *.
  pose proof (ring_insert_ok hasher v m OK) as OK'.
  destruct (ring_find k (ring_insert hasher v m)) as [q|] eqn:E.
  - apply (ring_find_iff hasher) in E as [I MIN]; auto.
    pose proof I as I'. apply ring_insert_in in I' as [I'|[-> _]]; auto. left. symmetry. apply (ring_find_iff hasher); auto.
    split; auto. intros q' J. apply MIN. apply ring_insert_in; auto.
  - left. apply ring_find_none in E. symmetry. apply ring_find_none. destruct m as [|p m]; auto. exfalso.
    assert (In p (ring_insert hasher v (p :: m))) by (apply ring_insert_in; auto; left; left; auto). now rewrite E in H.
Qed.
Print Assumptions C36_insert_moves_only_to_new_node_partial.

(** Removing [v] leaves the lookups of other nodes alone when no other node of the ring has its hash. *)
Theorem C36_erase_moves_only_its_lookups_partial : forall (T : Type) (hasher : T -> Z), (forall v, 0 <= hasher v < 2 ^ 32) ->
  forall (ops : list (ring_op T)) k v h u, 0 <= k < 2 ^ 32 ->
  (forall h' u', In (h', u') (ring_after hasher ops) -> hasher u' = hasher v -> u' = v) ->
  ring_find k (ring_after hasher ops) = Some (h, u) -> u <> v ->
  ring_find k (ring_after hasher (ops ++ [Del v])) = Some (h, u).
Proof.
  intros T hasher HR ops k v h u K NC E NE. rewrite ring_after_snoc. cbn [ring_do].
  pose proof (ring_after_ok hasher ops) as OK. set (m := ring_after hasher ops) in *.
  apply (ring_find_iff hasher) in E as [I MIN]; auto. apply (ring_find_iff hasher); auto; [now apply ring_erase_ok|]. split.
  - apply ring_erase_in. split; auto. intro Q. apply NE. apply (NC h u I). rewrite <- Q. symmetry. apply (rk_hash _ _ OK _ I).
  - intros q' J. apply ring_erase_in in J as [J _]. auto.
Qed.
Print Assumptions C36_erase_moves_only_its_lookups_partial.

(** what the ring holds, when the nodes in play have different hashes *)
Lemma live_mentioned {T} (ops : list (ring_op T)) u : live (rev ops) u -> mentioned ops u.
Proof.
  unfold mentioned. rewrite (in_rev ops (Ins u)), (in_rev ops (Del u)).
  induction (rev ops) as [|x l IHl]; cbn; [tauto|]. destruct x as [w|w].
  - intros [->|I]; [auto|]. apply IHl in I. tauto.
  - intros [_ I]. apply IHl in I. tauto.
Qed.
Theorem C36_ring_holds_the_live_nodes_partial : forall (T : Type) (hasher : T -> Z),
  forall (ops : list (ring_op T)),
  (forall u v, mentioned ops u -> mentioned ops v -> hasher u = hasher v -> u = v) ->
  forall h v, In (h, v) (ring_after hasher ops) <-> h = hasher v /\ live (rev ops) v.
Proof.
  intros T hasher ops. induction ops as [|o ops IH] using rev_ind; intros INJ h v.
  - cbn. tauto.
  - rewrite ring_after_snoc, rev_app_distr. cbn [rev app].
    assert (UP : forall u, mentioned ops u -> mentioned (ops ++ [o]) u).
    { intros u [M|M]; unfold mentioned; rewrite !in_app_iff; auto. }
    assert (INJ' : forall u v, mentioned ops u -> mentioned ops v -> hasher u = hasher v -> u = v) by eauto.
    specialize (IH INJ'). pose proof (ring_after_ok hasher ops) as OK. set (m := ring_after hasher ops) in *.
    destruct o as [w|w]; cbn [ring_do live].
    + assert (MW : mentioned (ops ++ [Ins w]) w) by (left; apply in_app_iff; right; left; auto).
      rewrite ring_insert_in by auto. rewrite IH. split.
      * intros [[A B]|[A _]]; [auto|]. inv A. auto.
      * intros [A [->|B]]; [|auto]. destruct (existsb (fun q => fst q =? hasher v) m) eqn:X.
        { apply existsb_exists in X as ([h' u] & I & Q). apply Z.eqb_eq in Q. cbn in Q. pose proof I as I'.
          apply IH in I' as [-> LV]. left. split; auto.
          assert (u = v) by (apply INJ; auto; apply UP, live_mentioned, LV). now subst. }
        { right. split; [now subst|]. intros q I Q. rewrite <- not_true_iff_false in X. apply X. apply existsb_exists.
          exists q. split; auto. now apply Z.eqb_eq. }
    + assert (MW : mentioned (ops ++ [Del w]) w) by (right; apply in_app_iff; right; left; auto).
      rewrite ring_erase_in. rewrite IH. cbn [fst]. split.
      * intros [[-> B] N]. split; auto. split; auto. congruence.
      * intros [-> [N B]]. split; auto. intro Q. apply N. apply INJ; auto. apply UP, live_mentioned, B.
Qed.
Print Assumptions C36_ring_holds_the_live_nodes_partial.

(** The router: adding a client moves keys only to that client. *)
Definition router_ring (hasher : nat * nat -> Z) (vnodes : nat) (clients : list nat) : @ring_map (nat * nat) :=
  fold_left (fun m c => add_client hasher vnodes c m) clients [].
Lemma add_client_ops hasher vnodes c ops :
  add_client hasher vnodes c (ring_after hasher ops) = ring_after hasher (ops ++ map (fun i => Ins (c, i)) (seq 0 vnodes)).
Proof.
  unfold add_client. generalize (seq 0 vnodes). intro l. revert ops. induction l as [|i l IH]; intro ops; cbn [fold_left map].
  - now rewrite app_nil_r.
  - change (ring_insert hasher (c, i) (ring_after hasher ops)) with (ring_do hasher (ring_after hasher ops) (Ins (c, i))).
    rewrite <- ring_after_snoc, IH, <- app_assoc. reflexivity.
Qed.
Definition client_ops (vnodes : nat) (clients : list nat) : list (ring_op (nat * nat)) :=
  concat (map (fun c => map (fun i => Ins (c, i)) (seq 0 vnodes)) clients).
Lemma router_ring_ops hasher vnodes clients : router_ring hasher vnodes clients = ring_after hasher (client_ops vnodes clients).
Proof.
  unfold router_ring, client_ops. change (@nil (Z * (nat * nat))) with (ring_after hasher []).
  change (concat (map (fun c => map (fun i => Ins (c, i)) (seq 0 vnodes)) clients)) with ([] ++ concat (map (fun c => map (fun i => Ins (c, i)) (seq 0 vnodes)) clients)).
  generalize (@nil (ring_op (nat * nat))). induction clients as [|c l IH]; intro ops; cbn [fold_left map concat].
  - now rewrite app_nil_r.
  - rewrite add_client_ops, IH, app_assoc. reflexivity.
Qed.

Theorem C36_new_client_only_takes_keys_partial : forall hasher, (forall v, 0 <= hasher v < 2 ^ 32) ->
  forall vnodes clients c k, 0 <= k < 2 ^ 32 ->
  ring_lookup k (router_ring hasher vnodes (clients ++ [c])) = ring_lookup k (router_ring hasher vnodes clients) \/
  ring_lookup k (router_ring hasher vnodes (clients ++ [c])) = Some c.
Proof.
  intros hasher HR vnodes clients c k K. unfold router_ring. rewrite fold_left_app. cbn [fold_left].
  fold (router_ring hasher vnodes clients). rewrite router_ring_ops, add_client_ops.
  generalize (client_ops vnodes clients) (seq 0 vnodes). intros ops l. induction l as [|i l IH] using rev_ind.
  - left. now rewrite app_nil_r.
  - rewrite map_app, app_assoc. cbn [map].
    destruct (C36_insert_moves_only_to_new_node_partial _ hasher HR (ops ++ map (fun i => Ins (c, i)) l) k (c, i) K) as [E|E];
      unfold ring_lookup in *; rewrite E; auto.
Qed.
Print Assumptions C36_new_client_only_takes_keys_partial.

Example C36_example :
  let h := fun p : nat * nat => nth (fst p * 2 + snd p) [100; 7000; 2500; 90000; 40; 50000] 0 in
  map (fun k => ring_lookup k (router_ring h 2 [0; 1; 2]%nat)) [0; 41; 100; 101; 2501; 7001; 50001; 90001; 4294967295]
  = [Some 2; Some 0; Some 0; Some 1; Some 0; Some 2; Some 1; Some 2; Some 2]%nat.
Proof. vm_compute. reflexivity. Qed.

(** * C58: placement depends only on the set of clients *)
Definition C58_statement : Prop := forall hasher, (forall v, 0 <= hasher v < 2 ^ 32) ->
  forall vnodes clients clients' k, 0 <= k < 2 ^ 32 -> Permutation clients clients' ->
  ring_lookup k (router_ring hasher vnodes clients) = ring_lookup k (router_ring hasher vnodes clients').
Theorem C58_statement_refuted : ~ C58_statement.
Proof.
  intro S. specialize (S (fun _ => 5) ltac:(lia) 1%nat [1; 2]%nat [2; 1]%nat 0 ltac:(lia) ltac:(repeat constructor)).
  discriminate.
Qed.
Print Assumptions C58_statement_refuted.

Lemma live_ins vnodes clients v : live (rev (client_ops vnodes clients)) v <-> In (fst v) clients /\ (snd v < vnodes)%nat.
Proof.
  assert (G : forall ops : list (ring_op (nat * nat)), (forall o, In o ops -> exists u, o = Ins u) -> (live ops v <-> In (Ins v) ops)).
  { induction ops as [|o ops IH]; intro A; cbn; [tauto|]. destruct (A o (or_introl eq_refl)) as (u & ->).
    rewrite IH by (intros; apply A; right; auto). split; intros [B|B]; auto; [subst; auto|inv B; auto]. }
  rewrite G.
  - rewrite <- in_rev. unfold client_ops. rewrite in_concat. split.
    + intros (l & A & B). apply in_map_iff in A as (c & <- & A). apply in_map_iff in B as (i & E & B). inv E. apply in_seq in B. cbn. split; [auto|lia].
    + intros [A B]. exists (map (fun i => Ins (fst v, i)) (seq 0 vnodes)). split.
      * apply in_map_iff. eauto.
      * apply in_map_iff. exists (snd v). destruct v. split; auto. apply in_seq. cbn in *. lia.
  - intros o I. apply in_rev in I. unfold client_ops in I. apply in_concat in I as (l & A & B).
    apply in_map_iff in A as (c & <- & A). apply in_map_iff in B as (i & E & B). eauto.
Qed.
Theorem C58_placement_is_order_independent_partial : forall hasher, (forall v, 0 <= hasher v < 2 ^ 32) ->
  forall vnodes clients clients' k, 0 <= k < 2 ^ 32 ->
  (forall c i c' i', In c clients -> In c' clients -> (i < vnodes)%nat -> (i' < vnodes)%nat ->
     hasher (c, i) = hasher (c', i') -> (c, i) = (c', i')) ->
  (forall c, In c clients <-> In c clients') ->
  ring_lookup k (router_ring hasher vnodes clients) = ring_lookup k (router_ring hasher vnodes clients').
Proof.
  intros hasher HR vnodes clients clients' k K INJ SAME. unfold ring_lookup. rewrite !router_ring_ops.
  assert (MEN : forall cs v, mentioned (client_ops vnodes cs) v -> In (fst v) cs /\ (snd v < vnodes)%nat).
  { intros cs v [M|M]; unfold client_ops in M; apply in_concat in M as (l & A & B); apply in_map_iff in A as (c & <- & A);
      apply in_map_iff in B as (i & E & B); inv E. apply in_seq in B. cbn. split; [auto|lia]. }
  rewrite (ring_find_ext hasher HR k _ (ring_after hasher (client_ops vnodes clients'))); auto using ring_after_ok.
  intros [h v]. rewrite !C36_ring_holds_the_live_nodes_partial.
  - rewrite !live_ins, SAME. tauto.
  - intros u w U W. apply MEN in U as [U1 U2]. apply MEN in W as [W1 W2]. destruct u, w. apply SAME in U1. apply SAME in W1. apply INJ; auto.
  - intros u w U W. apply MEN in U as [U1 U2]. apply MEN in W as [W1 W2]. destruct u, w. apply INJ; auto.
Qed.
Print Assumptions C58_placement_is_order_independent_partial.

(** * C37: round robin *)
Definition C37_statement : Prop := forall (n : nat) counter, (0 < n)%nat -> 0 <= counter < 2 ^ 32 ->
  exists counter' l, rr_picks n counter n = Ok (counter', l) /\ Permutation l (seq 0 n).

(** three clients, at the wrap-around of the counter: client 0 is picked twice in a row *)
Theorem C37_statement_refuted : ~ C37_statement.
Proof.
  intro S. destruct (S 3%nat (2 ^ 32 - 1) ltac:(lia) ltac:(lia)) as (c & l & E & P).
  assert (X : rr_picks 3 (2 ^ 32 - 1) 3 = Ok (2, [0; 0; 1]%nat)) by (vm_compute; reflexivity).
  rewrite X in E. inv E. apply Permutation_sym, Permutation_NoDup in P; [|apply seq_NoDup].
  inversion_clear P as [|? ? N _]. apply N. left; auto.
Qed.
Print Assumptions C37_statement_refuted.

Theorem C37_each_client_once_partial : forall (n : nat) counter, (0 < n)%nat -> 0 <= counter < 2 ^ 32 ->
  (counter + Z.of_nat n <= 2 ^ 32 \/ (Z.of_nat n | 2 ^ 32)) ->
  exists counter' l, rr_picks n counter n = Ok (counter', l) /\ Permutation l (seq 0 n).
Proof.
  intros n c N C D. destruct (rr_picks_spec n N n c C D) as (c' & E). exists c', (map (pick_at c n) (seq 0 n)).
  split; auto. now apply picks_perm.
Qed.
Print Assumptions C37_each_client_once_partial.

(** Whatever the counter, no client is picked more than twice in [n] consecutive picks. *)
Theorem C37_no_client_more_than_twice_partial : forall (n : nat) counter, (0 < n)%nat -> Z.of_nat n <= 2 ^ 32 -> 0 <= counter < 2 ^ 32 ->
  exists counter' l, rr_picks n counter n = Ok (counter', l) /\ length l = n /\ (forall i, In i l -> (i < n)%nat) /\ forall i, (count_occ Nat.eq_dec l i <= 2)%nat.
Proof.
  intros n c N N32 C.
  assert (LT : forall c k i, In i (map (pick_at c n) (seq 0 k)) -> (i < n)%nat).
  { intros c0 k i I. apply in_map_iff in I as (j & <- & _). now apply pick_at_lt. }
  assert (ONE : forall c k i, (k <= n)%nat -> (count_occ Nat.eq_dec (map (pick_at c n) (seq 0 k)) i <= 1)%nat).
  { intros c0 k i L. apply NoDup_count_occ. now apply picks_nodup. }
  destruct (Z.le_gt_cases (c + Z.of_nat n) (2 ^ 32)) as [L|G].
  - destruct (rr_picks_spec n N n c C (or_introl L)) as (c' & E). eexists _, _. split; [exact E|].
    split; [now rewrite map_length, seq_length|]. split; [apply LT|]. intro i. specialize (ONE c n i ltac:(lia)). lia.
  - set (a := Z.to_nat (2 ^ 32 - c)). assert (EN : n = (a + (n - a))%nat) by lia.
    destruct (rr_picks_spec n N a c C) as (c1 & E1); [left; lia|].
    pose proof (rr_counter _ _ _ _ _ C E1) as W. assert (W0 : c1 = 0).
    { rewrite W. unfold w32. replace (c + Z.of_nat a) with (2 ^ 32) by lia. apply Z_mod_same_full. }
    destruct (rr_picks_spec n N (n - a) 0 ltac:(lia)) as (c2 & E2); [left; lia|].
    assert (E : rr_picks n c n = Ok (c2, map (pick_at c n) (seq 0 a) ++ map (pick_at 0 n) (seq 0 (n - a)))).
    { rewrite EN at 1. rewrite rr_picks_app, E1. cbn [obind fst snd]. rewrite W0, E2. reflexivity. }
    eexists _, _. split; [exact E|]. split; [rewrite app_length, !map_length, !seq_length; lia|]. split.
    + intros i I. apply in_app_iff in I as [I|I]; eauto.
    + intro i. rewrite count_occ_app. pose proof (ONE c a i ltac:(lia)). pose proof (ONE 0 (n - a)%nat i ltac:(lia)). lia.
Qed.
Print Assumptions C37_no_client_more_than_twice_partial.

(** no clients: division by zero *)
Theorem C37_no_clients_is_undefined_partial : forall k counter, rr_picks (S k) counter 0 = UB.
Proof. reflexivity. Qed.
Print Assumptions C37_no_clients_is_undefined_partial.
