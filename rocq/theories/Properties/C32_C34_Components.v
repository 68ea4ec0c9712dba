(** C32-C34, C55, C56: LRU cache, Bloom filter, count-min sketch. *)
From Coq Require Import List Arith ZArith Bool Lia Permutation.
From Verif.Model Require Import Common Lru Bloom CountMin.
From Verif.Spec Require Import LruSpec SketchSpec.
From Verif.Proofs Require Import Tac LruProofs BloomProofs CountMinProofs.
Import ListNotations.

(** * C32.  For every capacity at least one, every history of operations and both builds of the
    template: no undefined behaviour, every result is that of the association-list specification,
    and the entries are the specification's. *)
Theorem C32_refines_recency_list {K V} (keq : forall a b : K, {a = b} + {a <> b}) ext cap os :
  1 <= cap ->
  exists c, lru_run keq ext (@lru_new K V cap) os = Ok (c, snd (spec_run keq cap [] os)) /\
    map snd (lr_list c) = fst (spec_run keq cap [] os) /\
    lru_size c = length (fst (spec_run keq cap [] os)) /\ lru_size c <= cap.
Proof.
  intro CP. destruct (lru_run_spec keq ext os (lru_new cap) (lru_new_inv cap) CP) as (c & rs & E & I & C & S).
  cbn [lru_new lr_cap lr_list map] in *. rewrite <- S. exists c. cbn [fst snd]. split; auto. split; auto.
  unfold lru_size. rewrite (linv_size c I), map_length. split; auto. destruct I as [_ _ _ _ L]. congruence.
Qed.

(** Over the whole history: the keys held are the [cap] most recently used ones, in that order, and
    each holds the value last added for it; so a Get answers with that value exactly when fewer than
    [cap] other keys were used since the key's last use. *)
Theorem C32_history {K V} (keq : forall a b : K, {a = b} + {a <> b}) ext cap os :
  1 <= cap ->
  exists c rs, lru_run keq ext (@lru_new K V cap) os = Ok (c, rs) /\
    map fst (map snd (lr_list c)) = firstn cap (by_recency keq (uses os rs) []) /\
    (forall k v, In (k, v) (map snd (lr_list c)) -> last_added keq k os None = Some v) /\
    (forall k, lru_exists keq k c = true <-> In k (firstn cap (by_recency keq (uses os rs) []))) /\
    (forall k c', lru_get keq k c = Ok c' ->
       snd c' = if in_dec keq k (firstn cap (by_recency keq (uses os rs) [])) then last_added keq k os None else None).
Proof.
  intro CP. destruct (lru_run_spec keq ext os (lru_new cap) (lru_new_inv cap) CP) as (c & rs & E & I & C & S).
  cbn [lru_new lr_cap lr_list map] in *. pose proof (spec_hist keq cap os) as H. rewrite <- S in H.
  destruct H as [H1 H2]. exists c, rs. split; auto. split; auto. split; auto. split.
  - intro k. rewrite <- H1. pose proof (find_present keq c k I) as F. unfold lru_exists.
    destruct (map_find keq k (lr_map c)).
    + destruct F as (v & J & _ & _). split; auto. intros _. change k with (fst (snd (n, (k, v)))). now apply in_map, in_map.
    + destruct F as (J & _). split; [discriminate|tauto].
  - intros k [c' r] G. rewrite <- H1.
    destruct (lru_get_spec keq c k I) as (c2 & r2 & E2 & _ & _ & G2). rewrite G in E2. inv E2.
    cbn [spec_step] in G2. cbn [snd]. destruct (lookup keq k (map snd (lr_list c))) as [v|] eqn:LK.
    + inv G2. destruct (in_dec _ _ _) as [J|J].
      * symmetry. apply H2. now apply lookup_some in LK.
      * exfalso. apply J. change k with (fst (k, v)). apply in_map. now apply lookup_some in LK.
    + inv G2. apply lookup_none in LK. destruct (in_dec _ _ _); [exfalso; congruence|auto].
Qed.

Example C32_nonvacuous : forall ext,
  match lru_run Nat.eq_dec ext (lru_new 2) [LAdd 1 10; LAdd 2 20; LGet 1; LAdd 3 30; LGet 2; LExists 1; LAdd 1 11; LAdd 4 40; LGet 3; LGet 1] with
  | Ok (c, rs) => rs = [RUnit; RUnit; RVal (Some 10); RUnit; RVal None; RBool true; RUnit; RUnit; RVal None; RVal (Some 11)]
      /\ map snd (lr_list c) = [(1, 11); (4, 40)]
  | _ => False
  end.
Proof. intros []; vm_compute; auto. Qed.
(** Capacity 0 is undefined behaviour in the code ("--end()" of an empty list). *)
Example C32_capacity_zero : forall ext, lru_run Nat.eq_dec ext (lru_new 0) [LAdd 1 10] = UB.
Proof. intros []; reflexivity. Qed.

(** * C33.  No false negatives, for every hash function, every initial memory and every interleaving
    of the atomic steps of any number of threads: a query of a key that starts after a Set (or
    TestAndSet) of that key finished answers yes. *)
Theorem C33_no_false_negatives {D} (hash : D -> nat -> Z * Z) k tab acts s d th1 o1 r1 th2 o2 r2 es1 es2 es3 es4 :
  tab <> [] ->
  brun hash k (bstart tab) acts =
    Some (s, es1 ++ EDone th1 o1 r1 :: es2 ++ EStart th2 o2 :: es3 ++ EDone th2 o2 r2 :: es4) ->
  (o1 = BSet d \/ o1 = BTas d) -> (o2 = BIsSet d \/ o2 = BTas d) ->
  (forall o r, ~ In (EDone th2 o r) es3) ->
  r2 = true.
Proof.
  intros N E O1 O2 N3.
  destruct (brun_split hash k _ _ _ _ _ _ E) as (a1 & b1 & a2 & s1 & s2 & _ & R1 & B1 & R2).
  destruct (brun_split hash k _ _ _ _ _ _ R2) as (a3 & b2 & a4 & s3 & s4 & _ & R3 & B2 & R4).
  assert (I0 : binvt hash k (bstart tab)) by (split; cbn; auto).
  destruct (brun_ok hash k _ _ _ _ I0 R1) as [I1 _].
  destruct (bstep_ok hash k _ _ _ _ I1 B1) as (I2 & _ & CV).
  assert (C2 : covered hash k (b_tab s2) d).
  { replace d with (bkey o1) by (destruct O1; subst; auto). apply (CV th1 o1 r1); [left; auto|].
    intros d' ->. destruct O1; discriminate. }
  destruct (brun_ok hash k _ _ _ _ I2 R3) as [I3 L3]. pose proof (le_covered hash k _ _ _ L3 C2) as C3.
  destruct (bstep_ok hash k _ _ _ _ I3 B2) as (I4 & L4 & _). pose proof (le_covered hash k _ _ _ L4 C3) as C4.
  assert (A : asking hash k d (b_thr s4 th2)).
  { clear - B2 O2. destruct b2 as [th o|th]; cbn in B2.
    - destruct (b_thr s3 th); try discriminate. inv B2. cbn. unfold upd. rewrite Nat.eqb_refl. cbn.
      destruct O2; subst; cbn; repeat split; auto; discriminate.
    - destruct (b_thr s3 th) as [|o [|p ps] acc|o p ps acc]; try discriminate.
      destruct o; try discriminate. destruct (test_bit _ _); discriminate. }
  eapply (asking_run hash k d th2 a4 s4 s _ I4 C4 A R4); eauto.
Qed.

(** Without concurrency, and exactly: a key is reported when, and only when, each of its bits was in
    the initial memory or was set by some inserted key. *)
Theorem C33_sequential_exact {D} (hash : D -> nat -> Z * Z) k tab ds t d :
  tab <> [] ->
  fold_left (fun o x => obind o (fun t => bloom_set hash k t x)) ds (Ok tab) = Ok t ->
  bloom_is_set hash k t d = Ok (forallb (fun q => test_bit tab q ||
     existsb (fun p => (byte_of tab p =? byte_of tab q)%nat && (bit_of p =? bit_of q)%Z)
       (flat_map (positions hash k) ds)) (positions hash k d)).
Proof.
  intros N E.
  assert (X : forall ds t0, t0 <> [] -> fold_left (fun o x => obind o (fun t => bloom_set hash k t x)) ds (Ok t0) =
     Ok (fold_left set_bit (flat_map (positions hash k) ds) t0) /\ fold_left set_bit (flat_map (positions hash k) ds) t0 <> []).
  { clear. induction ds as [|x ds IH]; intros t0 N; cbn [fold_left flat_map obind]; auto.
    unfold bloom_set at 2. destruct t0 as [|b t0']; [congruence|]. cbn [length Nat.eqb andb].
    rewrite fold_left_app. apply IH. intro Z0. apply (f_equal (@length Z)) in Z0.
    destruct (fold_set_le (positions hash k x) (b :: t0') N) as [[L _] _]. rewrite Z0 in L. discriminate. }
  destruct (X ds tab N) as [E1 N1]. rewrite E1 in E. inv E.
  unfold bloom_is_set. destruct (fold_left set_bit _ tab) as [|b t'] eqn:F; [congruence|]. cbn [length Nat.eqb andb].
  rewrite <- F. f_equal. clear - N. induction (positions hash k d) as [|q l IH]; cbn; auto. rewrite IH. f_equal.
  now apply fold_set_bits.
Qed.

Definition c33_hash (d : nat) (i : nat) : Z * Z := (Z.of_nat (37 * d + i), Z.of_nat (11 * d + 5 * i))%Z.
Example C33_nonvacuous :
  match brun c33_hash 3 (bstart [0; 0; 0; 0]%Z)
    ([Start 0 (BSet 7); Start 1 (BIsSet 7); Step 1] ++ repeat (Step 0) 5 ++ [Start 2 (BTas 7); Start 1 (BIsSet 7)] ++
     [Step 2; Step 1; Step 2; Step 1; Step 2; Step 1; Step 2; Step 1; Step 2; Step 2; Step 2; Step 2; Step 2; Step 1]) with
  | Some (_, es) => es = [EStart 0 (BSet 7); EStart 1 (BIsSet 7); EDone 1 (BIsSet 7) false; EDone 0 (BSet 7) true;
                          EStart 2 (BTas 7); EStart 1 (BIsSet 7); EDone 2 (BTas 7) true; EDone 1 (BIsSet 7) true]
  | None => False
  end.
Proof. vm_compute. reflexivity. Qed.

(** * C55.  Full statement: a filter into which nothing was put contains nothing. *)
Definition C55_statement : Prop := forall D (hash : D -> nat -> Z * Z) k tab d b,
  1 <= k -> tab <> [] -> (forall x, In x tab -> is_byte x) -> bloom_is_set hash k tab d = Ok b -> b = false.
(** False: the table is malloc'ed and never cleared, so its bytes are whatever was there. *)
Theorem C55_statement_refuted : ~ C55_statement.
Proof.
  intro S. assert (X : true = false); [|discriminate].
  apply (S nat c33_hash 1 [255]%Z 0 true); auto; try discriminate.
  intros x [<-|[]]. unfold is_byte; lia.
Qed.
(** What holds: memory that happens to be zero. *)
Theorem C55_zero_memory_partial {D} (hash : D -> nat -> Z * Z) k n d :
  1 <= k -> 1 <= n -> bloom_is_set hash k (repeat 0%Z n) d = Ok false.
Proof.
  intros K N. unfold bloom_is_set. rewrite repeat_length. destruct (Nat.eqb_spec n 0); [lia|]. cbn [andb]. f_equal.
  unfold positions. destruct k; [lia|]. cbn [positions_from]. destruct (hash d 0). cbn [Nat.ltb Nat.leb forallb].
  assert (T : test_bit (repeat 0%Z n) z = false); [|now rewrite T].
  unfold test_bit. assert (X : nth (byte_of (repeat 0%Z n) z) (repeat 0%Z n) 0%Z = 0%Z).
  { generalize (byte_of (repeat 0%Z n) z). clear. induction n; intros [|m]; cbn; auto. }
  rewrite X. apply Z.bits_0.
Qed.

(** * C34.  Exactly what the sketch answers, for every history: the smallest, over its rows, of the
    sum (modulo 256, cells being uint8_t) of the increases of all keys that share the cell. *)
Theorem C34_exact {D} (hash : D -> nat -> Z * Z) w d h key :
  0 < w -> 0 < d ->
  exists s e, inc_all hash (sketch_new w d) h = Ok s /\ estimate hash s key = Ok e /\
    (exists r, (r < d) /\ e = (weight hash w h r (column hash w key r) mod 256)%Z) /\
    (forall r, (r < d) -> (e <= weight hash w h r (column hash w key r) mod 256)%Z).
Proof.
  intros W DP. destruct (inc_all_spec hash w d W h _ _ (holds_new w d)) as (s & E & H).
  destruct (estimate_spec hash w d _ s key W DP H) as (e & E2 & X). exists s, e. auto.
Qed.

Local Open Scope Z_scope.
(** So as long as no cell overflows it never underestimates, never exceeds everything ever counted,
    is zero when fresh, and is exact when some row separates the key from all others. *)
Theorem C34_never_underestimates {D} (hash : D -> nat -> Z * Z) (deq : forall a b : D, {a = b} + {a <> b}) w d h key :
  (0 < w)%nat -> (0 < d)%nat -> (forall k n, In (k, n) h -> 0 <= n) ->
  (forall r, (r < d)%nat -> weight hash w h r (column hash w key r) < 256) ->
  exists s e, inc_all hash (sketch_new w d) h = Ok s /\ estimate hash s key = Ok e /\
    total deq key h <= e <= grand_total h.
Proof.
  intros W DP P NO. destruct (C34_exact hash w d h key W DP) as (s & e & E1 & E2 & (r & L & ->) & _).
  exists s, (weight hash w h r (column hash w key r) mod 256). split; auto. split; auto.
  pose proof (weight_nonneg hash w h r (column hash w key r) P).
  rewrite Z.mod_small by (split; auto). split; [now apply weight_total|now apply weight_grand].
Qed.
Theorem C34_never_underestimates_small {D} (hash : D -> nat -> Z * Z) (deq : forall a b : D, {a = b} + {a <> b}) w d h key :
  (0 < w)%nat -> (0 < d)%nat -> (forall k n, In (k, n) h -> 0 <= n) -> grand_total h < 256 ->
  exists s e, inc_all hash (sketch_new w d) h = Ok s /\ estimate hash s key = Ok e /\
    total deq key h <= e <= grand_total h.
Proof.
  intros W DP P G. apply C34_never_underestimates; auto. intros r _.
  pose proof (weight_grand hash w h r (column hash w key r) P). lia.
Qed.
Theorem C34_exact_when_separated {D} (hash : D -> nat -> Z * Z) (deq : forall a b : D, {a = b} + {a <> b}) w d h key r :
  (0 < w)%nat -> (r < d)%nat -> (forall k n, In (k, n) h -> 0 <= n) -> grand_total h < 256 ->
  (forall k n, In (k, n) h -> k <> key -> column hash w k r <> column hash w key r) ->
  exists s, inc_all hash (sketch_new w d) h = Ok s /\ estimate hash s key = Ok (total deq key h).
Proof.
  intros W R P G SEP. destruct (C34_exact hash w d h key W ltac:(lia)) as (s & e & E1 & E2 & (r' & L & EE) & LE).
  exists s. split; auto. rewrite E2. f_equal.
  pose proof (weight_nonneg hash w h r' (column hash w key r') P).
  pose proof (weight_grand hash w h r' (column hash w key r') P).
  pose proof (weight_total hash deq w h key r' P).
  rewrite Z.mod_small in EE by lia. specialize (LE r R). rewrite (total_alone hash deq) in LE by exact SEP.
  assert (0 <= total deq key h).
  { clear - P. induction h as [|[k n] h IH]; cbn; [lia|]. specialize (IH (fun k' n' I => P k' n' (or_intror I))).
    pose proof (P k n (or_introl eq_refl)). destruct (deq k key); lia. }
  rewrite Z.mod_small in LE by lia. lia.
Qed.
Theorem C34_fresh {D} (hash : D -> nat -> Z * Z) w d key :
  (0 < w)%nat -> (0 < d)%nat -> estimate hash (sketch_new w d) key = Ok 0.
Proof.
  intros W DP. destruct (C34_exact hash w d [] key W DP) as (s & e & E1 & E2 & (r & _ & ->) & _).
  inv E1. exact E2.
Qed.
(** Threads: the additions of concurrent Increases can be interleaved in any way, the cells come out
    as if the calls had run one after the other. *)
Theorem C34_interleaving {D} (hash : D -> nat -> Z * Z) w d h s l :
  (0 < w)%nat -> inc_all hash (sketch_new w d) h = Ok s ->
  Permutation l (flat_map (fun p => adds hash w d (fst p) (snd p)) h) ->
  do_adds (sk_rows (sketch_new w d)) l = sk_rows s.
Proof.
  intros W E P. rewrite (do_adds_perm _ _ P). clear P.
  assert (X : forall h f s0 s, holds w d f s0 -> inc_all hash s0 h = Ok s ->
    do_adds (sk_rows s0) (flat_map (fun p => adds hash w d (fst p) (snd p)) h) = sk_rows s).
  { clear - W. induction h as [|[k n] h IH]; intros f s0 s H E; cbn [inc_all flat_map fst snd] in *.
    - inv E. reflexivity.
    - destruct (increase_spec hash w d f s0 k n W H) as (s1 & E1 & H1 & _). rewrite E1 in E. cbn [obind] in E.
      unfold do_adds in *. rewrite fold_left_app. rewrite <- (IH _ _ _ H1 E). f_equal.
      unfold increase in E1. destruct H as (EW & SH & _). rewrite EW, (sh_d _ _ _ SH) in E1.
      destruct (Nat.eqb_spec w 0); [lia|]. cbn [andb] in E1.
      pose proof (inc_rows_adds hash w k n d 0 (sk_rows s0) false) as A.
      destruct (inc_rows hash d 0 w k n (sk_rows s0) false) as [rows b]. inv E1. cbn [fst sk_rows] in *. symmetry. exact A. }
  eapply X; eauto. apply holds_new.
Qed.

Example C34_nonvacuous :
  match inc_all c33_hash (sketch_new 7 3) [(1%nat, 3); (2%nat, 5); (1%nat, 4); (9%nat, 1)] with
  | Ok s => estimate c33_hash s 1%nat = Ok 7 /\ estimate c33_hash s 2%nat = Ok 6 /\ estimate c33_hash s 3%nat = Ok 0 /\ sk_distinct s = 2
  | _ => False
  end.
Proof. vm_compute. auto. Qed.
(** The no-overflow premise is needed: 256 increases of one look like none. *)
Example C34_overflow :
  match inc_all c33_hash (sketch_new 7 3) [(1%nat, 255); (1%nat, 1)] with
  | Ok s => estimate c33_hash s 1%nat = Ok 0
  | _ => False
  end.
Proof. vm_compute. auto. Qed.

(** * C56.  DistinctCount never exceeds the number of different keys counted (positive increases, no
    overflow). *)
Theorem C56_distinct_bound {D} (hash : D -> nat -> Z * Z) (deq : forall a b : D, {a = b} + {a <> b}) w d h s :
  (0 < w)%nat -> (forall k n, In (k, n) h -> 0 < n) -> grand_total h < 256 ->
  inc_all hash (sketch_new w d) h = Ok s -> 0 <= sk_distinct s <= Z.of_nat (distinct_keys deq h).
Proof. intros. eapply distinct_bound; eauto. Qed.

Print Assumptions C32_refines_recency_list.
Print Assumptions C32_history.
Print Assumptions C33_no_false_negatives.
Print Assumptions C33_sequential_exact.
Print Assumptions C55_statement_refuted.
Print Assumptions C55_zero_memory_partial.
Print Assumptions C34_exact.
Print Assumptions C34_never_underestimates.
Print Assumptions C34_never_underestimates_small.
Print Assumptions C34_exact_when_separated.
Print Assumptions C34_fresh.
Print Assumptions C34_interleaving.
Print Assumptions C56_distinct_bound.
