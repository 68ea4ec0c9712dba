(** Checksum collisions and range fields. *)
From Coq Require Import Sorted Permutation.
From Verif.Model Require Import Common StrUtil Decimal InvIndex.
From Verif.Spec Require Import InvIndexSpec StrSpec.
From Verif.Proofs Require Import Tac StrProofs DecimalProofs InvIndexProofs InvIndexProofs2 InvIndexProofs3.
From Verif.Properties Require Import C100_C107_StrUtil.
Open Scope nat_scope.

(** * Two id sets with the same checksum *)
Lemma dup_split (l : list Z) : ~ NoDup l -> exists a l1 l2 l3, l = l1 ++ a :: l2 ++ a :: l3.
Proof.
  induction l as [|x l IH]; intro H; [exfalso; apply H; constructor|].
  destruct (in_dec Z.eq_dec x l) as [I|I].
  - apply in_split in I. destruct I as (l2 & l3 & ->). exists x, [], l2, l3. reflexivity.
  - destruct IH as (a & l1 & l2 & l3 & ->); [intro N; apply H; now constructor|]. exists a, (x :: l1), l2, l3. reflexivity.
Qed.
Lemma pigeon (N : nat) (f : nat -> Z) : (forall i, (0 <= f i < Z.of_nat N)%Z) -> exists i j, i < j /\ j <= N /\ f i = f j.
Proof.
  intro B. assert (D : ~ NoDup (map f (seq 0 (S N)))).
  { intro H. assert (X : length (map f (seq 0 (S N))) <= length (map Z.of_nat (seq 0 N))).
    { apply NoDup_incl_length; auto. intros z Z0. apply in_map_iff in Z0. destruct Z0 as (i & <- & _). apply in_map_iff. exists (Z.to_nat (f i)).
      specialize (B i). split; [lia|]. apply in_seq. lia. }
    rewrite !map_length, !seq_length in X. lia. }
  apply dup_split in D.
  destruct D as (a & l1 & l2 & l3 & E).
  assert (G : forall i, i < S N -> nth i (map f (seq 0 (S N))) (f 0) = f i).
  { intros i I. rewrite map_nth, seq_nth by auto. reflexivity. }
  assert (LEN : length l1 + S (length l2 + S (length l3)) = S N).
  { apply (f_equal (@length Z)) in E. rewrite map_length, seq_length, !app_length in E. cbn [length] in E. rewrite app_length in E. cbn [length] in E. lia. }
  exists (length l1), (length l1 + S (length l2)). split; [lia|]. split; [lia|]. rewrite <- (G (length l1)), <- (G (length l1 + S (length l2))) by lia. rewrite E.
  rewrite app_nth2, Nat.sub_diag by lia. cbn [nth]. rewrite app_nth2 by lia. replace (length l1 + S (length l2) - length l1) with (S (length l2)) by lia.
  cbn [nth]. rewrite app_nth2, Nat.sub_diag by lia. reflexivity.
Qed.
Definition pair_of (k : nat) : list Z := [Z.of_nat k mod 2 ^ 32; 2 ^ 32 + Z.of_nat k / 2 ^ 32]%Z.
Lemma two_sets (crc : list Z -> Z) : (forall s, (0 <= crc s < 2 ^ 64)%Z) -> exists a b, a <> b /\ crc a = crc b /\ idset a /\ idset b /\
  length a = 2 /\ length b = 2 /\ (forall x, In x a -> 0 <= x < 2 ^ 63)%Z /\ (forall x, In x b -> 0 <= x < 2 ^ 63)%Z.
Proof.
  intro B. set (N := Z.to_nat (2 ^ 64)). assert (EN : Z.of_nat N = (2 ^ 64)%Z) by (unfold N; apply Z2Nat.id; apply Z.pow_nonneg; lia).
  destruct (pigeon N (fun k => crc (pair_of k))) as (i & j & I & J & E). { intro i. rewrite EN. apply B. }
  assert (EI : forall k, k <= N -> idset (pair_of k) /\ forall x, In x (pair_of k) -> (0 <= x < 2 ^ 63)%Z).
  { intros k K. assert (A := Z.mod_pos_bound (Z.of_nat k) (2 ^ 32) ltac:(lia)).
    assert (Z.of_nat k / 2 ^ 32 <= 2 ^ 64 / 2 ^ 32)%Z by (apply Z.div_le_mono; lia).
    assert (0 <= Z.of_nat k / 2 ^ 32)%Z by (apply Z.div_pos; lia). change (2 ^ 64 / 2 ^ 32)%Z with (2 ^ 32)%Z in *.
    unfold pair_of. split; [repeat constructor; lia|]. intros x [<-|[<-|[]]]; lia. }
  exists (pair_of i), (pair_of j). split; [|split; [exact E|split; [apply EI; lia|split; [apply EI; lia|split; [reflexivity|split; [reflexivity|split; apply EI; lia]]]]]].
  intro X. unfold pair_of in X. assert (X1 : (Z.of_nat i mod 2 ^ 32 = Z.of_nat j mod 2 ^ 32)%Z) by congruence.
  assert (X2 : (2 ^ 32 + Z.of_nat i / 2 ^ 32 = 2 ^ 32 + Z.of_nat j / 2 ^ 32)%Z) by congruence.
  pose proof (Z.div_mod (Z.of_nat i) (2 ^ 32) ltac:(lia)). pose proof (Z.div_mod (Z.of_nat j) (2 ^ 32) ltac:(lia)). lia.
Qed.

(** What a field looks up, without any assumption on the checksum. *)
Lemma build_values_lookup crc l : forall m f inc m' f', f_kind f = KStr -> NoDup (map fst l) -> (forall v s, In (v, s) l -> s <> []) ->
  build_values crc m f inc l = Ok (m', f') ->
  f_kind f' = KStr /\
  (forall v, assocS v (if inc then f_sinc f' else f_sexc f') =
     match assocS v l with Some s => Some (crc s) | None => assocS v (if inc then f_sinc f else f_sexc f) end) /\
  (if inc then f_sexc f' = f_sexc f else f_sinc f' = f_sinc f).
Proof.
  induction l as [|[v s] l IH]; intros m f inc m' f' K N H E; cbn [build_values] in E.
  - inv E. split; auto. split; auto. destruct inc; auto.
  - cbn [map fst] in N. inv N. assert (NE : s <> []) by (eapply H; now left).
    assert (BP : forall m1 p, BuildPl crc m s = Ok (m1, p) -> p = Some (crc s)).
    { intros m1 p. unfold BuildPl. destruct s as [|s0 s]; [congruence|]. destruct (assocZ _ (m_table m)) as [b|].
      - destruct (bm_ids b =? _); [|discriminate]. intro Q. now inv Q.
      - destruct (set_ids _ _ _); cbn [obind]; try discriminate. intro Q. now inv Q. }
    destruct (BuildPl crc m s) as [[m1 p]| |]; try discriminate. cbn [obind] in E. rewrite (BP m1 p eq_refl) in E.
    unfold Resolve in E. rewrite K in E. cbn [obind] in E. set (f1 := if inc then _ else _) in E.
    assert (K1 : f_kind f1 = KStr) by (unfold f1; destruct inc; reflexivity).
    destruct (IH m1 f1 inc m' f' K1 H3 (fun v s X => H v s (or_intror X)) E) as (K2 & A2 & O2).
    split; auto. split.
    + intro w. rewrite A2. cbn [assocS]. destruct (beq v w) eqn:Q.
      * apply beq_eq in Q. subst w. assert (Z0 : assocS v l = None) by (now apply assocS_None). rewrite Z0.
        unfold f1. destruct inc; cbn [f_sinc f_sexc assocS]; now rewrite beq_refl.
      * destruct (assocS w l); auto. unfold f1. destruct inc; cbn [f_sinc f_sexc assocS]; now rewrite Q.
    + unfold f1 in O2. destruct inc; exact O2.
Qed.
Lemma build_field_lookup crc ordm m en m' f n ds : (forall l, Permutation l (ordm l)) -> ent_ok n ds en ->
  build_field crc ordm m KStr en = Ok (m', f) ->
  f_kind f = KStr /\
  (forall v, assocS v (f_sinc f) = option_map crc (assocS v (en_inc en))) /\
  (forall v, assocS v (f_sexc f) = option_map crc (assocS v (en_exc en))).
Proof.
  intros OM (_ & I & X) E. unfold build_field in E. destruct (BuildPl crc m (en_wild en)) as [[m1 w]| |]; try discriminate. cbn [obind] in E.
  assert (NI : NoDup (map fst (ordm (en_inc en)))) by (eapply Permutation_NoDup; [apply Permutation_map, OM|apply I]).
  assert (NX : NoDup (map fst (ordm (en_exc en)))) by (eapply Permutation_NoDup; [apply Permutation_map, OM|apply X]).
  assert (AI : forall v, assocS v (ordm (en_inc en)) = assocS v (en_inc en)) by (intro v; apply assocS_perm; [auto|apply I]).
  assert (AX : forall v, assocS v (ordm (en_exc en)) = assocS v (en_exc en)) by (intro v; apply assocS_perm; [auto|apply X]).
  destruct (build_values crc m1 (SetWildcards (field0 KStr) w) true (ordm (en_inc en))) as [[m2 f2]| |] eqn:E2; try discriminate. cbn [obind] in E.
  apply build_values_lookup in E2; auto.
  2:{ intros v s Q. apply In_assocS in Q; auto. rewrite AI in Q. destruct I as [_ I]. specialize (I v). rewrite Q in I. tauto. }
  destruct E2 as (K2 & A2 & O2). apply build_values_lookup in E; auto.
  2:{ intros v s Q. apply In_assocS in Q; auto. rewrite AX in Q. destruct X as [_ X]. specialize (X v). rewrite Q in X. tauto. }
  destruct E as (K3 & A3 & O3). split; auto. split; intro v.
  - rewrite O3, A2, AI. destruct (assocS v (en_inc en)); reflexivity.
  - rewrite A3, AX, O2. destruct (assocS v (en_exc en)); reflexivity.
Qed.

(** The documents: [a] want "x", [b] want "y", one wants nothing. *)
Definition FX : str := [102%Z].
Definition vx : str := [120%Z].
Definition vy : str := [121%Z].
Definition memb (s : list Z) (id : Z) : bool := existsb (Z.eqb id) s.
Lemma memb_in s id : memb s id = true <-> In id s.
Proof. unfold memb. rewrite existsb_exists. split; [intros (x & X & E); apply Z.eqb_eq in E; now subst|intro X; exists id; split; auto; apply Z.eqb_refl]. Qed.
Definition cdoc (a b : list Z) (id : Z) : document :=
  mkD id [(FX, mkE false ((if memb a id then [vx] else []) ++ (if memb b id then [vy] else [])))].
Definition cdocs (a b : list Z) : list document := mkD (-1) [] :: map (cdoc a b) (nodup Z.eq_dec (a ++ b)).
Section C.
Context (a b : list Z) (A : forall x, In x a -> (0 <= x < 2 ^ 63)%Z) (B : forall x, In x b -> (0 <= x < 2 ^ 63)%Z).
Context (La : length a = 2) (Lb : length b = 2).
Lemma cdocs_in d : In d (cdocs a b) <-> d = mkD (-1) [] \/ exists id, (In id a \/ In id b) /\ d = cdoc a b id.
Proof.
  unfold cdocs. cbn [In]. rewrite in_map_iff. split.
  - intros [X|(id & E & I)]; [left; auto|right]. rewrite nodup_In, in_app_iff in I. eauto.
  - intros [->|(id & I & ->)]; auto. right. exists id. split; auto. now rewrite nodup_In, in_app_iff.
Qed.
Lemma cdocs_len : 1 <= length (cdocs a b) <= 5.
Proof.
  unfold cdocs. cbn [length]. rewrite map_length. assert (length (nodup Z.eq_dec (a ++ b)) <= length (a ++ b)).
  { apply NoDup_incl_length; [apply NoDup_nodup|]. intros x X. now apply nodup_In in X. }
  rewrite app_length in H. lia.
Qed.
Lemma cdocs_nodup : NoDup (map d_id (cdocs a b)).
Proof.
  unfold cdocs. cbn [map d_id]. rewrite map_map. unfold cdoc. cbn [d_id]. rewrite map_id. constructor; [|apply NoDup_nodup].
  intro X. rewrite nodup_In, in_app_iff in X. destruct X as [X|X]; [apply A in X|apply B in X]; lia.
Qed.
Lemma cdoc_wants id v : wants (cdoc a b id) FX v <-> (v = vx /\ In id a) \/ (v = vy /\ In id b).
Proof.
  unfold wants, cond_of, cdoc. cbn [d_cond assocS]. rewrite (beq_refl FX). rewrite <- !memb_in. split.
  - intros (e & E & _ & I). inv E. cbn [e_vals] in I. apply in_app_or in I.
    destruct (memb a id), (memb b id); destruct I as [I|I]; cbn [In] in I; try easy; destruct I as [<-|[]]; auto.
  - intros [[-> E]|[-> E]]; eexists; (split; [reflexivity|]); (split; [reflexivity|]); cbn [e_vals]; rewrite E; apply in_or_app; [left|right]; now left.
Qed.
Lemma cdoc_free id : In id a \/ In id b -> ~ free_in (cdoc a b id) FX.
Proof.
  unfold free_in, cond_of, cdoc. cbn [d_cond assocS]. rewrite (beq_refl FX). rewrite <- !memb_in. intros X [Y|(e & E & Y)]; [discriminate|].
  inv E. cbn [e_vals] in Y. destruct (memb a id), (memb b id); try discriminate. destruct X; discriminate.
Qed.
Lemma cdoc_refuses d v : In d (cdocs a b) -> ~ refuses d FX v.
Proof.
  intros D (e & E & X & _). apply cdocs_in in D. destruct D as [->|(id & _ & ->)]; unfold cond_of in E; cbn in E; [discriminate|].
  rewrite (beq_refl FX) in E || idtac. cbn in E. inv E. cbn in X. discriminate.
Qed.
Lemma cdocs_survive v : survivable [FX] (cdocs a b) [(FX, [v])].
Proof.
  assert (W : forall P, ~ at_word_end (cdocs a b) P).
  { intros P (d & D & _ & _ & C). set (f := filter _ _) in C.
    assert (L1 : In d f) by (apply filter_In; split; auto; apply Z.leb_refl).
    assert (L2 : length f <= length (cdocs a b)) by (unfold f; clear; induction (cdocs a b); cbn; auto; destruct (_ <=? _)%Z; cbn; lia).
    pose proof cdocs_len. destruct f as [|y f']; [easy|]. cbn [length] in *. rewrite Nat.mod_small in C by lia. discriminate. }
  split.
  - pose proof cdocs_len. rewrite Nat.mod_small by lia. lia.
  - intros f If. split; [|intros; split; [apply W|intros; split; apply W]].
    exists (mkD (-1) []). split; [apply cdocs_in; now left|]. left. now left.
Qed.
Lemma cdocs_matches v s : (v = vx /\ s = a) \/ (v = vy /\ s = b) ->
  forall id r, (0 <= id)%Z -> ids_of (cdocs a b) (fun d => matches [FX] d [(FX, [v])]) r -> (In id r <-> In id s).
Proof.
  intros VS id r NN [_ R]. rewrite R.
  assert (AS : forall w, asked [(FX, [v])] FX w <-> w = v).
  { intro w. unfold asked. cbn [assocS]. rewrite (beq_refl FX). split; [intros (vs & E & I); inv E; destruct I as [<-|[]]; auto|intros ->; eexists; split; [reflexivity|now left]]. }
  assert (WS : forall id, wants (cdoc a b id) FX v <-> In id s).
  { intro i. rewrite cdoc_wants. destruct VS as [[-> ->]|[-> ->]]; intuition discriminate. }
  split.
  - intros (d & D & E & MT). assert (D' := D). apply cdocs_in in D. destruct D as [->|(i & I & ->)]; cbn [d_id cdoc] in E; [lia|]. subst i.
    destruct (MT FX (or_introl eq_refl)) as [Fr|[(w & Aw & Ww)|[(w & Rf) _]]].
    + exfalso. exact (cdoc_free id I Fr).
    + apply AS in Aw. subst. now apply WS.
    + exfalso. exact (cdoc_refuses _ w D' Rf).
  - intro I. assert (IN : In id a \/ In id b) by (destruct VS as [[_ ->]|[_ ->]]; auto). exists (cdoc a b id). split; [apply cdocs_in; right; eauto|]. split; auto.
    intros f [<-|[]]. right. left. exists v. split; [now apply AS|now apply WS].
Qed.
Lemma cdocs_same crc ordm ordp ordf : idset a -> idset b -> crc a = crc b ->
  (forall l, Permutation l (ordm l)) -> (forall l, Permutation l (ordf l)) ->
  answer crc ordm ordp ordf [FX] (cdocs a b) [(FX, [vx])] = answer crc ordm ordp ordf [FX] (cdocs a b) [(FX, [vy])].
Proof.
  intros Sa Sb CE OM OF. unfold answer. destruct (build_index crc ordm [FX] (cdocs a b)) as [x| |] eqn:E; auto. cbn [obind].
  unfold build_index, BuildIndexer in E. destruct (AddDocuments_ok (map (fun f => (f, KStr)) [FX]) (cdocs a b)) as (Bt & A1 & A2 & A3 & A4 & A5 & A6).
  set (x0 := fold_left AddDocument (cdocs a b) _) in *. rewrite Bt, A1 in E. cbn [map build_fields] in E.
  destruct (assocS FX (x_ents x0)) as [en|] eqn:EN.
  2:{ apply assocS_None in EN. rewrite A5 in EN. exfalso. apply EN. now left. }
  assert (EO : ent_ok FX (cdocs a b) en) by (apply A6; now apply assocS_In).
  destruct (build_field crc ordm _ KStr en) as [[m f]| |] eqn:BF; try discriminate. cbn [obind] in E. inv E.
  destruct (build_field_lookup _ _ _ _ _ _ _ _ OM EO BF) as (K & LI & LX).
  assert (SI : forall v s, (v = vx /\ s = a) \/ (v = vy /\ s = b) -> assocS v (en_inc en) = Some s).
  { intros v s VS. destruct EO as (_ & [_ I] & _). specialize (I v). assert (Ls : length s = 2) by (destruct VS as [[_ ->]|[_ ->]]; auto).
    assert (WS : forall id, In id s <-> exists d, In d (cdocs a b) /\ d_id d = id /\ wants d FX v).
    { intro id. split.
      - intro X. exists (cdoc a b id). split; [apply cdocs_in; right; exists id; split; auto; destruct VS as [[_ ->]|[_ ->]]; auto|]. split; auto.
        apply cdoc_wants. destruct VS as [[-> ->]|[-> ->]]; auto.
      - intros (d & D & Ed & W). apply cdocs_in in D. destruct D as [->|(i & J & ->)].
        + destruct W as (e & X & _). discriminate.
        + cbn [cdoc d_id] in Ed. subst i. apply cdoc_wants in W. destruct VS as [[-> ->]|[-> ->]]; intuition discriminate. }
    destruct (assocS v (en_inc en)) as [t|].
    - destruct I as (St & _ & It). f_equal. apply idset_ext; auto; [destruct VS as [[_ ->]|[_ ->]]; auto|]. intro z. now rewrite It, WS.
    - exfalso. destruct s as [|z s]; [discriminate|]. apply (I z). apply WS. now left. }
  assert (SX : forall v, assocS v (en_exc en) = None).
  { intro v. destruct EO as (_ & _ & [_ X]). specialize (X v). destruct (assocS v (en_exc en)) as [t|]; auto.
    destruct X as (_ & NE & It). destruct t as [|z t]; [congruence|]. destruct (proj1 (It z) (or_introl eq_refl)) as (d & D & _ & Rf).
    exfalso. exact (cdoc_refuses d v D Rf). }
  unfold UnifyQuery. cbn [x_mgr x_tab]. assert (ES : ordf [(FX, f)] = [(FX, f)]) by (apply Permutation_length_1_inv; apply OF).
  rewrite ES. cbn [query_fields assocS]. rewrite (beq_refl FX). cbn [collect]. unfold GetInclude, GetExclude. rewrite K, !LI, !LX, !SX.
  rewrite (SI vx a (or_introl (conj eq_refl eq_refl))), (SI vy b (or_intror (conj eq_refl eq_refl))). cbn [option_map]. now rewrite CE.
Qed.
End C.

(** * Range fields *)
Lemma assocZ_range {V} k (p : V) l : forall t, assocZ k (fold_left (fun t a => (a, p) :: t) l t) = if existsb (Z.eqb k) l then Some p else assocZ k t.
Proof.
  induction l as [|x l IH]; intro t; cbn [fold_left existsb]; auto. rewrite IH. cbn [assocZ]. rewrite (Z.eqb_sym x k).
  destruct (existsb (Z.eqb k) l); [now rewrite orb_true_r|]. now destruct (k =? x)%Z.
Qed.
Lemma zrange_in a b k : existsb (Z.eqb k) (zrange a b) = ((a <=? k) && (k <=? b))%Z.
Proof.
  destruct ((a <=? k) && (k <=? b))%Z eqn:E.
  - b2p. apply existsb_exists. exists k. split; [|apply Z.eqb_refl]. unfold zrange. apply in_map_iff. exists (Z.to_nat (k - a)). split; [lia|]. apply in_seq. lia.
  - destruct (existsb _ _) eqn:X; auto. apply existsb_exists in X. destruct X as (y & Y & Q). apply Z.eqb_eq in Q. subst y.
    unfold zrange in Y. apply in_map_iff in Y. destruct Y as (i & <- & I). apply in_seq in I.
    assert (H : ((a <=? a + Z.of_nat i) && (a + Z.of_nat i <=? b))%Z = true) by (apply andb_true_intro; split; apply Z.leb_le; lia). congruence.
Qed.
Lemma extract_sdec n r : (- 2 ^ 31 <= n < 2 ^ 31)%Z -> (forall c r', r = c :: r' -> ~ digit c) ->
  extract_int32 (sdec n ++ r) = mkEx (Some n) false (match r with [] => true | _ => false end).
Proof.
  intros B G.
  assert (GEN : forall k, (0 <= k <= 2 ^ 31)%Z -> exists c q, udec k = c :: q /\ digit c /\ Forall digit (c :: q) /\ strtol_digits 0 (udec k) = k).
  { intros k K. assert (D := udec_digits 20 k ltac:(lia)). fold (udec k) in D. assert (V : strtol_digits 0 (udec k) = k) by (apply udec_val; lia).
    destruct (udec k) as [|c q] eqn:E; [now apply udec_nonempty in E|]. exists c, q. split; auto.
    assert (D' : Forall digit (c :: q)). { eapply Forall_impl; [|exact D]. intros x X. unfold isdigit in X. b2p. unfold digit. lia. }
    split; [now inv D'|]. split; auto. }
  unfold sdec. destruct (n <? 0)%Z eqn:Q; b2p.
  - destruct (GEN (- n)%Z ltac:(lia)) as (c & q & E & Hc & Hd & V). rewrite E in *. cbn [app]. unfold extract_int32. cbn [skip_ws]. change (isspace 45) with false. cbv iota.
    cbn [sign_of]. change (45 =? 45)%Z with true. cbv iota. change (c :: q ++ r) with ((c :: q) ++ r). rewrite (digits_app (c :: q) r) by assumption.
    cbv iota. rewrite V. replace (- - n <? - 2 ^ 31)%Z with false by (symmetry; apply Z.ltb_ge; lia).
    replace (2 ^ 31 - 1 <? - - n)%Z with false by (symmetry; apply Z.ltb_ge; lia). rewrite Z.opp_involutive. reflexivity.
  - destruct (GEN n ltac:(lia)) as (c & q & E & Hc & Hd & V). rewrite E in *. cbn [app]. unfold extract_int32. cbn [skip_ws]. rewrite (digit_not_space c Hc).
    unfold sign_of. replace (c =? 45)%Z with false by (symmetry; apply Z.eqb_neq; unfold digit in Hc; lia).
    replace (c =? 43)%Z with false by (symmetry; apply Z.eqb_neq; unfold digit in Hc; lia).
    change (c :: q ++ r) with ((c :: q) ++ r). rewrite (digits_app (c :: q) r) by assumption. cbv iota. rewrite V.
    replace (n <? - 2 ^ 31)%Z with false by (symmetry; apply Z.ltb_ge; lia). replace (2 ^ 31 - 1 <? n)%Z with false by (symmetry; apply Z.ltb_ge; lia). reflexivity.
Qed.
Lemma parse_sdec n old : (- 2 ^ 31 <= n < 2 ^ 31)%Z -> ParseToInt (sdec n) old = (false, n).
Proof. intro B. unfold ParseToInt. rewrite <- (app_nil_r (sdec n)), extract_sdec by (auto; discriminate). reflexivity. Qed.
Lemma parse_sdec_more n c r old : (- 2 ^ 31 <= n < 2 ^ 31)%Z -> ~ digit c -> ParseToInt (sdec n ++ c :: r) old = (true, n).
Proof. intros B C. unfold ParseToInt. rewrite extract_sdec; auto. intros c' r' E. now inv E. Qed.
Lemma sdec_chars n c : (- 2 ^ 31 <= n < 2 ^ 31)%Z -> In c (sdec n) -> digit c \/ c = 45%Z.
Proof.
  intros B I. assert (G : forall k, (0 <= k)%Z -> In c (udec k) -> digit c).
  { intros k K X. assert (D := udec_digits 20 k K). rewrite Forall_forall in D. specialize (D c X). unfold isdigit in D. b2p. unfold digit. lia. }
  unfold sdec in I. destruct (n <? 0)%Z eqn:Q; b2p; [destruct I as [<-|I]; [now right|]|]; left; eapply G; [|exact I| |exact I]; lia.
Qed.
Lemma parse_range a b c : (- 2 ^ 31 <= a < 2 ^ 31)%Z -> (- 2 ^ 31 <= b < 2 ^ 31)%Z -> ~ digit c -> c <> 45%Z ->
  ParseRange [c] (sdec a ++ c :: sdec b) = Ok (false, 0%Z, b).
Proof.
  intros A B D M. unfold ParseRange.
  assert (F : fields_of c (sdec a ++ c :: sdec b) [sdec a; sdec b]).
  { split; [discriminate|]. split; [|reflexivity]. repeat constructor; intro X; apply sdec_chars in X; auto; tauto. }
  destruct (C100_split_fields (sdec a ++ c :: sdec b) c) as (ts & E & _ & U). apply U in F. subst ts. rewrite E. rewrite parse_sdec by auto. reflexivity.
Qed.
Lemma parse_single a c : (- 2 ^ 31 <= a < 2 ^ 31)%Z -> ~ digit c -> c <> 45%Z -> ParseRange [c] (sdec a) = Ok (false, a, 0%Z).
Proof.
  intros A D M. unfold ParseRange.
  assert (F : fields_of c (sdec a) [sdec a]).
  { split; [discriminate|]. split; [|reflexivity]. repeat constructor; intro X; apply sdec_chars in X; auto; tauto. }
  destruct (C100_split_fields (sdec a) c) as (ts & E & _ & U). apply U in F. subst ts. rewrite E. rewrite parse_sdec by auto. reflexivity.
Qed.
