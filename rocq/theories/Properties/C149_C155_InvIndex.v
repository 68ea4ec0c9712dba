(** C149-C155: the inverted indexer (components/inverted_indexer). *)
From Coq Require Import Sorted Permutation.
From Verif.Model Require Import Common StrUtil Decimal InvIndex.
From Verif.Spec Require Import InvIndexSpec StrSpec.
From Verif.Proofs Require Import Tac InvIndexProofs InvIndexProofs2 InvIndexProofs3 InvIndexProofs4 InvIndexProofs5.
Open Scope nat_scope.

(** Containers may be iterated in any order. *)
Definition order {A} (o : list A -> list A) : Prop := forall l, Permutation l (o l).
Lemma order_id {A} : order (fun l : list A => l).
Proof. intro l. apply Permutation_refl. Qed.

(** C149. A query that returns gives exactly the matching documents, in increasing order and each once. *)
Theorem C149_query_exact crc ordm ordp ordf fs ds q r :
  order ordm -> order ordp -> order ordf -> NoDup fs -> NoDup (map d_id ds) -> no_collision crc fs ds ->
  answer crc ordm ordp ordf fs ds q = Ok r ->
  StronglySorted Z.lt r /\ forall id, In id r <-> exists d, In d ds /\ d_id d = id /\ matches fs d q.
Proof.
  intros O1 O2 O3 NF ND NC A. destruct (answer_ok crc ordm ordp ordf fs ds q O1 O2 O3 NF ND NC) as [X Y].
  destruct (X (Y r A)) as (r' & A' & I). rewrite A in A'. inv A'. exact I.
Qed.
(** Three documents and a query on two fields; a checksum without collisions on the sets of this index. *)
Definition s1 : str := [102%Z].  Definition s2 : str := [103%Z].
Definition va : str := [97%Z].   Definition vb : str := [98%Z].
Definition ex_docs : list document :=
  [ mkD 7 [(s1, mkE false [va; vb])]; mkD (-2) [(s1, mkE true [va]); (s2, mkE false [va])]; mkD 12 [(s2, mkE true [vb])] ].
Definition ex_crc (s : list Z) : Z := fold_left (fun h x => h * 31 + x + 100)%Z s 0%Z.
Example C149_nonvacuous :
  answer ex_crc (fun l => l) (fun l => l) (fun l => l) [s1; s2] ex_docs [(s1, [vb])] = Ok [7; 12]%Z /\
  answer ex_crc (fun l => l) (fun l => rev l) (fun l => rev l) [s1; s2] ex_docs [(s1, [vb]); (s2, [va])] = Ok [-2; 7; 12]%Z /\
  answer ex_crc (fun l => l) (fun l => l) (fun l => l) [s1; s2] ex_docs [(s1, [va]); (s2, [vb])] = Ok [7]%Z.
Proof. vm_compute. auto. Qed.
Lemma ex_stored s : stored [s1; s2] ex_docs s -> In s [[]; [-2]; [7]; [12]; [-2; 7]; [-2; 12]; [7; 12]; [-2; 7; 12]]%Z.
Proof.
  intros (f & _ & H).
  assert (G : StronglySorted Z.lt s /\ forall x, In x s -> x = (-2)%Z \/ x = 7%Z \/ x = 12%Z).
  { assert (K : exists P, ids_of ex_docs P s) by (destruct H as [H|(v & [H|H])]; eauto).
    destruct K as (P & S & E). split; [exact S|]. intros x X. apply E in X.
    destruct X as (d & [<-|[<-|[<-|[]]]] & <- & _); cbn [d_id]; auto. }
  clear H. destruct G as [S E].
  Ltac peel := repeat match goal with H : Forall _ (_ :: _) |- _ => inv H | H : StronglySorted _ (_ :: _) |- _ => inv H end.
  destruct s as [|a s]; [cbn; auto|]. pose proof (E a (or_introl eq_refl)) as Ea.
  destruct s as [|b t]; [clear S; destruct Ea as [-> | [-> | -> ] ]; cbn; auto 10|].
  pose proof (E b (or_intror (or_introl eq_refl))) as Eb.
  destruct t as [|c u].
  { peel. destruct Ea as [-> | [-> | -> ] ], Eb as [-> | [-> | -> ] ]; try lia; cbn; auto 10. }
  pose proof (E c (or_intror (or_intror (or_introl eq_refl)))) as Ec.
  destruct u as [|e w].
  { peel. destruct Ea as [-> | [-> | -> ] ], Eb as [-> | [-> | -> ] ]; try lia; destruct Ec as [-> | [-> | -> ] ]; try lia; cbn; auto 10. }
  pose proof (E e (or_intror (or_intror (or_intror (or_introl eq_refl))))) as Ee. peel. lia.
Qed.
Example C149_hypotheses_met : NoDup [s1; s2] /\ NoDup (map d_id ex_docs) /\ no_collision ex_crc [s1; s2] ex_docs.
Proof.
  split; [repeat constructor; cbn; intuition discriminate|]. split; [repeat constructor; cbn; intuition discriminate|].
  intros a b A B _ _ E. apply ex_stored in A. apply ex_stored in B. cbn [In] in A, B.
  repeat (destruct A as [<-|A]); try easy; repeat (destruct B as [<-|B]); try easy; vm_compute in E; discriminate.
Qed.

(** C150. Full statement: a query returns. *)
Definition C150_statement : Prop := forall crc ordm ordp ordf fs ds q,
  order ordm -> order ordp -> order ordf -> NoDup fs -> NoDup (map d_id ds) -> no_collision crc fs ds ->
  exists r, answer crc ordm ordp ordf fs ds q = Ok r.
(** False: an index of exactly 64 documents, of 128, ..., and the empty index, abort at every query, ... *)
Theorem C150_word_multiple_aborts crc ordm ordp ordf fs ds q :
  order ordm -> order ordp -> order ordf -> NoDup fs -> NoDup (map d_id ds) -> no_collision crc fs ds ->
  length ds mod 64 = 0 -> answer crc ordm ordp ordf fs ds q = CheckFail.
Proof.
  intros O1 O2 O3 NF ND NC Z0. destruct (build_index_ok crc ordm fs ds O1 NC NF) as (x & L & E & IL & M & _).
  unfold answer. rewrite E. cbn [obind]. unfold UnifyQuery. assert (ML : m_sorted (x_mgr x) = L) by apply M.
  assert (SH : shape L (CreateMergePostingList (x_mgr x))).
  { unfold CreateMergePostingList. rewrite ML. destruct (new_bitmap_spec (length L) 0 (2 ^ 64 - 1)%Z) as (A & B & _); [split; [vm_compute; discriminate|reflexivity]|]. split; auto. }
  rewrite <- (n_docs ds L IL ND) in Z0. rewrite (proj1 (GetIds_shape crc fs ds L (x_mgr x) M _ SH) Z0). reflexivity.
Qed.
(** ... and so does (by a null dereference) every query on an index with a field for which every document wants a value. *)
Theorem C150_every_document_wants crc ordm ordp ordf fs ds q f :
  order ordm -> order ordp -> order ordf -> NoDup fs -> NoDup (map d_id ds) -> no_collision crc fs ds ->
  In f fs -> (forall d, In d ds -> ~ open_in d f) -> forall r, answer crc ordm ordp ordf fs ds q <> Ok r.
Proof.
  intros O1 O2 O3 NF ND NC If W r A. destruct (answer_ok crc ordm ordp ordf fs ds q O1 O2 O3 NF ND NC) as [_ Y].
  destruct (Y r A) as [_ S]. destruct (S f If) as ((d & D & O) & _). exact (W d D O).
Qed.
Example C150_null_dereference : answer ex_crc (fun l => l) (fun l => l) (fun l => l) [s1] [mkD 3 [(s1, mkE false [va])]] [(s1, [va])] = UB.
Proof. vm_compute. reflexivity. Qed.
Theorem C150_statement_refuted : ~ C150_statement.
Proof.
  intro S. destruct (S (fun _ => 0%Z) (fun l => l) (fun l => l) (fun l => l) [] [] [] order_id order_id order_id) as (r & A).
  - constructor. - constructor. - intros a b (f & [] & _). - discriminate A.
Qed.
(** Exactly the survivable queries return. *)
Theorem C150_returns_iff_partial crc ordm ordp ordf fs ds q :
  order ordm -> order ordp -> order ordf -> NoDup fs -> NoDup (map d_id ds) -> no_collision crc fs ds ->
  ((exists r, answer crc ordm ordp ordf fs ds q = Ok r) <-> survivable fs ds q).
Proof.
  intros O1 O2 O3 NF ND NC. destruct (answer_ok crc ordm ordp ordf fs ds q O1 O2 O3 NF ND NC) as [X Y].
  split; [intros (r & A); eauto|]. intro S. destruct (X S) as (r & A & _). eauto.
Qed.
Example C150_nonvacuous : exists r, answer ex_crc (fun l => l) (fun l => l) (fun l => l) [s1; s2] ex_docs [(s1, [vb])] = Ok r.
Proof. eexists. vm_compute. reflexivity. Qed.

(** C151. Full statement: the answer is right whatever documents are indexed, as it would be if lists were told apart by
    their ids rather than by a 64 bit checksum. *)
Definition C151_statement (crc : list Z -> Z) : Prop := forall ordm ordp ordf fs ds q r,
  order ordm -> order ordp -> order ordf -> NoDup fs -> NoDup (map d_id ds) -> (forall d, In d ds -> - 2 ^ 63 <= d_id d < 2 ^ 63)%Z ->
  survivable fs ds q -> answer crc ordm ordp ordf fs ds q = Ok r -> ids_of ds (fun d => matches fs d q) r.
(** For every checksum there are five documents and a query for which the answer is wrong, or none is given. *)
Theorem C151_every_checksum_fails crc ordm ordp ordf :
  (forall s, (0 <= crc s < 2 ^ 64)%Z) -> order ordm -> order ordp -> order ordf ->
  exists fs ds q, NoDup fs /\ NoDup (map d_id ds) /\ (forall d, In d ds -> - 2 ^ 63 <= d_id d < 2 ^ 63)%Z /\ length ds <= 5 /\ survivable fs ds q /\
    ~ exists r, answer crc ordm ordp ordf fs ds q = Ok r /\ ids_of ds (fun d => matches fs d q) r.
Proof.
  intros B O1 O2 O3. destruct (two_sets crc B) as (a & b & NE & CE & Sa & Sb & La & Lb & Ba & Bb).
  assert (SAME := cdocs_same a b La Lb crc ordm ordp ordf Sa Sb CE O1 O3).
  assert (DIFF : exists z, (0 <= z)%Z /\ ((In z a /\ ~ In z b) \/ (In z b /\ ~ In z a))).
  { destruct (Forall_Exists_dec (fun z => In z b) (fun z => in_dec Z.eq_dec z b) a) as [F|E].
    - destruct (Forall_Exists_dec (fun z => In z a) (fun z => in_dec Z.eq_dec z a) b) as [F'|E].
      + exfalso. apply NE. rewrite Forall_forall in F, F'. apply idset_ext; auto. split; auto.
      + apply Exists_exists in E. destruct E as (z & I & N). exists z. apply Bb in I as I'. split; [lia|auto].
    - apply Exists_exists in E. destruct E as (z & I & N). exists z. apply Ba in I as I'. split; [lia|auto]. }
  destruct DIFF as (z & Z0 & D).
  assert (COM : forall v, NoDup [FX] /\ NoDup (map d_id (cdocs a b)) /\ (forall d, In d (cdocs a b) -> - 2 ^ 63 <= d_id d < 2 ^ 63)%Z /\ length (cdocs a b) <= 5 /\ survivable [FX] (cdocs a b) [(FX, [v])]).
  { intro v. split; [repeat constructor; easy|]. split; [now apply cdocs_nodup|]. split; [|split; [apply cdocs_len; auto|now apply cdocs_survive]].
    intros d D'. apply cdocs_in in D'. destruct D' as [->|(i & [I|I] & ->)]; cbn [d_id cdoc]; [lia|apply Ba in I; lia|apply Bb in I; lia]. }
  assert (MX := cdocs_matches a b La Lb vx a (or_introl (conj eq_refl eq_refl)) z).
  assert (MY := cdocs_matches a b La Lb vy b (or_intror (conj eq_refl eq_refl)) z).
  assert (PICK : forall v s, (forall r, (0 <= z)%Z -> ids_of (cdocs a b) (fun d => matches [FX] d [(FX, [v])]) r -> (In z r <-> In z s)) ->
     (forall r, answer crc ordm ordp ordf [FX] (cdocs a b) [(FX, [v])] = Ok r -> ~ (In z r <-> In z s)) ->
     exists fs ds q, NoDup fs /\ NoDup (map d_id ds) /\ (forall d, In d ds -> - 2 ^ 63 <= d_id d < 2 ^ 63)%Z /\ length ds <= 5 /\ survivable fs ds q /\
       ~ exists r, answer crc ordm ordp ordf fs ds q = Ok r /\ ids_of ds (fun d => matches fs d q) r).
  { intros v s Mv Nv. exists [FX], (cdocs a b), [(FX, [v])]. destruct (COM v) as (C1 & C2 & C3 & C4 & C5). repeat (split; [assumption|]).
    intros (r & E & I). exact (Nv r E (Mv r Z0 I)). }
  destruct (answer crc ordm ordp ordf [FX] (cdocs a b) [(FX, [vx])]) as [r| |] eqn:AX.
  - destruct (in_dec Z.eq_dec z r) as [I|I], D as [[D1 D2]|[D1 D2]].
    + apply (PICK vy b); auto. intros r' E. rewrite <- SAME in E. inv E. tauto.
    + apply (PICK vx a); auto. intros r' E. rewrite AX in E. inv E. tauto.
    + apply (PICK vx a); auto. intros r' E. rewrite AX in E. inv E. tauto.
    + apply (PICK vy b); auto. intros r' E. rewrite <- SAME in E. inv E. tauto.
  - apply (PICK vx a); auto. intros r' E. rewrite AX in E. discriminate.
  - apply (PICK vx a); auto. intros r' E. rewrite AX in E. discriminate.
Qed.
(** A wrong answer, and not just an abort, from a checksum that maps the two sets of this index to the same number. *)
Definition bad_crc (s : list Z) : Z := fold_left (fun h x => h + x)%Z s 0%Z.
Theorem C151_wrong_answer : ~ C151_statement bad_crc.
Proof.
  intro S. specialize (S (fun l => l) (fun l => l) (fun l => l) [FX] (cdocs [1; 4] [2; 3])%Z [(FX, [vy])] [-1; 1; 4]%Z order_id order_id order_id).
  destruct S as [_ S].
  - repeat constructor; easy.
  - vm_compute. repeat constructor; cbn; intuition discriminate.
  - intros d D. cbn [cdocs] in D. vm_compute in D. repeat (destruct D as [<-|D]; [cbn [d_id]; lia|]). easy.
  - now apply cdocs_survive.
  - vm_compute. reflexivity.
  - assert (X := proj1 (S 1%Z) ltac:(cbn; auto)). destruct X as (d & D & E & MT). vm_compute in D.
    repeat (destruct D as [<-|D]; [cbn [d_id] in E; try discriminate E|]); [|easy].
    destruct (MT FX (or_introl eq_refl)) as [[Q|(e & Q & Y)]|[(w & (vs & Q & I) & (e & Q' & _ & I'))|[(w & e & Q & Y & _) _]]].
    + discriminate Q.
    + cbn in Q. inv Q. discriminate Y.
    + cbn in Q. inv Q. cbn in Q'. inv Q'. destruct I as [<-|[]]. destruct I' as [Y|[]]. discriminate Y.
    + cbn in Q. inv Q. discriminate Y.
Qed.
(** The list built for a set of indexed ids whose checksum is new holds exactly these ids; reading it back returns them
    or, if the list ends at a word boundary, aborts. *)
Theorem C151_fresh_list_partial crc L m s :
  idset L -> idset s -> s <> [] -> (forall x, In x s -> In x L) -> idx_ok L m -> m_table m = [] ->
  exists m' b, BuildPl crc m s = Ok (m', Some (crc s)) /\ assocZ (crc s) (m_table m') = Some b /\ bm_ids b = length s /\
    (GetIds m' b = Ok s \/ (GetIds m' b = CheckFail /\ length (filter (fun x => x <=? last s 0)%Z L) mod 64 = 0)).
Proof.
  intros SL Ss NE SUB IX T. set (FF := fun t => t = s).
  assert (FL : forall t, FF t -> t <> [] /\ idset t /\ forall x, In x t -> In x L) by (intros t ->; auto).
  assert (NC : forall a b, FF a -> FF b -> crc a = crc b -> a = b) by (intros a b -> ->; auto).
  assert (M : mgr_ok crc L FF m) by (split; auto; rewrite T; discriminate).
  destruct (BuildPl_ok crc L FF SL FL NC m s M eq_refl) as (m' & E & M' & (b & A & R) & _). exists m', b. split; auto. split; auto. split; [apply R|].
  destruct (GetIds_repr crc L FF SL m' b s Ss SUB M' R) as [G1 G2]. destruct (Nat.eq_dec (bm_bits b mod 64) 0) as [Z0|Z0]; [right|left; auto].
  split; auto. destruct R as (_ & _ & _ & (i & I & Ei & Eb) & _). rewrite <- Ei, filter_sorted, <- Eb by auto. exact Z0.
Qed.
Example C151_nonvacuous : idset [1;2;4;22]%Z /\ idx_ok [1;2;4;22]%Z (SetSortedIndexedIds manager0 [1;2;4;22]%Z) /\
  exists m' b, BuildPl ex_crc (SetSortedIndexedIds manager0 [1;2;4;22]%Z) [2;22]%Z = Ok (m', Some (ex_crc [2;22]%Z)) /\
    assocZ (ex_crc [2;22]%Z) (m_table m') = Some b /\ GetIds m' b = Ok [2;22]%Z.
Proof.
  assert (S : idset [1;2;4;22]%Z) by (repeat constructor; lia). split; auto. split; [apply SetSorted_ok; auto|].
  eexists _, _. split; [vm_compute; reflexivity|]. split; [vm_compute; reflexivity|]. vm_compute. reflexivity.
Qed.

(** C152. Setting and clearing a bit, union and difference change exactly the bits they should, for any lengths. *)
Theorem C152_set_clear b i : wfb b -> i < length (bm_words b) * 64 ->
  exists b1 b2, SetBit b i = Ok b1 /\ ClearBit b i = Ok b2 /\
    (forall j, j < length (bm_words b) * 64 -> IsBitSet b1 j = (if j =? i then Ok true else IsBitSet b j)) /\
    (forall j, j < length (bm_words b) * 64 -> IsBitSet b2 j = (if j =? i then Ok false else IsBitSet b j)).
Proof.
  intros W I. destruct (SetBit_spec b i I W) as (b1 & E1 & _ & C1 & _ & _ & _ & T1). destruct (ClearBit_spec b i I W) as (b2 & E2 & _ & C2 & _ & _ & _ & T2).
  exists b1, b2. split; auto. split; auto. split; intros j J; rewrite !IsBitSet_spec, ?C1, ?C2, ?T1, ?T2; unfold cap; rewrite (proj2 (Nat.ltb_lt _ _) J);
    destruct (j =? i); reflexivity.
Qed.
Theorem C152_union_difference a b i : wfb a -> wfb b -> i < length (bm_words a) * 64 ->
  let at_ x := match IsBitSet x i with Ok t => t | _ => false end in
  IsBitSet (Union a b) i = Ok (at_ a || at_ b) /\ IsBitSet (Substract a b) i = Ok (at_ a && negb (at_ b)).
Proof.
  intros A B I. cbn zeta. destruct (Union_spec a b A B) as (_ & C1 & _ & T1). destruct (Substract_spec a b A B) as (_ & C2 & _ & T2).
  assert (CA : i < cap a) by exact I.
  assert (E : forall x, match IsBitSet x i with Ok t => t | _ => false end = bit x i).
  { intro x. rewrite IsBitSet_spec. destruct (Nat.ltb_spec i (cap x)); auto. now rewrite bit_outside. }
  rewrite !E, !IsBitSet_spec, C1, C2, T1, T2 by auto. apply Nat.ltb_lt in CA. rewrite CA. auto.
Qed.
Example C152_nonvacuous : exists b1, SetBit (new_bitmap 70 1 0) 65 = Ok b1 /\ IsBitSet b1 65 = Ok true /\ IsBitSet b1 64 = Ok false /\ wfb b1.
Proof.
  eexists. split; [vm_compute; reflexivity|]. split; [reflexivity|]. split; [reflexivity|].
  repeat constructor; vm_compute; congruence.
Qed.

(** C153. Full statement: an intersection has exactly the common bits. *)
Definition C153_statement : Prop := forall a b i, wfb a -> wfb b -> i < length (bm_words a) * 64 ->
  let at_ x := match IsBitSet x i with Ok t => t | _ => false end in
  IsBitSet (Intersect a b) i = Ok (at_ a && at_ b).
(** False: the rest of a longer list is cleared by a memset of as many bytes as there are words left. *)
Theorem C153_statement_refuted : ~ C153_statement.
Proof.
  intro S. assert (W1 : wfb (new_bitmap 128 1 (2 ^ 63))) by (repeat constructor; vm_compute; congruence).
  assert (W2 : wfb (new_bitmap 64 1 0)) by (repeat constructor; vm_compute; congruence).
  specialize (S (new_bitmap 128 1 (2 ^ 63)) (new_bitmap 64 1 0) 64 W1 W2 ltac:(cbn; lia)). vm_compute in S. discriminate.
Qed.
(** True if the other list has at least as many words (as in every intersection a query makes, C149). *)
Theorem C153_intersect_partial a b i : wfb a -> wfb b -> i < length (bm_words a) * 64 -> length (bm_words a) <= length (bm_words b) ->
  let at_ x := match IsBitSet x i with Ok t => t | _ => false end in
  IsBitSet (Intersect a b) i = Ok (at_ a && at_ b).
Proof.
  intros A B I L. cbn zeta. destruct (Intersect_spec a b A B L) as (_ & C & _ & T). assert (CA : i < cap a) by exact I.
  assert (E : forall x, match IsBitSet x i with Ok t => t | _ => false end = bit x i).
  { intro x. rewrite IsBitSet_spec. destruct (Nat.ltb_spec i (cap x)); auto. now rewrite bit_outside. }
  rewrite !E, IsBitSet_spec, C, T. apply Nat.ltb_lt in CA. rewrite CA. auto.
Qed.
Example C153_nonvacuous : IsBitSet (Intersect (new_bitmap 64 1 5) (new_bitmap 70 1 6)) 61 = Ok true /\ IsBitSet (Intersect (new_bitmap 64 1 5) (new_bitmap 70 1 6)) 63 = Ok false.
Proof. split; vm_compute; reflexivity. Qed.

(** C154. Full statement: a list stored for the range a..b in a range field is found for exactly the numbers of the range. *)
Definition C154_statement : Prop := forall c a b n p f,
  ~ digit c -> c <> 45%Z -> (- 2 ^ 31 <= a <= b)%Z -> (b < 2 ^ 31 - 1)%Z -> (- 2 ^ 31 <= n < 2 ^ 31)%Z ->
  Resolve (field0 (KRange [c])) (sdec a ++ c :: sdec b) true p = Ok f -> (GetInclude f (sdec n) = [p] <-> (a <= n <= b)%Z).
(** False: a number that stands alone is never found, whatever the field holds, ... *)
Theorem C154_never_found f d n : f_kind f = KRange d -> (- 2 ^ 31 <= n < 2 ^ 31)%Z -> GetInclude f (sdec n) = [] /\ GetExclude f (sdec n) = [].
Proof. intros K B. unfold GetInclude, GetExclude. rewrite K, parse_sdec by auto. auto. Qed.
(** ... and the lower bound of the range is ignored: the list is stored for 0..b. (It can be found by a number followed
    by another character.) *)
Theorem C154_lower_bound_ignored_partial c a b p f k t r :
  ~ digit c -> c <> 45%Z -> (- 2 ^ 31 <= a < 2 ^ 31)%Z -> (- 2 ^ 31 <= b < 2 ^ 31 - 1)%Z -> (- 2 ^ 31 <= k < 2 ^ 31)%Z -> ~ digit t ->
  Resolve (field0 (KRange [c])) (sdec a ++ c :: sdec b) true p = Ok f ->
  (GetInclude f (sdec k ++ t :: r) = [p] <-> (0 <= k <= b)%Z).
Proof.
  intros D M A B K T R. unfold Resolve in R. cbn [field0 f_kind] in R. rewrite parse_range in R by (auto; lia). cbn [obind orb] in R.
  destruct (b <? 0)%Z eqn:Q; b2p.
  - inv R. unfold GetInclude. cbn [field0 f_kind f_rinc assocZ opt_list]. rewrite parse_sdec_more by auto. split; [discriminate|lia].
  - replace (b =? 2 ^ 31 - 1)%Z with false in R by (symmetry; apply Z.eqb_neq; lia). inv R.
    unfold GetInclude. cbn [f_kind f_rinc]. rewrite parse_sdec_more by auto. rewrite assocZ_range, zrange_in. cbn [field0 f_rinc assocZ].
    destruct ((0 <=? k) && (k <=? b))%Z eqn:G; cbn [opt_list].
    + b2p. split; auto.
    + split; [discriminate|]. intros [X Y]. apply Z.leb_le in X, Y. now rewrite X, Y in G.
Qed.
Example C154_nonvacuous : exists f, Resolve (field0 (KRange [58%Z])) (sdec 10 ++ 58%Z :: sdec 12) true 5%Z = Ok f /\
  GetInclude f (sdec 11) = [] /\ GetInclude f (sdec 3 ++ [32%Z]) = [5]%Z /\ GetInclude f (sdec 13 ++ [32%Z]) = [].
Proof. eexists. split; [vm_compute; reflexivity|]. split; [|split]; vm_compute; reflexivity. Qed.
Theorem C154_statement_refuted : ~ C154_statement.
Proof.
  intro S. destruct C154_nonvacuous as (f & R & N & _).
  assert (X := S 58%Z 10%Z 12%Z 11%Z 5%Z f ltac:(unfold digit; lia) ltac:(lia) ltac:(lia) ltac:(lia) ltac:(lia) R).
  rewrite N in X. destruct X as [_ X]. specialize (X ltac:(lia)). discriminate.
Qed.

(** C155. The answer does not depend on the order in which the documents were added nor on the iteration orders, and after
    BuildIndexer neither AddDocument nor BuildIndexer changes it. *)
Theorem C155_order_irrelevant crc ordm ordp ordf ordm' ordp' ordf' fs fs' ds ds' q :
  order ordm -> order ordp -> order ordf -> order ordm' -> order ordp' -> order ordf' ->
  NoDup fs -> NoDup (map d_id ds) -> no_collision crc fs ds -> Permutation fs fs' -> Permutation ds ds' ->
  forall r, answer crc ordm ordp ordf fs ds q = Ok r <-> answer crc ordm' ordp' ordf' fs' ds' q = Ok r.
Proof.
  assert (HALF : forall ordm ordp ordf ordm' ordp' ordf' fs fs' ds ds',
    order ordm -> order ordp -> order ordf -> order ordm' -> order ordp' -> order ordf' ->
    NoDup fs -> NoDup (map d_id ds) -> no_collision crc fs ds -> Permutation fs fs' -> Permutation ds ds' ->
    NoDup fs' /\ NoDup (map d_id ds') /\ no_collision crc fs' ds' /\
    forall r, answer crc ordm ordp ordf fs ds q = Ok r -> answer crc ordm' ordp' ordf' fs' ds' q = Ok r).
  { clear. intros ordm ordp ordf ordm' ordp' ordf' fs fs' ds ds' O1 O2 O3 O1' O2' O3' NF ND NC PF PD.
    assert (ID : forall d, In d ds' <-> In d ds) by (intro d; split; apply Permutation_in; [apply Permutation_sym|]; auto).
    assert (IFs : forall f, In f fs' <-> In f fs) by (intro d; split; apply Permutation_in; [apply Permutation_sym|]; auto).
    assert (IO : forall P s, ids_of ds' P s <-> ids_of ds P s).
    { intros P s. unfold ids_of. split; intros [A B]; (split; [auto|]); intro id; rewrite B; split; intros (d & X & Y); exists d; (split; [now apply ID|auto]). }
    assert (NF' : NoDup fs') by (eapply Permutation_NoDup; eauto).
    assert (ND' : NoDup (map d_id ds')) by (eapply Permutation_NoDup; [apply Permutation_map; eauto|auto]).
    assert (NC' : no_collision crc fs' ds').
    { assert (ST : forall s, stored fs' ds' s -> stored fs ds s).
      { intros s (f & If & H). exists f. split; [now apply IFs|]. destruct H as [H|(v & [H|H])]; apply IO in H; eauto. }
      intros a b A B. apply NC; auto. }
    split; auto. split; auto. split; auto. intros r A.
    destruct (answer_ok crc ordm ordp ordf fs ds q O1 O2 O3 NF ND NC) as [X Y].
    destruct (answer_ok crc ordm' ordp' ordf' fs' ds' q O1' O2' O3' NF' ND' NC') as [X' _].
    assert (S := Y r A). destruct (X S) as (r0 & A0 & I0). rewrite A in A0. inv A0.
    assert (AW : forall P, at_word_end ds' P -> at_word_end ds P).
    { intros P (d & D & Pd & Mx & C). exists d. split; [now apply ID|]. split; auto. split; [intros d' D'; apply Mx; now apply ID|].
      rewrite (filter_perm _ ds ds' PD). exact C. }
    assert (S' : survivable fs' ds' q).
    { destruct S as [S1 S2]. split; [rewrite <- (Permutation_length PD); auto|]. intros f If. apply IFs in If. destruct (S2 f If) as ((d & D & O) & Q).
      split; [exists d; split; auto; now apply ID|]. intros vs V. destruct (Q vs V) as [Q1 Q2]. split; [auto|]. intros v Vi. destruct (Q2 v Vi). split; auto. }
    destruct (X' S') as (r' & A' & I'). rewrite A'. f_equal. apply IO in I'. apply idset_ext; [apply I'|apply I0|].
    intro id. destruct I' as [_ I'], I0 as [_ I0]. rewrite I', I0. split; intros (d & D & E & MT); exists d; (split; [auto|]); (split; [auto|]); intros f If; apply MT; now apply IFs. }
  intros O1 O2 O3 O1' O2' O3' NF ND NC PF PD r.
  destruct (HALF ordm ordp ordf ordm' ordp' ordf' fs fs' ds ds') as (NF' & ND' & NC' & H); auto.
  destruct (HALF ordm' ordp' ordf' ordm ordp ordf fs' fs ds' ds) as (_ & _ & _ & H'); auto using Permutation_sym.
  split; auto.
Qed.
Theorem C155_built_is_final crc ordm ordm' fs ds d x : order ordm -> NoDup fs -> no_collision crc fs ds ->
  build_index crc ordm fs ds = Ok x -> AddDocument x d = x /\ BuildIndexer crc ordm' x = Ok x.
Proof.
  intros O NF NC E. destruct (build_index_ok crc ordm fs ds O NC NF) as (x' & _ & E' & _ & _ & _ & _ & B). rewrite E in E'. inv E'.
  unfold AddDocument, BuildIndexer. rewrite B. auto.
Qed.
Example C155_nonvacuous : exists x, build_index ex_crc (fun l => l) [s1; s2] ex_docs = Ok x /\
  answer ex_crc (fun l => l) (fun l => l) (fun l => l) [s2; s1] (List.rev ex_docs) [(s1, [vb])] = Ok [7; 12]%Z.
Proof. eexists. split; vm_compute; reflexivity. Qed.

Print Assumptions C149_query_exact.
Print Assumptions C150_word_multiple_aborts.
Print Assumptions C150_every_document_wants.
Print Assumptions C150_statement_refuted.
Print Assumptions C150_returns_iff_partial.
Print Assumptions C151_every_checksum_fails.
Print Assumptions C151_wrong_answer.
Print Assumptions C151_fresh_list_partial.
Print Assumptions C152_set_clear.
Print Assumptions C152_union_difference.
Print Assumptions C153_statement_refuted.
Print Assumptions C153_intersect_partial.
Print Assumptions C154_never_found.
Print Assumptions C154_lower_bound_ignored_partial.
Print Assumptions C154_statement_refuted.
Print Assumptions C155_order_irrelevant.
Print Assumptions C155_built_is_final.
