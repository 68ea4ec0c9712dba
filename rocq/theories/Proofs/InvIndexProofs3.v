(** Collecting the documents and building the fields. *)
From Coq Require Import Sorted Permutation.
From Verif.Model Require Import Common StrUtil InvIndex.
From Verif.Spec Require Import InvIndexSpec.
From Verif.Proofs Require Import Tac StrProofs InvIndexProofs InvIndexProofs2.
Open Scope nat_scope.

Lemma beq_refl s : beq s s = true.
Proof. now apply beq_eq. Qed.
Lemma beq_neq a b : a <> b -> beq a b = false.
Proof. intro N. destruct (beq a b) eqn:E; auto. apply beq_eq in E. congruence. Qed.
Lemma str_dec (a b : str) : {a = b} + {a <> b}.
Proof. apply list_eq_dec, Z.eq_dec. Qed.

Lemma assocS_In {V} k (l : list (str * V)) v : assocS k l = Some v -> In (k, v) l.
Proof.
  induction l as [|[a b] l IH]; [easy|]. cbn [assocS]. destruct (beq a k) eqn:E; [|now right; auto].
  intro H. inv H. apply beq_eq in E. subst. now left.
Qed.
Lemma assocS_None {V} k (l : list (str * V)) : assocS k l = None <-> ~ In k (map fst l).
Proof.
  induction l as [|[a b] l IH]; cbn [assocS map fst In]; [tauto|]. destruct (beq a k) eqn:E.
  - apply beq_eq in E. subst. split; [easy|tauto].
  - assert (a <> k) by (intros ->; rewrite beq_refl in E; discriminate). rewrite IH. tauto.
Qed.
Lemma In_assocS {V} k (l : list (str * V)) v : NoDup (map fst l) -> In (k, v) l -> assocS k l = Some v.
Proof.
  induction l as [|[a b] l IH]; intros N I; [easy|]. cbn [assocS map fst] in *. inv N. destruct I as [I|I].
  - inv I. now rewrite beq_refl.
  - rewrite beq_neq; auto. intros ->. apply H1. apply in_map_iff. exists (k, v). auto.
Qed.
Lemma assocS_perm {V} k (l l' : list (str * V)) : Permutation l l' -> NoDup (map fst l) -> assocS k l' = assocS k l.
Proof.
  intros P N. assert (N' : NoDup (map fst l')) by (eapply Permutation_NoDup; [apply Permutation_map; eauto|auto]).
  destruct (assocS k l) eqn:E.
  - apply assocS_In in E. apply In_assocS; auto. eapply Permutation_in; eauto.
  - apply assocS_None in E. apply assocS_None. intro X. apply E. eapply Permutation_in; [|exact X]. now apply Permutation_map, Permutation_sym.
Qed.

(** * Maps of id sets *)
Definition map_ok (P : str -> Z -> Prop) (l : list (str * list Z)) : Prop :=
  NoDup (map fst l) /\
  forall v, match assocS v l with
            | Some s => idset s /\ s <> [] /\ forall id, In id s <-> P v id
            | None => forall id, ~ P v id
            end.
Lemma add_to_assoc k id l v : assocS v (add_to k id l) =
  if beq k v then Some (match assocS v l with Some s => zinsert id s | None => [id] end) else assocS v l.
Proof.
  induction l as [|[a s] l IH]; cbn [add_to assocS]; [reflexivity|].
  destruct (beq a k) eqn:E; cbn [assocS].
  - apply beq_eq in E. subst. destruct (beq k v); auto.
  - destruct (beq a v) eqn:Q; auto. apply beq_eq in Q. subst. rewrite beq_neq; auto. intros ->. now rewrite beq_refl in E.
Qed.
Lemma add_to_keys k id l : map fst (add_to k id l) = if existsb (fun a => beq a k) (map fst l) then map fst l else map fst l ++ [k].
Proof.
  induction l as [|[a s] l IH]; cbn [add_to map fst existsb]; auto.
  destruct (beq a k); cbn [map fst orb]; auto. rewrite IH. destruct (existsb _ _); auto.
Qed.
Lemma zinsert_nil x l : zinsert x l <> [].
Proof. destruct l; cbn; try discriminate. destruct (_ <? _)%Z; try discriminate. destruct (_ =? _)%Z; discriminate. Qed.
Lemma NoDup_snoc {A} (l : list A) x : NoDup l -> ~ In x l -> NoDup (l ++ [x]).
Proof. intros N X. apply NoDup_rev in N. rewrite <- (rev_involutive (l ++ [x])). apply NoDup_rev. rewrite rev_app_distr. cbn. constructor; auto. now rewrite <- in_rev. Qed.
Lemma add_to_ok P k id l : map_ok P l -> map_ok (fun v i => P v i \/ (v = k /\ i = id)) (add_to k id l).
Proof.
  intros [N H]. split.
  - rewrite add_to_keys. destruct (existsb _ _) eqn:E; auto. apply NoDup_snoc; auto. intro X.
    assert (Y : existsb (fun a => beq a k) (map fst l) = true) by (apply existsb_exists; exists k; split; auto using beq_refl). congruence.
  - intro v. rewrite add_to_assoc. specialize (H v). destruct (beq k v) eqn:E.
    + apply beq_eq in E. subst v. destruct (assocS k l) as [s|].
      * destruct H as (S & NE & H). split; [now apply zinsert_sorted|]. split; [apply zinsert_nil|]. intro i. rewrite zinsert_in, H. intuition.
      * split; [repeat constructor|]. split; [discriminate|]. intro i. cbn. specialize (H i). intuition.
    + assert (v <> k) by (intros ->; rewrite beq_refl in E; discriminate). destruct (assocS v l) as [s|].
      * destruct H as (S & NE & H). split; auto. split; auto. intro i. rewrite H. intuition.
      * intros i [X|X]; [exact (H i X)|tauto].
Qed.
Lemma map_ok_ext P Q l : (forall v i, P v i <-> Q v i) -> map_ok P l -> map_ok Q l.
Proof.
  intros E [N H]. split; auto. intro v. specialize (H v). destruct (assocS v l).
  - destruct H as (A & B & C). split; auto. split; auto. intro i. now rewrite C.
  - intros i X. apply E in X. exact (H i X).
Qed.
Lemma fold_add_ok id vs : forall P l, map_ok P l -> map_ok (fun v i => P v i \/ (In v vs /\ i = id)) (fold_left (fun l v => add_to v id l) vs l).
Proof.
  induction vs as [|w vs IH]; intros P l H; cbn [fold_left].
  - eapply map_ok_ext; [|exact H]. intros; cbn; tauto.
  - eapply map_ok_ext; [|apply IH, add_to_ok, H]. intros v i. cbn [In]. intuition congruence.
Qed.

(** * One field's entity *)
Definition ent_ok (f : str) (ds : list document) (en : entity) : Prop :=
  ids_of ds (fun d => open_in d f) (en_wild en) /\
  map_ok (fun v id => exists d, In d ds /\ d_id d = id /\ wants d f v) (en_inc en) /\
  map_ok (fun v id => exists d, In d ds /\ d_id d = id /\ refuses d f v) (en_exc en).
Lemma ids_of_snoc ds d P s : ids_of ds P s -> (P d -> ids_of (ds ++ [d]) P (zinsert (d_id d) s)) /\ (~ P d -> ids_of (ds ++ [d]) P s).
Proof.
  intros [S H]. split; intro X.
  - split; [now apply zinsert_sorted|]. intro id. rewrite zinsert_in, H. split.
    + intros [->|(d' & A & B)]; [exists d|exists d']; rewrite in_app_iff; cbn; tauto.
    + intros (d' & A & B & C). apply in_app_or in A. destruct A as [A|[->|[]]]; [right; eauto|now left].
  - split; auto. intro id. rewrite H. split; intros (d' & A & B & C); exists d'; split; auto.
    + apply in_or_app. auto.
    + apply in_app_or in A. destruct A as [A|[->|[]]]; tauto.
Qed.
Lemma fold_assign id (excl : bool) vs en :
  fold_left (AddIdForAssign id excl) vs en =
  if excl then mkEn (en_wild en) (en_inc en) (fold_left (fun l v => add_to v id l) vs (en_exc en))
  else mkEn (en_wild en) (fold_left (fun l v => add_to v id l) vs (en_inc en)) (en_exc en).
Proof. revert en. induction vs as [|v vs IH]; intros [w i e]; cbn [fold_left]; [destruct excl; auto|]. rewrite IH. destruct excl; auto. Qed.
Lemma map_snoc_other (W : document -> str -> Prop) ds d l : (forall v, ~ W d v) ->
  map_ok (fun v id => exists d, In d ds /\ d_id d = id /\ W d v) l -> map_ok (fun v id => exists d', In d' (ds ++ [d]) /\ d_id d' = id /\ W d' v) l.
Proof.
  intros N. apply map_ok_ext. intros v i. split; intros (d' & A & B & C); exists d'; split; auto.
  - apply in_or_app; auto.
  - apply in_app_or in A. destruct A as [A|[->|[]]]; auto. now apply N in C.
Qed.
Lemma map_snoc_same (W : document -> str -> Prop) ds d l vs : (forall v, W d v <-> In v vs) ->
  map_ok (fun v id => exists d, In d ds /\ d_id d = id /\ W d v) l ->
  map_ok (fun v id => exists d', In d' (ds ++ [d]) /\ d_id d' = id /\ W d' v) (fold_left (fun l v => add_to v (d_id d) l) vs l).
Proof.
  intros N H. eapply map_ok_ext; [|apply fold_add_ok, H]. intros v i. split.
  - intros [(d' & A & B & C)|[A ->]]; [exists d'|exists d]; rewrite in_app_iff; cbn; repeat split; auto. now apply N.
  - intros (d' & A & B & C). apply in_app_or in A. destruct A as [A|[->|[]]]; [left; eauto|right; split; auto; now apply N].
Qed.
Lemma add_doc_ok f ds en d : ent_ok f ds en -> ent_ok f (ds ++ [d]) (add_doc_field f d en).
Proof.
  intros (W & I & X). unfold add_doc_field. destruct (assocS f (d_cond d)) as [e|] eqn:C.
  - assert (U : forall e', cond_of d f e' -> e' = e) by (unfold cond_of; congruence).
    destruct (e_vals e) as [|v0 vs0] eqn:V.
    + assert (NW : forall v, ~ wants d f v) by (intros v (e' & A & B & D); apply U in A; subst; rewrite V in D; easy).
      assert (NR : forall v, ~ refuses d f v) by (intros v (e' & A & B & D); apply U in A; subst; rewrite V in D; easy).
      split; [|split]; cbn [en_wild en_inc en_exc AddWildcardsId].
      * apply (proj1 (ids_of_snoc ds d (fun d => open_in d f) _ W)). left. right. exists e. auto.
      * now apply map_snoc_other with (W := fun d v => wants d f v).
      * now apply map_snoc_other with (W := fun d v => refuses d f v).
    + rewrite <- V in *. assert (NE : e_vals e <> []) by (rewrite V; discriminate).
      assert (NF : ~ free_in d f) by (intros [Q|(e' & A & B)]; [congruence|apply U in A; subst; congruence]).
      assert (Z0 : forall A (x y : A), match e_vals e with [] => x | _ :: _ => y end = y) by (destruct (e_vals e); congruence). try rewrite Z0.
      rewrite fold_assign. destruct (e_excl e) eqn:EX.
      * assert (NW : forall v, ~ wants d f v) by (intros v (e' & A & B & D); apply U in A; subst; congruence).
        assert (R : forall v, refuses d f v <-> In v (e_vals e)).
        { intro v. split; [intros (e' & A & B & D); apply U in A; now subst|]. intro D. exists e. auto. }
        split; [|split]; cbn [en_wild en_inc en_exc AddWildcardsId].
        -- apply (proj1 (ids_of_snoc ds d (fun d => open_in d f) _ W)). right. exists v0. apply R. rewrite V. now left.
        -- now apply map_snoc_other with (W := fun d v => wants d f v).
        -- now apply map_snoc_same with (W := fun d v => refuses d f v).
      * assert (NR : forall v, ~ refuses d f v) by (intros v (e' & A & B & D); apply U in A; subst; congruence).
        assert (R : forall v, wants d f v <-> In v (e_vals e)).
        { intro v. split; [intros (e' & A & B & D); apply U in A; now subst|]. intro D. exists e. auto. }
        split; [|split]; cbn [en_wild en_inc en_exc AddWildcardsId].
        -- apply (proj2 (ids_of_snoc ds d (fun d => open_in d f) _ W)). intros [Q|(v & Q)]; [now apply NF|now apply NR in Q].
        -- now apply map_snoc_same with (W := fun d v => wants d f v).
        -- now apply map_snoc_other with (W := fun d v => refuses d f v).
  - assert (U : forall e', ~ cond_of d f e') by (unfold cond_of; congruence).
    split; [|split]; cbn [en_wild en_inc en_exc AddWildcardsId].
    + apply (proj1 (ids_of_snoc ds d (fun d => open_in d f) _ W)). left. now left.
    + apply map_snoc_other with (W := fun d v => wants d f v); auto. intros v (e' & A & _). now apply U in A.
    + apply map_snoc_other with (W := fun d v => refuses d f v); auto. intros v (e' & A & _). now apply U in A.
Qed.
Lemma ent0_ok f : ent_ok f [] entity0.
Proof.
  split; [|split]; cbn.
  - split; [constructor|]. intro id. split; [easy|]. intros (d & [] & _).
  - split; [constructor|]. intros v id (d & [] & _).
  - split; [constructor|]. intros v id (d & [] & _).
Qed.

(** * All documents *)
Definition idx_of (fs : list (str * fkind)) (ds : list document) (x : indexer) : Prop :=
  x_built x = false /\ x_fields x = fs /\ x_mgr x = manager0 /\ x_tab x = [] /\ ids_of ds (fun _ => True) (x_ids x) /\
  map fst (x_ents x) = map fst fs /\ forall f en, In (f, en) (x_ents x) -> ent_ok f ds en.
Lemma AddDocument_ok fs ds x d : idx_of fs ds x -> idx_of fs (ds ++ [d]) (AddDocument x d).
Proof.
  intros (B & A1 & A2 & A3 & A4 & A5 & A6). unfold AddDocument. rewrite B. unfold idx_of. cbn [x_built x_fields x_mgr x_tab x_ids x_ents].
  split; auto. split; auto. split; auto. split; auto. split; [|split].
  - now apply (proj1 (ids_of_snoc ds d (fun _ => True) _ A4)).
  - rewrite map_map. cbn [fst]. exact A5.
  - intros f en X. apply in_map_iff in X. destruct X as ([f' en'] & E & I). inv E. now apply add_doc_ok, A6.
Qed.
Lemma AddDocuments_ok fs ds : idx_of fs ds (fold_left AddDocument ds (indexer0 fs)).
Proof.
  assert (G : forall ds' ds0 x, idx_of fs ds0 x -> idx_of fs (ds0 ++ ds') (fold_left AddDocument ds' x)).
  { induction ds' as [|d ds' IH]; intros ds0 x H; cbn [fold_left]; [now rewrite app_nil_r|].
    replace (ds0 ++ d :: ds') with ((ds0 ++ [d]) ++ ds') by (now rewrite <- app_assoc). apply IH. now apply AddDocument_ok. }
  apply (G ds []). unfold idx_of, indexer0. cbn [x_built x_fields x_mgr x_tab x_ids x_ents].
  split; auto. split; auto. split; auto. split; auto. split; [|split].
  - split; [constructor|]. intro id. split; [intros []|intros (d & [] & _)].
  - rewrite map_map. reflexivity.
  - intros f en X. apply in_map_iff in X. destruct X as (p & E & _). inv E. apply ent0_ok.
Qed.

(** * Building *)
Section B.
Context (crc : list Z -> Z) (ordm : list (str * list Z) -> list (str * list Z)).
Hypothesis OM : forall l, Permutation l (ordm l).
Context (fs : list str) (ds : list document) (L : list Z).
Hypothesis IL : ids_of ds (fun _ => True) L.
Hypothesis NC : no_collision crc fs ds.
Definition F (s : list Z) : Prop := s <> [] /\ stored fs ds s.
Lemma F_sub s : F s -> s <> [] /\ idset s /\ forall x, In x s -> In x L.
Proof.
  intros [NE (f & _ & H)]. split; auto.
  assert (G : forall P, ids_of ds P s -> idset s /\ forall x, In x s -> In x L).
  { intros P [S Q]. split; auto. intros x X. apply IL. apply Q in X. destruct X as (d & A & B & _). eauto. }
  destruct H as [H|(v & [H|H])]; eauto.
Qed.
Lemma F_nc a b : F a -> F b -> crc a = crc b -> a = b.
Proof. intros [A A'] [B B'] E. now apply NC. Qed.

(** A pointer to the list of the documents with property [P]; NULL if there are none. *)
Definition pl_ok (m : manager) (P : document -> Prop) (o : option Z) : Prop :=
  match o with
  | Some p => exists s, s <> [] /\ has L m p s /\ ids_of ds P s
  | None => forall d, In d ds -> ~ P d
  end.
Definition fld_ok (m : manager) (n : str) (f : field) : Prop :=
  f_kind f = KStr /\ pl_ok m (fun d => open_in d n) (f_wild f) /\
  (forall v, pl_ok m (fun d => wants d n v) (assocS v (f_sinc f))) /\
  (forall v, pl_ok m (fun d => refuses d n v) (assocS v (f_sexc f))).
Lemma pl_ok_mono m m' P o : (forall p t, has L m p t -> has L m' p t) -> pl_ok m P o -> pl_ok m' P o.
Proof. intro H. destruct o; cbn; auto. intros (s & A & B & C). eauto. Qed.
Lemma fld_ok_mono m m' n f : (forall p t, has L m p t -> has L m' p t) -> fld_ok m n f -> fld_ok m' n f.
Proof. intros H (A & B & C & D). split; auto. split; [eapply pl_ok_mono; eauto|]. split; intro v; eapply pl_ok_mono; eauto. Qed.

Definition Mok := mgr_ok crc L F.
Lemma SLL : idset L. Proof. apply IL. Qed.

Lemma build_values_ok l : forall m f inc, Mok m -> f_kind f = KStr -> NoDup (map fst l) -> (forall v s, In (v, s) l -> F s) ->
  exists m' f', build_values crc m f inc l = Ok (m', f') /\ Mok m' /\ (forall p t, has L m p t -> has L m' p t) /\
    f_kind f' = KStr /\ f_wild f' = f_wild f /\
    (forall v, assocS v (if inc then f_sinc f' else f_sexc f') =
       match assocS v l with Some s => Some (crc s) | None => assocS v (if inc then f_sinc f else f_sexc f) end) /\
    (if inc then f_sexc f' = f_sexc f else f_sinc f' = f_sinc f) /\
    (forall v s, In (v, s) l -> has L m' (crc s) s).
Proof.
  induction l as [|[v s] l IH]; intros m f inc M K N H; cbn [build_values].
  - exists m, f. split; auto. split; auto. split; auto. split; auto. split; auto. split; [auto|]. split; [destruct inc; auto|]. intros ? ? [].
  - cbn [map fst] in N. inv N. assert (Fs : F s) by (eapply H; now left).
    destruct (BuildPl_ok crc L F SLL F_sub F_nc m s M Fs) as (m1 & E1 & M1 & H1 & Mono1). rewrite E1. cbn [obind].
    unfold Resolve. rewrite K. cbn [obind].
    set (f1 := if inc then _ else _). assert (K1 : f_kind f1 = KStr) by (unfold f1; destruct inc; reflexivity).
    destruct (IH m1 f1 inc M1 K1 H3) as (m2 & f2 & E2 & M2 & Mono2 & K2 & W2 & A2 & O2 & T2); [intros ? ? X; eapply H; right; eauto|].
    rewrite E2. exists m2, f2. split; auto. split; auto. split; [auto|]. split; auto. split; [rewrite W2; unfold f1; destruct inc; reflexivity|].
    split; [|split].
    + intro w. rewrite A2. cbn [assocS]. destruct (beq v w) eqn:Q.
      * apply beq_eq in Q. subst w. assert (Z0 : assocS v l = None) by (now apply assocS_None). rewrite Z0.
        unfold f1. destruct inc; cbn [f_sinc f_sexc assocS]; now rewrite beq_refl.
      * destruct (assocS w l); auto. unfold f1. destruct inc; cbn [f_sinc f_sexc assocS]; now rewrite Q.
    + unfold f1 in O2. destruct inc; exact O2.
    + intros w t [X|X]; [inv X; auto|eauto].
Qed.

Lemma map_ids P l v s : map_ok (fun v id => exists d, In d ds /\ d_id d = id /\ P d v) l -> assocS v l = Some s ->
  s <> [] /\ ids_of ds (fun d => P d v) s.
Proof. intros [_ H] E. specialize (H v). rewrite E in H. destruct H as (A & B & C). split; auto. split; auto. Qed.

Lemma build_field_ok m n en : Mok m -> In n fs -> ent_ok n ds en ->
  exists m' f, build_field crc ordm m KStr en = Ok (m', f) /\ Mok m' /\ (forall p t, has L m p t -> has L m' p t) /\ fld_ok m' n f.
Proof.
  intros M N (W & I & X). unfold build_field.
  assert (S1 : exists m1 w, BuildPl crc m (en_wild en) = Ok (m1, w) /\ Mok m1 /\ (forall p t, has L m p t -> has L m1 p t) /\ pl_ok m1 (fun d => open_in d n) w).
  { destruct (en_wild en) as [|x0 l0] eqn:E.
    - exists m, None. cbn [BuildPl]. split; auto. split; auto. split; auto. intros d D O. apply (proj2 W (d_id d)). exists d. auto.
    - rewrite <- E in *. assert (NE : en_wild en <> []) by (rewrite E; discriminate). clear E.
      assert (Fs : F (en_wild en)) by (split; auto; exists n; split; auto).
      destruct (BuildPl_ok crc L F SLL F_sub F_nc m _ M Fs) as (m1 & E1 & M1 & H1 & Mono1). exists m1, (Some (crc (en_wild en))).
      split; auto. split; auto. split; auto. exists (en_wild en). auto. }
  destruct S1 as (m1 & w & E1 & M1 & Mono1 & W1). rewrite E1. cbn [obind].
  assert (PI := OM (en_inc en)). assert (PX := OM (en_exc en)).
  assert (NI : NoDup (map fst (ordm (en_inc en)))) by (eapply Permutation_NoDup; [apply Permutation_map; eauto|apply I]).
  assert (NX : NoDup (map fst (ordm (en_exc en)))) by (eapply Permutation_NoDup; [apply Permutation_map; eauto|apply X]).
  assert (AI : forall v, assocS v (ordm (en_inc en)) = assocS v (en_inc en)) by (intro v; apply assocS_perm; [auto|apply I]).
  assert (AX : forall v, assocS v (ordm (en_exc en)) = assocS v (en_exc en)) by (intro v; apply assocS_perm; [auto|apply X]).
  destruct (build_values_ok (ordm (en_inc en)) m1 (SetWildcards (field0 KStr) w) true M1 eq_refl NI) as (m2 & f2 & E2 & M2 & Mono2 & K2 & W2 & A2 & O2 & T2).
  { intros v s Q. assert (Q' := In_assocS v _ s NI Q). rewrite AI in Q'. destruct (map_ids _ _ _ _ I Q') as [NE ID]. split; auto. exists n. split; auto. right. eauto. }
  rewrite E2. cbn [obind].
  destruct (build_values_ok (ordm (en_exc en)) m2 f2 false M2 K2 NX) as (m3 & f3 & E3 & M3 & Mono3 & K3 & W3 & A3 & O3 & T3).
  { intros v s Q. assert (Q' := In_assocS v _ s NX Q). rewrite AX in Q'. destruct (map_ids _ _ _ _ X Q') as [NE ID]. split; auto. exists n. split; auto. right. eauto. }
  exists m3, f3. rewrite E3. split; auto. split; auto. split; [auto|]. split; auto. split; [|split].
  - rewrite W3, W2. cbn [SetWildcards f_wild]. eapply pl_ok_mono; [|exact W1]. auto.
  - intro v. cbn beta iota in A2, O2, A3, O3. rewrite O3, A2, AI. cbn [SetWildcards field0 f_sinc assocS]. destruct (assocS v (en_inc en)) as [s|] eqn:Q.
    + destruct (map_ids _ _ _ _ I Q) as [NE ID]. exists s. split; auto. split; auto. apply Mono3, (T2 v). apply assocS_In. now rewrite AI.
    + intros d D Wd. destruct I as [_ I]. specialize (I v). rewrite Q in I. apply (I (d_id d)). eauto.
  - intro v. cbn beta iota in A2, O2, A3, O3. rewrite A3, AX, O2. cbn [SetWildcards field0 f_sexc assocS]. destruct (assocS v (en_exc en)) as [s|] eqn:Q.
    + destruct (map_ids _ _ _ _ X Q) as [NE ID]. exists s. split; auto. split; auto. apply (T3 v). apply assocS_In. now rewrite AX.
    + intros d D Wd. destruct X as [_ X]. specialize (X v). rewrite Q in X. apply (X (d_id d)). eauto.
Qed.

Lemma build_fields_ok ents ns : forall m, Mok m -> (forall n, In n ns -> In n fs) ->
  (forall n, In n ns -> exists en, assocS n ents = Some en /\ ent_ok n ds en) ->
  exists m' t, build_fields crc ordm m ents (map (fun f => (f, KStr)) ns) = Ok (m', t) /\ Mok m' /\ (forall p s, has L m p s -> has L m' p s) /\
    map fst t = ns /\ forall n f, In (n, f) t -> fld_ok m' n f.
Proof.
  induction ns as [|n ns IH]; intros m M SUB H; cbn [map build_fields].
  - exists m, []. split; auto. split; auto. split; auto. split; auto. intros ? ? [].
  - destruct (H n (or_introl eq_refl)) as (en & A & E). rewrite A.
    destruct (build_field_ok m n en M (SUB n (or_introl eq_refl)) E) as (m1 & f & E1 & M1 & Mono1 & Ok1). rewrite E1. cbn [obind].
    destruct (IH m1 M1) as (m2 & t & E2 & M2 & Mono2 & T2 & Ok2); [intros; apply SUB; now right|intros; apply H; now right|].
    rewrite E2. cbn [obind]. exists m2, ((n, f) :: t). split; auto. split; auto. split; auto. split; [cbn; now rewrite T2|].
    intros n' f' [X|X]; [inv X; eapply fld_ok_mono; eauto|auto].
Qed.
End B.

Lemma build_index_ok crc ordm fs ds : (forall l, Permutation l (ordm l)) -> no_collision crc fs ds -> NoDup fs ->
  exists x L, build_index crc ordm fs ds = Ok x /\ ids_of ds (fun _ => True) L /\ Mok crc fs ds L (x_mgr x) /\ map fst (x_tab x) = fs /\
    (forall n f, In (n, f) (x_tab x) -> fld_ok ds L (x_mgr x) n f) /\ x_built x = true.
Proof.
  intros OM NC ND. unfold build_index.
  destruct (AddDocuments_ok (map (fun f => (f, KStr)) fs) ds) as (B & A1 & A2 & A3 & A4 & A5 & A6).
  set (x0 := fold_left _ _ _) in *. unfold BuildIndexer. rewrite B, A1, A2.
  assert (IS : idset (x_ids x0)) by apply A4. destruct (SetSorted_ok manager0 _ IS) as [IX TB].
  rewrite map_map in A5. cbn [fst] in A5. rewrite map_id in A5.
  destruct (build_fields_ok crc ordm OM fs ds (x_ids x0) A4 NC (x_ents x0) fs (SetSortedIndexedIds manager0 (x_ids x0))) as (m & t & E & M & _ & T & OK).
  - split; auto. rewrite TB. cbn. discriminate.
  - auto.
  - intros n N. rewrite <- A5 in N. destruct (assocS n (x_ents x0)) as [en|] eqn:Q; [|apply assocS_None in Q; tauto].
    exists en. split; auto. apply A6. now apply assocS_In.
  - rewrite E. cbn [obind]. eexists _, (x_ids x0). split; [reflexivity|]. cbn [x_mgr x_tab x_built]. auto.
Qed.
