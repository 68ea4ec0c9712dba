(** Proofs about the client channels. *)
From Coq Require Import ZArith List Bool Lia.
From Verif.Model Require Import Common ClientChan.
From Verif.Spec Require Import ClientSpec.
From Verif.Proofs Require Import Tac.
Import ListNotations.
Local Open Scope Z_scope.

(** ** Lists *)
Lemma prog_find_in k p r : prog_find k p = Some r -> In (k, r) p.
Proof.
  induction p as [|[k' r'] p IH]; cbn; [discriminate|].
  destruct (k' =? k) eqn:E; intro H.
  - inv H. apply Z.eqb_eq in E. subst. auto.
  - auto.
Qed.
Lemma prog_find_none k p : prog_find k p = None <-> ~ In k (map fst p).
Proof.
  induction p as [|[k' r'] p IH]; cbn; [tauto|].
  destruct (Z.eqb_spec k' k).
  - split; [discriminate|]. intros H. destruct H; auto.
  - rewrite IH. intuition congruence.
Qed.
Lemma prog_find_nodup k p r : NoDup (map fst p) -> In (k, r) p -> prog_find k p = Some r.
Proof.
  induction p as [|[k' r'] p IH]; cbn; [tauto|]. intros N [E|I].
  - inv E. now rewrite Z.eqb_refl.
  - inv N. destruct (Z.eqb_spec k' k); auto.
    subst. exfalso. apply H1. apply (in_map fst) in I. exact I.
Qed.
Lemma in_erase k p e : In e (prog_erase k p) <-> In e p /\ fst e <> k.
Proof. unfold prog_erase. rewrite filter_In. destruct (Z.eqb_spec (fst e) k); cbn; intuition congruence. Qed.
Lemma NoDup_map_filter {A B} (f : A -> B) (g : A -> bool) l : NoDup (map f l) -> NoDup (map f (filter g l)).
Proof.
  induction l; cbn; intro N; [constructor|]. inv N.
  destruct (g a); cbn; auto. constructor; auto.
  intro I. apply H1. apply in_map_iff in I as (x & E & I). apply filter_In in I as [I _].
  rewrite <- E. now apply in_map.
Qed.
Lemma holds_spec r p : prog_holds r p = true <-> In r (map snd p).
Proof.
  unfold prog_holds. rewrite existsb_exists, in_map_iff. split.
  - intros (x & I & E). apply Nat.eqb_eq in E. eauto.
  - intros (x & E & I). exists x. now rewrite E, Nat.eqb_refl.
Qed.
Lemma existsb_In r l : existsb (Nat.eqb r) l = true <-> In r l.
Proof.
  rewrite existsb_exists. split.
  - intros (x & I & E). apply Nat.eqb_eq in E. now subst.
  - intro. exists r. now rewrite Nat.eqb_refl.
Qed.
Lemma in_rm1 r x l : In x (rm1 r l) -> In x l.
Proof. induction l; cbn; [tauto|]. destruct (Nat.eqb a r); cbn; intuition. Qed.
Lemma in_rm1_neq r x l : x <> r -> In x l -> In x (rm1 r l).
Proof.
  induction l; cbn; [tauto|]. intros N [->|I].
  - destruct (Nat.eqb_spec x r); cbn; [tauto|auto].
  - destruct (Nat.eqb_spec a r); cbn; auto.
Qed.
Lemma upd_same f r v : upd_aid f r v r = v.
Proof. unfold upd_aid. now rewrite Nat.eqb_refl. Qed.
Lemma upd_other f r v x : x <> r -> upd_aid f r v x = f x.
Proof. unfold upd_aid. intro. destruct (Nat.eqb_spec x r); congruence. Qed.
Lemma completions_app a b : completions (a ++ b) = completions a ++ completions b.
Proof. induction a as [|[]]; cbn; congruence. Qed.
Lemma completions_of_app r a b : completions_of r (a ++ b) = completions_of r a ++ completions_of r b.
Proof. unfold completions_of. now rewrite completions_app, filter_app, map_app. Qed.
Lemma requests_app a b : requests (a ++ b) = requests a ++ requests b.
Proof. induction a as [|[]]; cbn; congruence. Qed.
Lemma accepted_app a b : accepted_ids (a ++ b) = accepted_ids a ++ accepted_ids b.
Proof. induction a as [|[r i []|r i []| | | |]]; cbn; congruence. Qed.

Lemma oeqb_true o r : oeqb o r = true <-> o = Some r.
Proof. destruct o; cbn; [rewrite Nat.eqb_eq|]; split; congruence. Qed.
Lemma oeqb_false o r : oeqb o r = false <-> o <> Some r.
Proof. rewrite <- oeqb_true. destruct (oeqb o r); split; congruence. Qed.

(** ** Handing results over *)
Definition ev_req (e : cev) := match e with Done r _ | HbDone r _ | Lost r _ => r end.

Lemma hr_other hb del x res hb' e r : handle_response hb del x res = (hb', e) -> x <> r -> completions_of r [e] = [].
Proof.
  unfold handle_response. intros H N.
  destruct (oeqb hb x); [inv H; reflexivity|]. destruct del; inv H; [|reflexivity].
  unfold completions_of; cbn. destruct (Nat.eqb_spec x r); [congruence|reflexivity].
Qed.
Lemma hr_same hb r res : hb <> Some r -> handle_response hb true r res = (hb, Done r res).
Proof. intro H. unfold handle_response. apply oeqb_false in H. now rewrite H. Qed.
Lemma hr_hb hb del x res hb' e r : handle_response hb del x res = (hb', e) -> hb <> Some r -> hb' <> Some r.
Proof. unfold handle_response. intros H N. destruct (oeqb hb x); [inv H; discriminate|]. destruct del; inv H; auto. Qed.
Lemma completions_of_done r res : completions_of r [Done r res] = [res].
Proof. unfold completions_of; cbn. now rewrite Nat.eqb_refl. Qed.

Lemma fail_all_hb rs : forall hb del hb' es r, fail_all hb del rs = (hb', es) -> hb <> Some r -> hb' <> Some r.
Proof.
  induction rs as [|x rs IH]; cbn; intros hb del hb' es r H N; [inv H; auto|].
  destruct (handle_response hb del x RBroken) as [h1 e] eqn:E1.
  destruct (fail_all h1 del rs) as [h2 es2] eqn:E2. inv H.
  eapply IH; eauto. eapply hr_hb; eauto.
Qed.
Lemma fail_all_other rs : forall hb del hb' es r, fail_all hb del rs = (hb', es) -> ~ In r rs -> completions_of r es = [].
Proof.
  induction rs as [|x rs IH]; cbn; intros hb del hb' es r H N; [inv H; auto|].
  destruct (handle_response hb del x RBroken) as [h1 e] eqn:E1.
  destruct (fail_all h1 del rs) as [h2 es2] eqn:E2. inv H.
  change (e :: es2) with ([e] ++ es2). rewrite completions_of_app.
  rewrite (hr_other _ _ _ _ _ _ r E1) by tauto. cbn. eapply IH; eauto.
Qed.
Lemma fail_all_in rs : forall hb hb' es r, fail_all hb true rs = (hb', es) -> NoDup rs -> In r rs -> hb <> Some r ->
  completions_of r es = [RBroken].
Proof.
  induction rs as [|x rs IH]; cbn; intros hb hb' es r H N I NH; [tauto|].
  destruct (handle_response hb true x RBroken) as [h1 e] eqn:E1.
  destruct (fail_all h1 true rs) as [h2 es2] eqn:E2. inv H. inv N.
  change (e :: es2) with ([e] ++ es2). rewrite completions_of_app.
  destruct I as [->|I].
  - rewrite (hr_same _ _ _ NH) in E1. inv E1.
    rewrite completions_of_done, (fail_all_other _ _ _ _ _ _ E2); auto.
  - assert (x <> r) by congruence.
    rewrite (hr_other _ _ _ _ _ _ r E1) by auto. cbn. eapply IH; eauto. eapply hr_hb; eauto.
Qed.

(** ** The async channel against the history [S] of accepted (request, id) pairs *)
Record ainv (S : list (nat * Z)) (c : achan) : Prop := {
  ai_nd1 : NoDup (map fst S);
  ai_nd2 : NoDup (map snd S);
  ai_prog : forall i r, In (i, r) (a_prog c) -> In (r, i) S;
  ai_nd : NoDup (map fst (a_prog c));
  ai_tm : forall r, In r (a_timers c) -> In r (map fst S);
  ai_aid : forall r i, In (r, i) S -> a_aid c r = i
}.

Lemma fst_inj (S : list (nat * Z)) r i j : NoDup (map fst S) -> In (r, i) S -> In (r, j) S -> i = j.
Proof.
  induction S as [|[a b] S IH]; cbn; [tauto|]. intros N I J. inv N.
  destruct I as [I|I], J as [J|J].
  - congruence.
  - inv I. exfalso. apply H1. apply (in_map fst) in J. exact J.
  - inv J. exfalso. apply H1. apply (in_map fst) in I. exact I.
  - auto.
Qed.
Lemma snd_inj (S : list (nat * Z)) r q i : NoDup (map snd S) -> In (r, i) S -> In (q, i) S -> r = q.
Proof.
  induction S as [|[a b] S IH]; cbn; [tauto|]. intros N I J. inv N.
  destruct I as [I|I], J as [J|J].
  - congruence.
  - inv I. exfalso. apply H1. apply (in_map snd) in J. exact J.
  - inv J. exfalso. apply H1. apply (in_map snd) in I. exact I.
  - auto.
Qed.

Lemma ainv_fresh : ainv [] a_fresh.
Proof. constructor; cbn; try constructor; tauto. Qed.

Definition op_new (o : aop) : list (nat * Z) :=
  match o with
  | ASend r i true | AHeartbeat r i true => [(r, i)]
  | _ => []
  end.
Definition op_req (o : aop) : list nat :=
  match o with ASend r _ _ | AHeartbeat r _ _ => [r] | _ => [] end.

Lemma nodup_snoc {A} (l : list A) x : NoDup l -> ~ In x l -> NoDup (l ++ [x]).
Proof.
  induction l; cbn; intros N I; [repeat constructor; tauto|]. inv N. constructor.
  - rewrite in_app_iff. cbn. intuition.
  - apply IHl; tauto.
Qed.

Lemma ainv_send S c r i ok c' es :
  ainv S c -> ~ In r (map fst S) -> (ok = true -> ~ In i (map snd S)) ->
  a_send c r i ok = (c', es) ->
  ainv (if ok then (r, i) :: S else S) c'.
Proof.
  intros [] NR NI H. unfold a_send in H. destruct ok.
  - inv H. rewrite upd_same.
    assert (F : prog_find i (a_prog c) = None).
    { apply prog_find_none. intro I. apply in_map_iff in I as ([k q] & E & I). cbn in E. subst.
      apply ai_prog0 in I. apply NI; auto. apply (in_map snd) in I. exact I. }
    unfold prog_insert. rewrite F.
    constructor; cbn.
    + constructor; auto.
    + constructor; auto.
    + intros k q I. apply in_app_or in I as [I|[I|[]]]; [right; auto|inv I; auto].
    + rewrite map_app. cbn. apply nodup_snoc; auto. now apply prog_find_none.
    + intros q I. apply in_app_or in I as [I|[I|[]]]; auto.
    + intros q k [E|I]; [inv E; apply upd_same|].
      rewrite upd_other; auto. intros ->. apply NR. apply (in_map fst) in I. exact I.
  - destruct (handle_response (a_hb c) (a_del c) r RBroken) as [hb e] eqn:E. inv H.
    constructor; cbn; auto.
    intros q k I. rewrite upd_other; auto. intros ->. apply NR. apply (in_map fst) in I. exact I.
Qed.

Definition settled (r : nat) (c : achan) : Prop := ~ In r (map snd (a_prog c)) /\ a_hb c <> Some r.
Definition flying (r : nat) (i : Z) (c : achan) : Prop :=
  In (i, r) (a_prog c) /\ a_hb c <> Some r /\ a_del c = true /\ In r (a_timers c).

Lemma in_prog_snd (i : Z) (r : nat) p : In (i, r) p -> In r (map snd p).
Proof. intro H. apply (in_map snd) in H. exact H. Qed.

(** Sending another request. *)
Lemma send_other c x i ok c' es r :
  a_send c x i ok = (c', es) -> x <> r ->
  completions_of r es = [] /\ (settled r c -> settled r c') /\
  (forall j, flying r j c -> flying r j c') /\ a_del c' = a_del c.
Proof.
  intros H N. unfold a_send in H. destruct ok.
  - inv H. split; [reflexivity|]. unfold settled, flying; cbn.
    assert (P : forall e, In e (prog_insert (upd_aid (a_aid c) x i x) x (a_prog c)) ->
                In e (a_prog c) \/ snd e = x).
    { unfold prog_insert. destruct (prog_find _ _); auto.
      intros e I. apply in_app_or in I as [I|[<-|[]]]; auto. }
    assert (P2 : forall e, In e (a_prog c) -> In e (prog_insert (upd_aid (a_aid c) x i x) x (a_prog c))).
    { unfold prog_insert. destruct (prog_find _ _); auto. intros. apply in_or_app; auto. }
    split; [|split; [|reflexivity]].
    + intros [A B]. split; auto. intro I. apply in_map_iff in I as (e & E & I).
      destruct (P _ I); [|congruence]. apply A. apply in_map_iff. eauto.
    + intros j (A & B & C & D). repeat split; auto. apply in_or_app; auto.
  - destruct (handle_response (a_hb c) (a_del c) x RBroken) as [hb e] eqn:E. inv H.
    split; [eapply hr_other; eauto|]. unfold settled, flying; cbn.
    split; [|split; [|reflexivity]].
    + intros [A B]. split; auto. eapply hr_hb; eauto.
    + intros j (A & B & C & D). repeat split; auto. eapply hr_hb; eauto.
Qed.

Definition quiet_or (r : nat) (i : Z) (c c' : achan) (o : aop) (es : list cev) : Prop :=
  flying r i c ->
  match fate r i [o] with
  | Some res => completions_of r es = [res] /\ settled r c'
  | None => completions_of r es = [] /\ flying r i c'
  end.

Lemma erase_settled S c r i hb ts p : ainv S c -> In (r, i) S -> hb <> Some r ->
  p = prog_erase i (a_prog c) ->
  settled r {| a_prog := p; a_del := a_del c; a_hb := hb; a_aid := a_aid c; a_timers := ts |}.
Proof.
  intros [] IS NH ->. split; cbn; auto. intro I. apply in_map_iff in I as ([k q] & E & I). cbn in E. subst q.
  apply in_erase in I as [I NE]. cbn in NE. apply ai_prog0 in I. apply NE. eapply (fst_inj S); eauto.
Qed.

Lemma a_timeout_ok S c x al c' es r :
  ainv S c -> a_timeout c x al = (c', es) ->
  ainv S c' /\ a_del c' = a_del c /\
  (settled r c -> completions_of r es = [] /\ settled r c') /\
  (forall i, In (r, i) S -> quiet_or r i c c' (ATimeout x al) es).
Proof.
  intros A H. pose proof A as []. unfold a_timeout in H.
  destruct (existsb (Nat.eqb x) (a_timers c)) eqn:ET.
  2:{ inv H. split; [auto|]. split; [auto|]. split; [intro; split; auto|].
      intros i IS F. cbn. destruct (Nat.eqb_spec x r).
      - subst. destruct F as (_ & _ & _ & T). apply existsb_In in T. congruence.
      - split; auto. }
  apply existsb_In in ET.
  assert (A1 : ainv S {| a_prog := a_prog c; a_del := a_del c; a_hb := a_hb c; a_aid := a_aid c; a_timers := rm1 x (a_timers c) |}).
  { constructor; cbn; auto. intros q I. apply ai_tm0. eapply in_rm1; eauto. }
  assert (NOTHING : c' = {| a_prog := a_prog c; a_del := a_del c; a_hb := a_hb c; a_aid := a_aid c; a_timers := rm1 x (a_timers c) |} ->
     es = [] -> (forall i, ~ In (i, x) (a_prog c)) ->
     ainv S c' /\ a_del c' = a_del c /\
     (settled r c -> completions_of r es = [] /\ settled r c') /\
     (forall i, In (r, i) S -> quiet_or r i c c' (ATimeout x al) es)).
  { intros -> -> NX. split; [auto|]. split; [auto|]. split; [intro; split; auto|].
    intros i IS F. cbn. destruct F as (F1 & F2 & F3 & F4). destruct (Nat.eqb_spec x r).
    - subst. exfalso. eapply NX; eauto.
    - split; auto. repeat split; cbn; auto. apply in_rm1_neq; auto. }
  assert (XS : exists j, In (x, j) S).
  { apply ai_tm0 in ET. apply in_map_iff in ET as ([q j] & E & I). cbn in E. subst. eauto. }
  destruct XS as [j XS]. pose proof (ai_aid0 _ _ XS) as AJ.
  destruct (al || prog_holds x (a_prog c) || oeqb (a_hb c) x) eqn:AL.
  - destruct (prog_find (a_aid c x) (a_prog c)) eqn:F.
    + destruct (handle_response (a_hb c) (a_del c) x RTimeout) as [hb e] eqn:HE. inv H.
      apply prog_find_in in F. pose proof (ai_prog0 _ _ F) as FS.
      assert (n = x) by (eapply (snd_inj S); eauto). subst n.
      split; [|split; [auto|split]].
      * constructor; cbn; auto.
        -- intros k q I. apply in_erase in I as [I _]. auto.
        -- apply NoDup_map_filter; auto.
        -- intros q I. apply ai_tm0. eapply in_rm1; eauto.
      * intros [B1 B2]. destruct (Nat.eq_dec x r).
        -- subst x. exfalso. apply B1. eapply in_prog_snd; eauto.
        -- split; [eapply hr_other; eauto|]. split; cbn.
           ++ intro I. apply B1. apply in_map_iff in I as (e0 & E & I). apply in_erase in I as [I _].
              apply in_map_iff. eauto.
           ++ eapply hr_hb; eauto.
      * intros i IS Fl. cbn. destruct Fl as (F1 & F2 & F3 & F4). destruct (Nat.eqb_spec x r).
        -- subst x. rewrite F3 in HE. rewrite (hr_same _ _ _ F2) in HE. inv HE.
           split; [apply completions_of_done|]. eapply (erase_settled S c r (a_aid c r)); eauto.
        -- split; [eapply hr_other; eauto|]. repeat split; cbn; auto.
           ++ apply in_erase. cbn. split; auto. intro. subst i. apply n. eapply (snd_inj S); eauto.
           ++ eapply hr_hb; eauto.
           ++ apply in_rm1_neq; auto.
    + inv H. apply NOTHING; auto. intros i I. apply prog_find_none in F. apply F.
      assert (i = a_aid c x) by (symmetry; apply ai_aid0; auto). subst i.
      apply (in_map fst) in I. exact I.
  - b2p. inv H. apply NOTHING; auto. intros i I. apply in_prog_snd in I. apply holds_spec in I. congruence.
Qed.

Lemma a_response_ok S c i m r :
  ainv S c ->
  exists c' es, a_response c i m = Ok (c', es) /\ ainv S c' /\ a_del c' = a_del c /\
  (settled r c -> completions_of r es = [] /\ settled r c') /\
  (forall j, In (r, j) S -> quiet_or r j c c' (AResponse i m) es).
Proof.
  intros A. pose proof A as []. unfold a_response.
  destruct (prog_find i (a_prog c)) as [x|] eqn:F.
  - apply prog_find_in in F. pose proof (ai_prog0 _ _ F) as FS.
    pose proof (ai_aid0 _ _ FS) as AX. rewrite AX, Z.eqb_refl.
    destruct (handle_response (a_hb c) (a_del c) x (RResp m)) as [hb e] eqn:HE.
    eexists _, _. split; [reflexivity|]. split; [|split; [auto|split]].
    + constructor; cbn; auto.
      * intros k q I. apply in_erase in I as [I _]. auto.
      * apply NoDup_map_filter; auto.
    + intros [B1 B2]. destruct (Nat.eq_dec x r).
      * subst x. exfalso. apply B1. eapply in_prog_snd; eauto.
      * split; [eapply hr_other; eauto|]. split; cbn.
        -- intro I. apply B1. apply in_map_iff in I as (e0 & E & I). apply in_erase in I as [I _].
           apply in_map_iff. eauto.
        -- eapply hr_hb; eauto.
    + intros j IS (F1 & F2 & F3 & F4). cbn. destruct (Z.eqb_spec i j).
      * subst j. assert (x = r) by (eapply (snd_inj S); eauto). subst x.
        rewrite F3 in HE. rewrite (hr_same _ _ _ F2) in HE. inv HE.
        split; [apply completions_of_done|]. eapply (erase_settled S c r (a_aid c r)); eauto.
      * assert (x <> r). { intros ->. apply n. eapply (fst_inj S); eauto. }
        split; [eapply hr_other; eauto|]. repeat split; cbn; auto.
        -- apply in_erase. cbn. split; auto.
        -- eapply hr_hb; eauto.
  - eexists _, _. split; [reflexivity|]. split; [auto|]. split; [auto|]. split; [intro; split; auto|].
    intros j IS Fl. cbn. destruct (Z.eqb_spec i j); [|split; auto].
    subst j. exfalso. destruct Fl as (F1 & _). apply prog_find_none in F. apply F.
    apply (in_map fst) in F1. exact F1.
Qed.

Lemma prog_values_nodup S c : ainv S c -> NoDup (map snd (a_prog c)).
Proof.
  intros []. clear ai_tm0 ai_aid0. induction (a_prog c) as [|[k q] p IH]; cbn; [constructor|].
  cbn in ai_nd0. inv ai_nd0. constructor.
  - intro I. apply in_map_iff in I as ([k' q'] & E & I). cbn in E. subst q'.
    assert (k' = k). { eapply (fst_inj S _ _ _ ai_nd3); apply ai_prog0; cbn; [right; exact I|left; reflexivity]. }
    subst. apply H1. apply (in_map fst) in I. exact I.
  - apply IH; auto. intros; apply ai_prog0; cbn; auto.
Qed.

Lemma a_fail_ok S c c' es r :
  ainv S c -> a_fail_all c = (c', es) ->
  ainv S c' /\ a_del c' = a_del c /\ a_prog c' = [] /\
  (settled r c -> completions_of r es = [] /\ settled r c') /\
  (forall j, flying r j c -> completions_of r es = [RBroken] /\ settled r c').
Proof.
  intros A H. pose proof A as []. unfold a_fail_all in H.
  destruct (fail_all (a_hb c) (a_del c) (map snd (a_prog c))) as [hb es'] eqn:E. inv H.
  split; [|split; [auto|split; [auto|split]]].
  - constructor; cbn; auto; try tauto. constructor.
  - intros [B1 B2]. split; [eapply fail_all_other; eauto|]. split; cbn; [tauto|]. eapply fail_all_hb; eauto.
  - intros j (F1 & F2 & F3 & F4). split.
    + rewrite F3 in E. eapply fail_all_in; [exact E|eapply prog_values_nodup; eauto|eapply in_prog_snd; eauto|auto].
    + split; cbn; [tauto|]. eapply fail_all_hb; eauto.
Qed.

Lemma a_close_ok S c c' es r :
  ainv S c -> a_close c = (c', es) ->
  ainv S c' /\
  (settled r c -> completions_of r es = [] /\ settled r c') /\
  (forall j, flying r j c -> completions_of r es = [RBroken] /\ settled r c').
Proof.
  intros A H. unfold a_close in H.
  destruct (a_fail_all c) as [c1 e1] eqn:E1.
  destruct (a_fail_all _) as [c2 e2] eqn:E2 in H. inv H.
  destruct (a_fail_ok S c c1 e1 r A E1) as (A1 & D1 & P1 & S1 & F1).
  assert (A1' : ainv S {| a_prog := a_prog c1; a_del := false; a_hb := a_hb c1; a_aid := a_aid c1; a_timers := a_timers c1 |}).
  { destruct A1. constructor; cbn; auto. }
  destruct (a_fail_ok S _ c' e2 r A1' E2) as (A2 & D2 & P2 & S2 & F2).
  split; [auto|]. split.
  - intro B. destruct (S1 B) as [B1 B2]. destruct (S2 B2) as [B3 B4].
    rewrite completions_of_app, B1, B3. auto.
  - intros j B. destruct (F1 j B) as [B1 B2]. destruct (S2 B2) as [B3 B4].
    rewrite completions_of_app, B1, B3. auto.
Qed.

(** One step, seen from a request [r] that is not being submitted by it. *)
Lemma astep_ok S c o r :
  ainv S c -> (forall x, In x (op_req o) -> ~ In x (map fst S)) ->
  (forall x i, In (x, i) (op_new o) -> ~ In i (map snd S)) -> ~ In r (op_req o) ->
  exists c' es, astep c o = Ok (c', es) /\ 
    (exists S', ainv S' c' /\ incl S S' /\ incl S' (op_new o ++ S)) /\
    (o <> AClose -> a_del c' = a_del c) /\
    (settled r c -> completions_of r es = [] /\ settled r c') /\
    (forall j, In (r, j) S -> quiet_or r j c c' o es).
Proof.
  intros A NR NI NO. destruct o as [x i ok|x i ok|x al|i m| |]; cbn [astep op_req] in *.
  - destruct (a_send c x i ok) as [c' es] eqn:E. exists c', es. split; [auto|].
    assert (XR : x <> r) by (cbn in NO; tauto).
    destruct (send_other _ _ _ _ _ _ r E XR) as (B1 & B2 & B3 & B4).
    split; [|split; [auto|split]].
    + exists (if ok then (x, i) :: S else S). split; [|split].
      * eapply ainv_send; eauto. { apply NR; cbn; auto. } intros ->. eapply NI. cbn. eauto.
      * destruct ok; [apply incl_tl|]; apply incl_refl.
      * destruct ok; cbn; apply incl_refl.
    + auto.
    + intros j IS F. cbn. auto.
  - unfold a_heartbeat. destruct (a_hb c) eqn:HB.
    + exists c, []. split; [auto|]. split; [|split; [auto|split]].
      * exists S. split; auto. split; [apply incl_refl|]. destruct ok; cbn; [apply incl_tl|]; apply incl_refl.
      * auto.
      * intros j IS F. cbn. auto.
    + set (c0 := {| a_prog := a_prog c; a_del := a_del c; a_hb := Some x; a_aid := a_aid c; a_timers := a_timers c |}).
      assert (XR : x <> r) by (cbn in NO; tauto).
      assert (A0 : ainv S c0) by (destruct A; constructor; cbn; auto).
      assert (G1 : settled r c -> settled r c0).
      { intros [? ?]. split; cbn; auto. congruence. }
      assert (G2 : forall j, flying r j c -> flying r j c0).
      { intros j (? & ? & ? & ?). repeat split; cbn; auto. congruence. }
      destruct (a_send c0 x i ok) as [c' es] eqn:E. exists c', es. split; [auto|].
      destruct (send_other _ _ _ _ _ _ r E XR) as (B1 & B2 & B3 & B4).
      split; [|split; [auto|split]].
      * exists (if ok then (x, i) :: S else S). split; [|split].
        -- eapply ainv_send; eauto. { apply NR; cbn; auto. } intros ->. eapply NI. cbn. eauto.
        -- destruct ok; [apply incl_tl|]; apply incl_refl.
        -- destruct ok; cbn; apply incl_refl.
      * auto.
      * intros j IS F. cbn. auto.
  - destruct (a_timeout c x al) as [c' es] eqn:E. exists c', es. split; [auto|].
    destruct (a_timeout_ok _ _ _ _ _ _ r A E) as (B1 & B2 & B3 & B4).
    split; [exists S; split; auto; split; apply incl_refl|]. split; auto.
  - destruct (a_response_ok S c i m r A) as (c' & es & E & B1 & B2 & B3 & B4).
    exists c', es. split; [auto|]. split; [exists S; split; auto; split; apply incl_refl|]. split; auto.
  - destruct (a_fail_all c) as [c' es] eqn:E. exists c', es. split; [auto|].
    destruct (a_fail_ok _ _ _ _ r A E) as (B1 & B2 & _ & B3 & B4).
    split; [exists S; split; auto; split; apply incl_refl|]. split; [auto|]. split; [auto|].
    intros j IS F. cbn. eauto.
  - destruct (a_close c) as [c' es] eqn:E. exists c', es. split; [auto|].
    destruct (a_close_ok _ _ _ _ r A E) as (B1 & B3 & B4).
    split; [exists S; split; auto; split; apply incl_refl|]. split; [tauto|]. split; [auto|].
    intros j IS F. cbn. eauto.
Qed.

(** Histories: [hist R I] the message objects and ids used so far. *)
Definition fresh_for (R : list nat) (I : list Z) (os : list aop) : Prop :=
  NoDup (requests os) /\ NoDup (accepted_ids os) /\
  (forall x, In x (requests os) -> ~ In x R) /\ (forall i, In i (accepted_ids os) -> ~ In i I).

Lemma fresh_cons R I o os : fresh_for R I (o :: os) ->
  fresh_for (op_req o ++ R) (map snd (op_new o) ++ I) os /\
  (forall x, In x (op_req o) -> ~ In x R) /\ (forall x i, In (x, i) (op_new o) -> ~ In i I).
Proof.
  intros (A & B & C & D).
  destruct o as [x i [|]|x i [|]| | | |]; cbn in *; split;
    (split; [intros x'|intros x' i']) || (unfold fresh_for; repeat split; auto); cbn in *;
    repeat match goal with H : NoDup (_ :: _) |- _ => inv H end; auto;
    try (intuition (subst; eauto; fail)).
  all: try (intros y Hy [E|E]; [subst; auto|eapply C; eauto]; fail).
  all: try (intros y Hy [E|E]; [subst; auto|eapply D; eauto]; fail).
  all: try (intros [E|[]] ; inv E; eapply D; eauto; fail).
Qed.

Definition bounded (R : list nat) (I : list Z) (S : list (nat * Z)) : Prop :=
  incl (map fst S) R /\ incl (map snd S) I.

Lemma bounded_step R I S S' o : bounded R I S -> incl S' (op_new o ++ S) ->
  bounded (op_req o ++ R) (map snd (op_new o) ++ I) S'.
Proof.
  intros [A B] H. split; intros x J; apply in_map_iff in J as ([q k] & E & J); cbn in E; subst;
    apply H in J; apply in_app_or in J as [J|J]; apply in_or_app.
  - left. destruct o as [y i [|]|y i [|]| | | |]; cbn in *; try tauto; destruct J as [J|[]]; inv J; auto.
  - right. apply A. apply (in_map fst) in J. exact J.
  - left. apply (in_map snd) in J. exact J.
  - right. apply B. apply (in_map snd) in J. exact J.
Qed.

Lemma requests_cons o os : requests (o :: os) = op_req o ++ requests os.
Proof. destruct o; reflexivity. Qed.

Lemma fate_cons r i o os : fate r i (o :: os) = match fate r i [o] with Some x => Some x | None => fate r i os end.
Proof. destruct o; cbn; try reflexivity; destruct (_ =? _) || destruct (Nat.eqb _ _); reflexivity. Qed.

Lemma arun_settled os : forall R I S c r,
  ainv S c -> bounded R I S -> fresh_for R I os -> ~ In r (requests os) -> settled r c ->
  exists c' es S', arun c os = Ok (c', es) /\ completions_of r es = [] /\ settled r c' /\
    ainv S' c' /\ incl S S' /\
    bounded (requests os ++ R) (accepted_ids os ++ I) S' /\
    (~ In AClose os -> a_del c' = a_del c).
Proof.
  induction os as [|o os IH]; intros R I S c r A B F NR SE.
  - exists c, [], S. cbn. split; [reflexivity|]. repeat (split; auto). apply incl_refl.
  - destruct (fresh_cons _ _ _ _ F) as (F' & NR1 & NI1). destruct B as [B1 B2].
    rewrite requests_cons in NR. rewrite in_app_iff in NR.
    destruct (astep_ok S c o r A) as (c1 & e1 & E1 & (S1 & A1 & I1 & I2) & D1 & P1 & Q1).
    { intros x J K. eapply NR1; eauto. }
    { intros x i J K. eapply NI1; eauto. }
    { tauto. }
    destruct (P1 SE) as [C1 SE1].
    destruct (IH _ _ S1 c1 r A1 (bounded_step _ _ _ _ _ (conj B1 B2) I2) F') as (c2 & e2 & S2 & E2 & C2 & SE2 & A2 & J2 & K2 & D2); [tauto|auto|].
    exists c2, (e1 ++ e2), S2. cbn [arun]. rewrite E1. cbn. rewrite E2. cbn.
    split; [reflexivity|]. split; [now rewrite completions_of_app, C1, C2|].
    split; [auto|]. split; [auto|]. split; [eapply incl_tran; eauto|]. split.
    + destruct K2 as [K2 K3]. split; intros x Hx.
      * apply K2 in Hx. rewrite ?requests_cons, !in_app_iff in *. destruct o as [y i [|]|y i [|]| | | |]; cbn in *; tauto.
      * apply K3 in Hx. rewrite !in_app_iff in *. destruct o as [y i [|]|y i [|]| | | |]; cbn in *; tauto.
    + intro NC. rewrite D2 by (intro; apply NC; right; auto). apply D1. intros ->. apply NC. left; auto.
Qed.

Lemma arun_flying os : forall R I S c r i,
  ainv S c -> bounded R I S -> fresh_for R I os -> In (r, i) S -> flying r i c ->
  exists c' es, arun c os = Ok (c', es) /\ completions_of r es = opt_list (fate r i os).
Proof.
  induction os as [|o os IH]; intros R I S c r i A B F IS FL.
  - exists c, []. cbn. auto.
  - destruct (fresh_cons _ _ _ _ F) as (F' & NR1 & NI1). destruct B as [B1 B2].
    assert (RS : In r (map fst S)) by (apply (in_map fst) in IS; exact IS).
    destruct (astep_ok S c o r A) as (c1 & e1 & E1 & (S1 & A1 & I1 & I2) & D1 & P1 & Q1).
    { intros x J K. eapply NR1; eauto. }
    { intros x j J K. eapply NI1; eauto. }
    { intro J. eapply NR1; eauto. }
    specialize (Q1 i IS FL). rewrite fate_cons.
    pose proof (bounded_step _ _ _ _ _ (conj B1 B2) I2) as BS.
    destruct (fate r i [o]) as [res|] eqn:FT.
    + destruct Q1 as [C1 SE1].
      destruct (arun_settled os _ _ S1 c1 r A1 BS F') as (c2 & e2 & S2 & E2 & C2 & _); [|auto|].
      { destruct F' as (_ & _ & G & _). intro J. apply G in J. apply J. apply in_or_app. right. auto. }
      exists c2, (e1 ++ e2). cbn [arun]. rewrite E1. cbn. rewrite E2. cbn.
      split; [reflexivity|]. now rewrite completions_of_app, C1, C2.
    + destruct Q1 as [C1 FL1].
      destruct (IH _ _ S1 c1 r i A1 BS F' (I1 _ IS) FL1) as (c2 & e2 & E2 & C2).
      exists c2, (e1 ++ e2). cbn [arun]. rewrite E1. cbn. rewrite E2. cbn.
      split; [reflexivity|]. now rewrite completions_of_app, C1, C2.
Qed.

Lemma arun_app os1 : forall c os2, arun c (os1 ++ os2) =
  obind (arun c os1) (fun '(c1, es) => obind (arun c1 os2) (fun '(c2, es') => Ok (c2, es ++ es'))).
Proof.
  induction os1 as [|o os1 IH]; intros c os2; cbn.
  - destruct (arun c os2) as [[c2 es]| |]; reflexivity.
  - destruct (astep c o) as [[c1 e1]| |]; cbn; auto. rewrite IH.
    destruct (arun c1 os1) as [[c2 e2]| |]; cbn; auto.
    destruct (arun c2 os2) as [[c3 e3]| |]; cbn; auto. now rewrite app_assoc.
Qed.

Lemma NoDup_app_parts {A} (a b : list A) : NoDup (a ++ b) -> NoDup a /\ NoDup b /\ (forall x, In x a -> ~ In x b).
Proof.
  induction a; cbn; intro N; [repeat split; auto; constructor|]. inv N. destruct (IHa H2) as (P & Q & U).
  rewrite in_app_iff in H1. repeat split; auto. { constructor; tauto. }
  intros x [->|I]; auto.
Qed.

Theorem async_exact pre r i ok post :
  NoDup (requests (pre ++ ASend r i ok :: post)) ->
  NoDup (accepted_ids (pre ++ ASend r i ok :: post)) ->
  ~ In AClose pre ->
  exists c es, arun a_fresh (pre ++ ASend r i ok :: post) = Ok (c, es) /\
    completions_of r es = if ok then opt_list (fate r i post) else [RBroken].
Proof.
  intros ND NI NC. rewrite requests_app in ND. cbn in ND. rewrite accepted_app in NI.
  apply NoDup_app_parts in ND as (N1 & N2 & N3). apply NoDup_app_parts in NI as (M1 & M2 & M3). inv N2.
  assert (F1 : fresh_for [] [] pre) by (repeat split; auto).
  assert (B0 : bounded [] [] []) by (split; apply incl_refl).
  destruct (arun_settled pre [] [] [] a_fresh r ainv_fresh B0 F1) as (c1 & e1 & S1 & E1 & C1 & SE1 & A1 & _ & BB & D1).
  { intro J. apply (N3 _ J). left; auto. }
  { split; cbn; [tauto|discriminate]. }
  specialize (D1 NC). cbn in D1. rewrite arun_app, E1. cbn [obind arun astep].
  rewrite !app_nil_r in BB.
  destruct (a_send c1 r i ok) as [c2 e2] eqn:E2.
  assert (RN : ~ In r (map fst S1)).
  { intro J. apply BB in J. apply (N3 _ J). left; auto. }
  assert (A2 : ainv (if ok then (r, i) :: S1 else S1) c2).
  { eapply ainv_send; eauto. intros -> J. apply BB in J. apply (M3 _ J). cbn. auto. }
  assert (F2 : fresh_for (r :: requests pre) (if ok then i :: accepted_ids pre else accepted_ids pre) post).
  { assert (NoDup (accepted_ids post)) by (destruct ok; cbn in M2; [inv M2|]; auto).
    repeat split; auto.
    - intros x J [->|K]; [auto|]. apply (N3 _ K). right; auto.
    - intros j J K. destruct ok; cbn in *.
      + inv M2. destruct K as [->|K]; [auto|]. apply (M3 _ K). auto.
      + apply (M3 _ K). auto. }
  assert (B2 : bounded (r :: requests pre) (if ok then i :: accepted_ids pre else accepted_ids pre) (if ok then (r, i) :: S1 else S1)).
  { destruct BB as [K1 K2]. destruct ok; split; cbn; intros x [J|J] || intros x J; subst; cbn; auto;
    try (right; apply K1; exact J); try (right; apply K2; exact J). }
  destruct SE1 as [G1 G2]. destruct ok.
  - destruct (arun_flying post _ _ _ c2 r i A2 B2 F2) as (c3 & e3 & E3 & C3); [left; auto| |].
    { unfold a_send in E2. inv E2. repeat split; cbn; auto.
      - rewrite upd_same. unfold prog_insert.
        replace (prog_find i (a_prog c1)) with (@None nat).
        + apply in_or_app. right. left. auto.
        + symmetry. apply prog_find_none. intro J. apply in_map_iff in J as ([k q] & E & J). cbn in E. subst k.
          destruct A1 as [_ _ AP _ _ _]. apply AP in J. apply (in_map snd) in J. cbn in J.
          apply BB in J. apply (M3 _ J). cbn; auto.
      - apply in_or_app. right. left. auto. }
    exists c3, (e1 ++ e2 ++ e3). rewrite E3. cbn. split; [reflexivity|].
    rewrite !completions_of_app, C1, C3. unfold a_send in E2. inv E2. reflexivity.
  - unfold a_send in E2. rewrite D1, (hr_same _ _ _ G2) in E2. inv E2.
    destruct (arun_settled post _ _ _ _ r A2 B2 F2) as (c3 & e3 & S3 & E3 & C3 & _); auto.
    { split; auto. }
    exists c3, (e1 ++ [Done r RBroken] ++ e3). rewrite E3. cbn [obind]. split; [reflexivity|].
    rewrite !completions_of_app, C1, C3, completions_of_done. reflexivity.
Qed.
