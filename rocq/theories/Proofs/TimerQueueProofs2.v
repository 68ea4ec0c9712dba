(** Timers fire on time (without cancellation), cancelled timers never, identifiers are not shared. *)
From Coq Require Import Permutation.
From Verif.Model Require Import Common TimerQueue.
From Verif.Spec Require Import WaitSpec.
From Verif.Proofs Require Import Tac TimerQueueProofs.
Local Open Scope Z_scope.

Lemma fires_app q q' x now i : fired q' = fired q ++ [(x, now)] -> fires q' i = fires q i ++ if Nat.eqb x i then [now] else [].
Proof. intros E. unfold fires. rewrite E, filter_app, map_app. cbn. destruct (Nat.eqb x i); reflexivity. Qed.
Lemma fires_same q q' i : fired q' = fired q -> fires q' i = fires q i.
Proof. intros E. unfold fires. rewrite E. reflexivity. Qed.
Definition uniq (q : tq) : Prop := forall i j a b, owner q i = Some a -> owner q j = Some b -> tid a = tid b -> i = j.
Definition absent (q : tq) (i : nat) : Prop := forall id t, owner q id = Some t -> tid t <> i.
Definition tids (os : list op) : list nat := map tid (added os).
Lemma added_cons o os : added (o :: os) = (match o with OAdd t => [t] | _ => [] end) ++ added os. Proof. reflexivity. Qed.

(** What a step does to the owners: at most one identifier changes. *)
Lemma step_owner q o q' : ranged q -> kind q -> (match o with OAdd t => patient t | _ => True end) -> step q o = Ok q' ->
  exists id x, (forall j, owner q' j = if Nat.eqb id j then x else owner q j) /\
    match o with
    | OAdd t => x = Some t /\ fired q' = fired q
    | OCancel id' => id' = id /\ x = None /\ fired q' = fired q
    | OExpire _ now _ => (x = owner q id /\ fired q' = fired q) \/
        exists tm, owner q id = Some tm /\ fired q' = fired q ++ [(tid tm, now)] /\ (x = None \/ exists d, x = Some (Timer (tid tm) d false (interval tm)))
    end.
Proof.
  intros R K P H. destruct o as [t|id|k now now2]; cbn [step] in H.
  - destruct (add_ok q t R) as (q1 & id & A & _ & F & _ & O & _). rewrite A in H. cbn in H. inv H. exists id, (Some t). auto.
  - destruct (cancel_spec q id R) as (_ & F & _ & O & _). inv H. exists id, None. auto.
  - destruct (expire_ok q k now now2 R K) as (q1 & E & _ & _ & X). rewrite E in H. inv H.
    destruct X as [-> |(t & id & h & _ & _ & _ & X)].
    + exists 0%nat, (owner q 0). split; [intros j; destruct (Nat.eqb 0 j) eqn:Q; [apply Nat.eqb_eq in Q; subst; reflexivity|reflexivity]|]. left. auto.
    + destruct (owner q id) as [tm|] eqn:O.
      * destruct X as [F X]. destruct (once tm).
        -- destruct X as (_ & _ & X). exists id, None. split; [exact X|]. right. exists tm. auto.
        -- cbn zeta in X. destruct X as (_ & _ & X). eexists. eexists. split; [exact X|]. right. exists tm. split; [exact O|]. split; [exact F|]. right. eauto.
      * subst q'. exists id, None. split; [|left; auto]. intros j. change (owner q j = if Nat.eqb id j then None else owner q j).
        destruct (Nat.eqb id j) eqn:Q; [apply Nat.eqb_eq in Q; subst; exact O|reflexivity].
Qed.
(** A timer that is in no slot does not fire. *)
Lemma absent_step q o q' i : ranged q -> kind q -> (match o with OAdd t => patient t | _ => True end) -> step q o = Ok q' -> absent q i ->
  (match o with OAdd t => tid t <> i | _ => True end) -> absent q' i /\ fires q' i = fires q i.
Proof.
  intros R K P H A N. destruct (step_owner q o q' R K P H) as (id & x & O & X). split.
  - intros j t Ho. rewrite O in Ho. destruct (Nat.eqb id j); [|exact (A _ _ Ho)]. subst x. destruct o as [t0|id0|k now now2].
    + destruct X as [X _]. inv X. exact N.
    + destruct X as (_ & X & _). discriminate.
    + destruct X as [[X _]|(tm & Hm & _ & [X|(d & X)])]; [symmetry in X; exact (A _ _ X)|discriminate|]. inv X. exact (A _ _ Hm).
  - destruct o as [t0|id0|k now now2].
    + apply fires_same. tauto.
    + apply fires_same. tauto.
    + destruct X as [[_ X]|(tm & Hm & F & _)]; [apply fires_same; exact X|]. rewrite (fires_app _ _ _ _ _ F).
      assert (Q : Nat.eqb (tid tm) i = false) by (apply Nat.eqb_neq; exact (A _ _ Hm)). rewrite Q. apply app_nil_r.
Qed.
Lemma absent_run os : forall q q' i, ranged q -> kind q -> (forall t, In t (added os) -> patient t) -> run q os = Ok q' -> absent q i -> ~ In i (tids os) ->
  absent q' i /\ fires q' i = fires q i.
Proof.
  induction os as [|o os IH]; intros q q' i R K P H A N; cbn [run] in H.
  - inv H. auto.
  - assert (P1 : match o with OAdd t => patient t | _ => True end) by (destruct o; try exact Logic.I; apply P; left; reflexivity).
    destruct (step_safe q o R K P1) as (q1 & E & R1 & K1). rewrite E in H. cbn [obind] in H.
    destruct (absent_step q o q1 i R K P1 E A) as [A1 F1]. { destruct o; try exact Logic.I. intros Q. apply N. unfold tids. rewrite added_cons. left. exact Q. }
    destruct (IH q1 q' i R1 K1) as [A2 F2]; try assumption.
    + intros t I. apply P. rewrite added_cons. apply in_or_app. right. exact I.
    + intros I. apply N. unfold tids. rewrite added_cons, map_app. apply in_or_app. right. exact I.
    + split; [exact A2|congruence].
Qed.
(** Objects that are registered once are in one slot. *)
Definition tidy (q : tq) (os : list op) : Prop := uniq q /\ NoDup (tids os) /\ forall i, In i (tids os) -> absent q i.
Lemma tidy_step q o os q' : ranged q -> kind q -> (match o with OAdd t => patient t | _ => True end) -> step q o = Ok q' -> tidy q (o :: os) -> tidy q' os.
Proof.
  intros R K P H (U & N & A). unfold tids in *. rewrite added_cons, map_app in *. destruct (step_owner q o q' R K P H) as (id & x & O & X).
  assert (N' : NoDup (map tid (added os))) by (destruct o; cbn in N; [inv N|..]; assumption).
  split; [|split; [exact N'|]].
  - intros i j a b Ha Hb E. rewrite O in Ha, Hb. destruct (Nat.eqb id i) eqn:Qi, (Nat.eqb id j) eqn:Qj.
    + apply Nat.eqb_eq in Qi, Qj. congruence.
    + apply Nat.eqb_eq in Qi. subst i. exfalso. apply Nat.eqb_neq in Qj. subst x. destruct o as [t0|id0|k now now2].
      * destruct X as [X _]. inv X. apply (A (tid t0) ltac:(left; reflexivity) _ _ Hb). congruence.
      * destruct X as (_ & X & _). discriminate.
      * destruct X as [[X _]|(tm & Hm & _ & [X|(d & X)])]; [|discriminate|].
        -- symmetry in X. apply Qj. exact (U _ _ _ _ X Hb E).
        -- inv X. apply Qj. exact (U _ _ _ _ Hm Hb E).
    + apply Nat.eqb_eq in Qj. subst j. exfalso. apply Nat.eqb_neq in Qi. subst x. destruct o as [t0|id0|k now now2].
      * destruct X as [X _]. inv X. apply (A (tid t0) ltac:(left; reflexivity) _ _ Ha). congruence.
      * destruct X as (_ & X & _). discriminate.
      * destruct X as [[X _]|(tm & Hm & _ & [X|(d & X)])]; [|discriminate|].
        -- symmetry in X. apply Qi. symmetry. exact (U _ _ _ _ Ha X E).
        -- inv X. apply Qi. symmetry. exact (U _ _ _ _ Ha Hm E).
    + exact (U _ _ _ _ Ha Hb E).
  - intros i I. apply (absent_step q o q' i R K P H).
    + apply A. apply in_or_app. right. exact I.
    + destruct o as [t0| |]; try exact Logic.I. cbn in N. inv N. intros Q. subst i. contradiction.
Qed.
Lemma tidy_run os : forall q os', ranged q -> kind q -> (forall t, In t (added os) -> patient t) -> tidy q (os ++ os') -> exists q', run q os = Ok q' /\ ranged q' /\ kind q' /\ tidy q' os'.
Proof.
  induction os as [|o os IH]; intros q os' R K P T; [exists q; auto|]. cbn [run].
  assert (P1 : match o with OAdd t => patient t | _ => True end) by (destruct o; try exact Logic.I; apply P; left; reflexivity).
  destruct (step_safe q o R K P1) as (q1 & E & R1 & K1). rewrite E. cbn [obind]. apply IH; try assumption.
  - intros t I. apply P. rewrite added_cons. apply in_or_app. right. exact I.
  - exact (tidy_step q o (os ++ os') q1 R K P1 E T).
Qed.
Lemma owner_new j : owner new_tq j = None.
Proof. unfold owner. cbn. destruct j; reflexivity. Qed.
Lemma kind_new : kind new_tq.
Proof. intros id t H. rewrite owner_new in H. discriminate. Qed.
Lemma tidy_new os : NoDup (tids os) -> tidy new_tq os.
Proof. intros N. split; [intros i j a b H; rewrite owner_new in H; discriminate|]. split; [exact N|]. intros i _ id t H. rewrite owner_new in H. discriminate. Qed.
Lemma cancel_final os os' id tm : (forall t, In t (added os ++ added os') -> patient t) -> NoDup (tids os) -> ~ In (tid tm) (tids os') -> forall q q', run new_tq os = Ok q -> owner q id = Some tm ->
  run q (OCancel id :: os') = Ok q' -> fires q' (tid tm) = fires q (tid tm).
Proof.
  intros P N NI q q' H O H'. destruct (tidy_run os new_tq [] ranged_new kind_new) as (q1 & E & R & K & U & _).
  { intros t I. apply P. apply in_or_app. left. exact I. } { rewrite app_nil_r. apply tidy_new. exact N. }
  rewrite E in H. inv H. cbn [run step obind] in H'. destruct (cancel_spec q id R) as (R1 & F & _ & O1 & _).
  assert (A : absent (fst (CancelTimerEvent q id)) (tid tm)).
  { intros j t Hj. rewrite O1 in Hj. destruct (Nat.eqb id j) eqn:Q; [discriminate|]. apply Nat.eqb_neq in Q. intros X. apply Q. exact (U _ _ _ _ O Hj (eq_sym X)). }
  assert (K1 : kind (fst (CancelTimerEvent q id))).
  { intros j t Hj. rewrite O1 in Hj. destruct (Nat.eqb id j); [discriminate|exact (K _ _ Hj)]. }
  destruct (absent_run os' _ q' (tid tm) R1 K1) as [_ F2]; try assumption.
  { intros t I. apply P. apply in_or_app. right. exact I. }
  rewrite F2. apply fires_same. exact F.
Qed.

(** Identifiers: when only registered timers are cancelled. *)
Definition clear (q : tq) : Prop := NoDup (free q) /\ forall i, In i (free q) -> owner q i = None.
Lemma clear_step q o q' : ranged q -> kind q -> (match o with OAdd t => patient t | _ => True end) -> step q o = Ok q' -> clear q ->
  (match o with OCancel id => owner q id <> None | _ => True end) -> clear q'.
Proof.
  intros R K P H [N C] X. destruct o as [t|id|k now now2]; cbn [step] in H.
  - destruct (add_ok q t R) as (q1 & id & A & _ & _ & _ & O & D). rewrite A in H. cbn in H. inv H. destruct D as [(F & -> & F' & _)|(F & _)].
    + split; rewrite F'; [constructor|intros i []].
    + rewrite F in N, C. inv N. split; [assumption|]. intros i I. rewrite O. destruct (Nat.eqb id i) eqn:Q; [apply Nat.eqb_eq in Q; subst; contradiction|]. apply C. right. exact I.
  - destruct (cancel_spec q id R) as (_ & _ & _ & O & F & _). inv H. unfold clear. rewrite F.
    destruct (owner q id) as [t|] eqn:Ho; [|congruence]. rewrite (proj2 (Nat.ltb_lt _ _) (owner_lt _ _ _ Ho)). split.
    + constructor; [|exact N]. intros I. rewrite (C _ I) in Ho. discriminate.
    + intros i [<-|I]; rewrite O; [rewrite Nat.eqb_refl; reflexivity|]. destruct (Nat.eqb id i); [reflexivity|exact (C _ I)].
  - destruct (expire_ok q k now now2 R K) as (q1 & E & _ & _ & Y). rewrite E in H. inv H.
    destruct Y as [-> |(t & id & h & _ & _ & _ & Y)]; [split; assumption|]. destruct (owner q id) as [tm|] eqn:O; [|subst q'; split; assumption]. destruct Y as [_ Y].
    destruct (once tm).
    + destruct Y as (_ & F & Y). split; rewrite F.
      * constructor; [|exact N]. intros I. rewrite (C _ I) in O. discriminate.
      * intros i [<-|I]; rewrite Y; [rewrite Nat.eqb_refl; reflexivity|]. destruct (Nat.eqb id i); [reflexivity|exact (C _ I)].
    + cbn zeta in Y. destruct Y as (_ & F & Y). split; rewrite F; [exact N|]. intros i I. rewrite Y. destruct (Nat.eqb id i) eqn:Q; [|exact (C _ I)].
      apply Nat.eqb_eq in Q. subst i. rewrite (C _ I) in O. discriminate.
Qed.
Lemma clear_run os : forall q, ranged q -> kind q -> (forall t, In t (added os) -> patient t) -> clear q -> careful q os -> exists q', run q os = Ok q' /\ ranged q' /\ kind q' /\ clear q'.
Proof.
  induction os as [|o os IH]; intros q R K P C Ca; [exists q; auto|]. cbn [run careful] in *. destruct Ca as [Ca1 Ca2].
  assert (P1 : match o with OAdd t => patient t | _ => True end) by (destruct o; try exact Logic.I; apply P; left; reflexivity).
  destruct (step_safe q o R K P1) as (q1 & E & R1 & K1). rewrite E in *. cbn [obind]. apply IH; try assumption.
  - intros t I. apply P. rewrite added_cons. apply in_or_app. right. exact I.
  - exact (clear_step q o q1 R K P1 E C Ca1).
Qed.
Lemma clear_new : clear new_tq.
Proof. split; [constructor|intros i []]. Qed.

(** Without cancellation: heap entries and registered timers correspond. *)
Definition heapok (q : tq) : Prop := NoDup (map snd (heap q)) /\ (forall t id, In (t, id) (heap q) -> exists tm, owner q id = Some tm /\ due tm = t) /\
  (forall id tm, owner q id = Some tm -> In (due tm, id) (heap q)).
Definition track (q : tq) (t0 : timer) : Prop :=
  (exists id tm, owner q id = Some tm /\ tid tm = tid t0 /\ once tm = once t0 /\ interval tm = interval t0 /\
     (forall ws, on_time (due tm) (once t0) (interval t0) ws -> on_time (due t0) (once t0) (interval t0) (fires q (tid t0) ++ ws)) /\
     (once t0 = true -> fires q (tid t0) = [] /\ due tm = due t0)) \/
  (once t0 = true /\ absent q (tid t0) /\ exists w, fires q (tid t0) = [w] /\ ms (due t0) <= ms w).
Definition good (q : tq) (seen : list timer) (os : list op) : Prop :=
  ranged q /\ kind q /\ clear q /\ heapok q /\ tidy q os /\ (forall i, In i (tids os) -> fires q i = []) /\ forall t0, In t0 seen -> track q t0.
Lemma ms_mono a b : a <= b -> ms a <= ms b.
Proof. intros H. unfold ms. apply Z.div_le_mono; lia. Qed.
Lemma on_time_mono d d' one p ws : d <= d' -> on_time d' one p ws -> on_time d one p ws.
Proof. intros H. destruct ws as [|w ws]; [auto|]. cbn. intros [A B]. split; [|exact B]. pose proof (ms_mono _ _ H). lia. Qed.
Lemma in_future i t os : In i (tids os) -> In i (tids (t :: os)).
Proof. unfold tids. rewrite added_cons, map_app. intros I. apply in_or_app. right. exact I. Qed.
Lemma perm_snd (h h' : list (Z * nat)) : Permutation h h' -> NoDup (map snd h) -> NoDup (map snd h').
Proof. intros P. apply Permutation_NoDup. apply Permutation_map. exact P. Qed.
Lemma good_step q seen o os : good q seen (o :: os) -> cancels o = false -> sane o -> (match o with OAdd t => patient t | _ => True end) ->
  exists q', step q o = Ok q' /\ good q' ((match o with OAdd t => [t] | _ => [] end) ++ seen) os.
Proof.
  intros (R & K & C & (Hn & He & Ho) & T & F & Tr) NC Sa P. destruct (step_safe q o R K P) as (q' & E & R' & K'). exists q'. split; [exact E|].
  assert (C' : clear q'). { apply (clear_step q o q' R K P E C). destruct o; [exact Logic.I|discriminate|exact Logic.I]. }
  assert (T' := tidy_step q o os q' R K P E T). split; [exact R'|]. split; [exact K'|]. split; [exact C'|].
  assert (T0 := T). destruct T as (U & N & A).
  destruct o as [t|id|k now now2]; [|discriminate|]; cbn [step] in E.
  - destruct (add_ok q t R) as (q1 & id & Ad & _ & Fi & Hp & O & D). rewrite Ad in E. cbn in E. inv E.
    assert (Nid : owner q id = None).
    { destruct D as [(_ & -> & _)|(Fr & _)]; [unfold owner; apply nth_overflow; lia|]. apply (proj2 C). rewrite Fr. left. reflexivity. }
    assert (At := A (tid t) ltac:(unfold tids; rewrite added_cons; left; reflexivity)). assert (Ft := F (tid t) ltac:(unfold tids; rewrite added_cons; left; reflexivity)).
    split; [|split; [exact T'|split]].
    + split; [|split].
      * rewrite Hp. cbn [map snd]. constructor; [|exact Hn]. intros I. apply in_map_iff in I as ([d j] & Q & I). cbn in Q. subst j. destruct (He _ _ I) as (tm & X & _). congruence.
      * intros d j I. rewrite Hp in I. destruct I as [I|I].
        -- inv I. exists t. rewrite O, Nat.eqb_refl. auto.
        -- destruct (He _ _ I) as (tm & X & Y). exists tm. rewrite O. destruct (Nat.eqb id j) eqn:Q; [apply Nat.eqb_eq in Q; subst; congruence|auto].
      * intros j tm X. rewrite O in X. rewrite Hp. destruct (Nat.eqb id j) eqn:Q; [apply Nat.eqb_eq in Q; subst j; inv X; left; reflexivity|right; exact (Ho _ _ X)].
    + intros i I. rewrite (fires_same q q' i Fi). apply F. apply in_future. exact I.
    + intros t0 I. cbn [app] in I. destruct I as [<-|I].
      * left. exists id, t. rewrite O, Nat.eqb_refl, (fires_same q q' _ Fi), Ft. cbn [app]. repeat split; auto.
      * destruct (Tr t0 I) as [(id0 & tm & X)|(On & Ab & w & W)].
        -- destruct X as (X1 & X2 & X3 & X4 & X5 & X6). left. exists id0, tm. rewrite O, (fires_same q q' _ Fi). destruct (Nat.eqb id id0) eqn:Q; [apply Nat.eqb_eq in Q; subst; congruence|].
           repeat split; auto; apply X6; assumption.
        -- right. split; [exact On|]. rewrite (fires_same q q' _ Fi). split; [|eauto]. intros j tm X. rewrite O in X. destruct (Nat.eqb id j); [|exact (Ab _ _ X)]. inv X.
           intros Q. rewrite Q in Ft. destruct W as [W _]. congruence.
  - destruct (expire_ok q k now now2 R K) as (q1 & E' & _ & _ & Y). rewrite E' in E. inv E. cbn [app].
    destruct Y as [-> |(t & id & h & Pm & Due & Top & Y)].
    { split; [split; [exact Hn|split; [exact He|exact Ho]]|]. split; [exact T'|]. split; [|exact Tr]. intros i I. apply F. apply in_future. exact I. }
    assert (I0 : In (t, id) (heap q)) by (eapply Permutation_in; [symmetry; exact Pm|left; reflexivity]).
    destruct (He _ _ I0) as (tm & Hm & Dm). rewrite Hm in Y. destruct Y as [Fi Y].
    assert (Hh : NoDup (id :: map snd h)) by exact (perm_snd _ _ Pm Hn). inversion_clear Hh as [|? ? Nin Hh'].
    assert (Sub : forall e, In e h -> In e (heap q)) by (intros e I; eapply Permutation_in; [symmetry; exact Pm|right; exact I]).
    assert (Other : forall j x, owner q j = Some x -> j <> id -> In (due x, j) h).
    { intros j x X Q. assert (I := Ho _ _ X). eapply Permutation_in in I; [|exact Pm]. destruct I as [I|I]; [inv I; congruence|exact I]. }
    assert (Fo : forall i, i <> tid tm -> fires q' i = fires q i).
    { intros i Q. rewrite (fires_app _ _ _ _ i Fi). assert (Q' : Nat.eqb (tid tm) i = false) by (apply Nat.eqb_neq; congruence). rewrite Q'. apply app_nil_r. }
    assert (Fs : fires q' (tid tm) = fires q (tid tm) ++ [now]) by (rewrite (fires_app _ _ _ _ _ Fi), Nat.eqb_refl; reflexivity).
    assert (Fu : forall i, In i (tids os) -> fires q' i = []).
    { intros i I. assert (I' := in_future i (OExpire k now now2) os I). rewrite Fo; [exact (F i I')|]. intros Q. exact (A i I' _ _ Hm (eq_sym Q)). }
    destruct (once tm) eqn:On.
    + destruct Y as (Hp & Fr & O). split; [|split; [exact T'|split; [exact Fu|]]].
      * split; [rewrite Hp; exact Hh'|]. split.
        -- intros d j I. rewrite Hp in I. destruct (He _ _ (Sub _ I)) as (x & X & Dx). exists x. rewrite O. destruct (Nat.eqb id j) eqn:Q; [|auto].
           apply Nat.eqb_eq in Q. subst j. exfalso. apply Nin. apply in_map_iff. exists (d, id). auto.
        -- intros j x X. rewrite O in X. rewrite Hp. destruct (Nat.eqb id j) eqn:Q; [discriminate|]. apply Nat.eqb_neq in Q. apply Other; auto.
      * intros t0 I. destruct (Tr t0 I) as [(id0 & tm0 & X1 & X2 & X3 & X4 & X5 & X6)|(Ont & Ab & w & W)].
        -- destruct (Nat.eq_dec id0 id) as [-> |Nq].
           ++ rewrite Hm in X1. inv X1. right. assert (Ot : once t0 = true) by congruence. destruct (X6 Ot) as [X7 X8]. split; [exact Ot|]. split.
              ** intros j x X. rewrite O in X. destruct (Nat.eqb id j) eqn:Q; [discriminate|]. intros Q2. apply Nat.eqb_neq in Q. apply Q. apply (U _ _ _ _ Hm X). congruence.
              ** exists now. rewrite <- X2, Fs, X2, X7. split; [reflexivity|]. rewrite <- X8. exact Due.
           ++ left. exists id0, tm0. assert (Nt : tid t0 <> tid tm). { intros Q. apply Nq. apply (U _ _ _ _ X1 Hm). congruence. }
              rewrite O, (Fo _ Nt). assert (Q : Nat.eqb id id0 = false) by (apply Nat.eqb_neq; congruence). rewrite Q. repeat split; auto; apply X6; assumption.
        -- right. split; [exact Ont|]. assert (Nt : tid t0 <> tid tm) by (intros Q; exact (Ab _ _ Hm (eq_sym Q))). rewrite (Fo _ Nt). split; [|eauto].
           intros j x X. rewrite O in X. destruct (Nat.eqb id j); [discriminate|exact (Ab _ _ X)].
    + cbn zeta in Y. destruct Y as (Hp & Fr & O). cbn [due] in Hp. split; [|split; [exact T'|split; [exact Fu|]]].
      * split; [rewrite Hp; cbn [map snd]; constructor; [exact Nin|exact Hh']|]. split.
        -- intros d j I. rewrite Hp in I. rewrite O. destruct I as [I|I].
           ++ inv I. rewrite Nat.eqb_refl. eexists. split; [reflexivity|reflexivity].
           ++ destruct (He _ _ (Sub _ I)) as (x & X & Dx). destruct (Nat.eqb id j) eqn:Q; [|eauto].
              apply Nat.eqb_eq in Q. subst j. exfalso. apply Nin. apply in_map_iff. exists (d, id). auto.
        -- intros j x X. rewrite O in X. rewrite Hp. destruct (Nat.eqb id j) eqn:Q; [apply Nat.eqb_eq in Q; subst j; inv X; left; reflexivity|]. apply Nat.eqb_neq in Q. right. apply Other; auto.
      * intros t0 I. destruct (Tr t0 I) as [(id0 & tm0 & X1 & X2 & X3 & X4 & X5 & X6)|(Ont & Ab & w & W)].
        -- destruct (Nat.eq_dec id0 id) as [-> |Nq].
           ++ rewrite Hm in X1. inv X1. left. eexists. eexists. split; [rewrite O, Nat.eqb_refl; reflexivity|]. cbn [tid once interval due].
              split; [exact X2|]. split; [congruence|]. split; [exact X4|]. split; [|congruence]. intros ws W. rewrite <- X2, Fs, <- app_assoc, X2. apply X5. cbn [app on_time].
              split; [exact Due|]. rewrite <- X3, On. rewrite <- X3, On in W. cbn in Sa. rewrite X4 in W. eapply on_time_mono; [|exact W]. lia.
           ++ left. exists id0, tm0. assert (Nt : tid t0 <> tid tm). { intros Q. apply Nq. apply (U _ _ _ _ X1 Hm). congruence. }
              rewrite O, (Fo _ Nt). assert (Q : Nat.eqb id id0 = false) by (apply Nat.eqb_neq; congruence). rewrite Q. repeat split; auto; apply X6; assumption.
        -- right. split; [exact Ont|]. assert (Nt : tid t0 <> tid tm) by (intros Q; exact (Ab _ _ Hm (eq_sym Q))). rewrite (Fo _ Nt). split; [|eauto].
           intros j x X. rewrite O in X. destruct (Nat.eqb id j) eqn:Q; [|exact (Ab _ _ X)]. inv X. cbn. congruence.
Qed.
Lemma good_run os : forall q seen, good q seen os -> (forall o, In o os -> cancels o = false /\ sane o) -> (forall t, In t (added os) -> patient t) ->
  exists q', run q os = Ok q' /\ good q' (rev (added os) ++ seen) [].
Proof.
  induction os as [|o os IH]; intros q seen G S P; [exists q; auto|]. cbn [run].
  destruct (S o (or_introl eq_refl)) as [S1 S2].
  assert (P1 : match o with OAdd t => patient t | _ => True end) by (destruct o; try exact Logic.I; apply P; left; reflexivity).
  destruct (good_step q seen o os G S1 S2 P1) as (q1 & E & G1). rewrite E. cbn [obind].
  destruct (IH q1 _ G1) as (q2 & E2 & G2).
  - intros o' I. apply S. right. exact I.
  - intros t I. apply P. rewrite added_cons. apply in_or_app. right. exact I.
  - exists q2. split; [exact E2|]. rewrite added_cons. destruct o; cbn [app] in *; try exact G2. cbn [rev]. rewrite <- app_assoc. exact G2.
Qed.
Lemma good_new os : NoDup (tids os) -> good new_tq [] os.
Proof.
  intros N. split; [exact ranged_new|]. split; [exact kind_new|]. split; [exact clear_new|].
  split; [split; [constructor|split; [intros t id []|intros id tm H; rewrite owner_new in H; discriminate]]|].
  split; [apply tidy_new; exact N|]. split; [reflexivity|intros t []].
Qed.
