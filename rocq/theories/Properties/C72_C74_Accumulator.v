(** C72-C74: AccumulatorCollector. *)
From Verif.Model Require Import Common Accumulator.
From Verif.Spec Require Import AccSpec.
From Verif.Proofs Require Import Tac AccProofs.

(** ** C72: every collected item is counted exactly once. *)

(** At any moment the collected items are those summed up by the maps handed to the handler so far - each map being the exact
    per-key sum of its own group - and the ones still to be delivered. *)
Theorem C72_counted_once : forall T add dflt c hash h s, summable T add dflt -> ahist T add dflt c hash h s ->
  exists groups pending, Permutation (collects T h) (concat groups ++ pending) /\ Forall2 (sums_up T add dflt) groups (handled T h).
Proof.
  intros T add dflt c hash h s SM H. destruct (ahist_inv T add dflt c hash SM h s H) as (Ds & A & L & Q & I1 & I2 & _).
  exists Ds, (A ++ flat T L c). auto.
Qed.
Print Assumptions C72_counted_once.

(** When the handler has been called, nothing collected before the collector thread last woke up is still pending. *)
Theorem C72_sweep_delivers : forall T add dflt c hash h s m, summable T add dflt ->
  ahist T add dflt c hash (h ++ [(OMain T, VHandled T m)]) s ->
  exists groups pending recent, Permutation (collects T h) (concat groups ++ pending) /\
    Forall2 (sums_up T add dflt) groups (handled T h ++ [m]) /\ Permutation (since T h) (pending ++ recent).
Proof.
  intros T add dflt c hash h s m SM H. pose proof H as H0. inversion H0 as [|h0 s0 x s' e H1 St E1 E2]; subst.
  { destruct h; discriminate. }
  apply app_inj_tail in E1 as [-> E1]. injection E1 as -> ->.
  destruct (ahist_inv T add dflt c hash SM _ s H) as (Ds & A & L & Q & I1 & I2 & I3 & I4 & I5 & _).
  rewrite collects_snoc in I1. rewrite handled_snoc in I2. rewrite since_snoc in I5.
  unfold collect1, since_step in *. cbn [fst snd collect1] in *. rewrite ?app_nil_r in *.
  assert (P : apcs T s = ATop T).
  { cbn [astep] in St. destruct (apcs T s0); try discriminate; try (destruct (running T s0)); try (destruct (Nat.ltb i c)); try (destruct (hset T s0)); inv St; reflexivity. }
  unfold idx in I5. rewrite P in *. subst A. exists Ds, (flat T L c), Q. auto.
Qed.
Print Assumptions C72_sweep_delivers.

(** ** C73: Stop() delivers everything collected before it was called. *)
Definition C73_statement : Prop := forall T add dflt c hash h1 e1 h2 e2 s, summable T add dflt ->
  ahist T add dflt c hash (h1 ++ (OStop T, e1) :: h2 ++ [(OJoined T, e2)]) s ->
  exists groups pending recent, Permutation (collects T (h1 ++ (OStop T, e1) :: h2)) (concat groups ++ pending) /\
    Forall2 (sums_up T add dflt) groups (handled T (h1 ++ (OStop T, e1) :: h2)) /\
    Permutation (collects T h2) (pending ++ recent).

(** Running a concrete schedule. *)
Fixpoint ago (s : ast Z) (l : list (aop Z)) : option (list (aop Z * aev Z) * ast Z) :=
  match l with
  | [] => Some ([], s)
  | x :: l => match astep Z Z.add 0%Z 1 (fun t => t) s x with
              | Some (Ok (s', e)) => match ago s' l with Some (h, s') => Some ((x, e) :: h, s') | None => None end
              | _ => None end
  end.
Lemma ago_hist l : forall h s h' s', ahist Z Z.add 0%Z 1 (fun t => t) h s -> ago s l = Some (h', s') -> ahist Z Z.add 0%Z 1 (fun t => t) (h ++ h') s'.
Proof.
  induction l as [|x l IH]; intros h s h' s' H E; cbn [ago] in E.
  - injection E as <- <-. now rewrite app_nil_r.
  - destruct (astep _ _ _ _ _ s x) as [[[s1 e]| |]|] eqn:St; try discriminate.
    destruct (ago s1 l) as [[h1 s2]|] eqn:G; [|discriminate]. injection E as <- <-.
    replace (h ++ (x, e) :: h1) with ((h ++ [(x, e)]) ++ h1) by now rewrite <- app_assoc. eapply IH; [|exact G]. econstructor; eassumption.
Qed.
Lemma Zsummable : summable Z Z.add 0%Z.
Proof. unfold summable. repeat split; intros; lia. Qed.

(** An item collected after its shard was swept in the last round, but before Stop(), is never delivered. *)
Theorem C73_statement_refuted : ~ C73_statement.
Proof.
  intro S. set (k := [97%Z]).
  set (h1 := [(OSetHandler Z, VTau Z); (OStart Z, VTau Z); (OMain Z, VTau Z); (OMain Z, VWake Z); (OMain Z, VTau Z); (OCollect Z 7 k 1%Z, VTau Z)]).
  set (h2 := [(OMain Z, VHandled Z []); (OMain Z, VExit Z)]).
  assert (H : exists s, ahist Z Z.add 0%Z 1 (fun t => t) (h1 ++ (OStop Z, VTau Z) :: h2 ++ [(OJoined Z, VTau Z)]) s).
  { eexists. apply (ago_hist [OSetHandler Z; OStart Z; OMain Z; OMain Z; OMain Z; OCollect Z 7 k 1%Z; OStop Z; OMain Z; OMain Z; OJoined Z] [] (ainit Z)); [constructor|reflexivity]. }
  destruct H as (s & H). destruct (S Z Z.add 0%Z 1 (fun t => t) h1 (VTau Z) h2 (VTau Z) s Zsummable H) as (Ds & P & R & P1 & P2 & P3).
  cbn in P1, P2, P3. apply Permutation_nil in P3. apply app_eq_nil in P3 as [-> ->]. rewrite app_nil_r in P1.
  inversion P2 as [|D m Ds' ms P4 P5]; subst. inversion P5; subst. cbn [concat] in P1. rewrite app_nil_r in P1.
  apply Permutation_length_1_inv in P1. subst D. destruct P4 as [_ P4]. specialize (P4 k). vm_compute in P4. discriminate.
Qed.
Print Assumptions C73_statement_refuted.

(** What Stop() does guarantee: only items collected since the collector thread last woke up can be missing. *)
Theorem C73_only_last_round_missing_partial : forall T add dflt c hash h e s, summable T add dflt ->
  ahist T add dflt c hash (h ++ [(OJoined T, e)]) s ->
  exists groups pending recent, Permutation (collects T h) (concat groups ++ pending) /\
    Forall2 (sums_up T add dflt) groups (handled T h) /\ Permutation (since T h) (pending ++ recent).
Proof.
  intros T add dflt c hash h e s SM H. inversion H as [|h0 s0 x s' e0 H1 St E1 E2]; subst.
  { destruct h; discriminate. }
  apply app_inj_tail in E1 as [-> E1]. injection E1 as -> ->.
  destruct (ahist_inv T add dflt c hash SM _ s0 H1) as (Ds & A & L & Q & I1 & I2 & I3 & I4 & I5 & _).
  assert (P : apcs T s0 = AExited T).
  { cbn [astep] in St. destruct (thr T s0), (apcs T s0); try discriminate. reflexivity. }
  unfold idx in I5. rewrite P in *. subst A. exists Ds, (flat T L c), Q. auto.
Qed.
Print Assumptions C73_only_last_round_missing_partial.

(** A run where the hypotheses hold and something is delivered. *)
Example C72_example : exists s, ahist Z Z.add 0%Z 1 (fun t => t)
  ([(OSetHandler Z, VTau Z); (OStart Z, VTau Z); (OCollect Z 3 [97%Z] 2%Z, VTau Z); (OMain Z, VTau Z); (OCollect Z 4 [97%Z] 3%Z, VTau Z); (OMain Z, VWake Z); (OMain Z, VTau Z)]
   ++ [(OMain Z, VHandled Z [([97%Z], 5%Z)])]) s.
Proof.
  eexists. apply (ago_hist [OSetHandler Z; OStart Z; OCollect Z 3 [97%Z] 2%Z; OMain Z; OCollect Z 4 [97%Z] 3%Z; OMain Z; OMain Z; OMain Z] [] (ainit Z)); [constructor|reflexivity].
Qed.

(** ** C74: a collector can be stopped and destroyed at any time. *)
Definition C74_statement : Prop := forall T add dflt c hash h s, ahist T add dflt c hash h s ->
  astep T add dflt c hash s (OStop T) <> Some UB /\ astep T add dflt c hash s (ODestroy T) <> Some UB.
(** Not if it was never started: thread_ is uninitialised. *)
Theorem C74_statement_refuted : ~ C74_statement.
Proof. intro S. destruct (S Z Z.add 0%Z 1 (fun t => t) [] (ainit Z) (ah_nil _ _ _ _ _)) as [X _]. apply X. reflexivity. Qed.
Print Assumptions C74_statement_refuted.
Theorem C74_started_is_safe_partial : forall T add dflt c hash h s, ahist T add dflt c hash h s -> In (OStart T) (map fst h) ->
  astep T add dflt c hash s (OStop T) <> Some UB /\ astep T add dflt c hash s (ODestroy T) <> Some UB.
Proof.
  intros T add dflt c hash h s H Hs. destruct (ahist_linv T add dflt c hash h s H) as [_ I2 _ _ _].
  cbn [astep]. destruct (thr T s); [destruct (I2 eq_refl Hs)| |]; split; discriminate.
Qed.
Print Assumptions C74_started_is_safe_partial.
(** Once Stop() is called (and a handler was set) the collector thread ends within a bounded number of its own steps, so
    Stop() returns. *)
Theorem C74_stop_returns_partial : forall T add dflt c hash h e s, ahist T add dflt c hash (h ++ [(OStop T, e)]) s ->
  started h = true -> In (OSetHandler T) (map fst h) ->
  exists h2 s', ahist T add dflt c hash (h ++ (OStop T, e) :: h2 ++ [(OJoined T, VTau T)]) s' /\
    Forall (fun x => fst x = OMain T) h2 /\ length h2 <= c + 3.
Proof.
  intros T add dflt c hash h e s H Hs Hh. pose proof H as H0. inversion H0 as [|h0 s0 x s' e0 H1 St E1 E2]; subst.
  { destruct h; discriminate. }
  apply app_inj_tail in E1 as [-> E1]. injection E1 as -> ->.
  destruct (main_ends T add dflt c hash _ s H) as (h2 & s' & K1 & K2 & K3 & K4 & K5 & K6).
  - rewrite started_snoc. exact Hs.
  - cbn [astep] in St. destruct (thr T s0); inv St; reflexivity.
  - destruct (ahist_linv T add dflt c hash _ s H) as [_ _ I3 _ _]. apply I3. rewrite map_app. apply in_or_app. auto.
  - exists h2, (mkA T (shards T s') (AExited T) false TNull (hset T s')). split; [|auto].
    replace (h ++ (OStop T, e) :: h2 ++ [(OJoined T, VTau T)]) with (((h ++ [(OStop T, e)]) ++ h2) ++ [(OJoined T, VTau T)]) by now rewrite <- !app_assoc.
    econstructor; [exact K1|]. cbn [astep]. rewrite K4, K5, K6. reflexivity.
Qed.
Print Assumptions C74_stop_returns_partial.
