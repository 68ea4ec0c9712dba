(** C69-C71: SpinLock and LazyInstance. *)
From Verif.Model Require Import Common Sync.
From Verif.Spec Require Import SyncSpec.
From Verif.Proofs Require Import Tac SyncProofs.

(** ** C69: SpinLock excludes. *)
Theorem C69_at_most_one_holder : forall h s, shist h s -> length (inside h) <= 1.
Proof. intros h s H. destruct (shist_inv h s H) as [_ [[_ ->]|[_ (t & ->)]] _]; cbn; lia. Qed.
Print Assumptions C69_at_most_one_holder.

(** lock() returns, and try_lock() returns true, only when nobody is inside; try_lock() returns false only when somebody is. *)
Theorem C69_acquire_only_when_free : forall h s t a s' e, shist h s -> sstep s t a = Some (s', e) ->
  (e = SGot -> inside h = []) /\ (e = STryFail -> inside h <> []).
Proof.
  intros h s t a s' e H St. destruct (shist_inv h s H) as [_ I _]. unfold sstep in St.
  destruct (spcs s t), a; try discriminate; try (destruct (sflag s) eqn:F); inv St; (split; [intro Z|intro Z]); try discriminate Z;
    destruct I as [[X Y]|[X (u & Y)]]; congruence.
Qed.
Print Assumptions C69_acquire_only_when_free.

(** A thread waiting in lock() gets the lock within two of its own steps once the lock is free and nobody else takes it;
    so waiting threads never block one another. *)
Theorem C69_waiter_gets_free_lock : forall h s t, shist h s -> waiting h t = true -> inside h = [] ->
  exists h2 s', shist (h ++ h2) s' /\ Forall (fun x => fst x = (t, AStep)) h2 /\ length h2 <= 2 /\ inside (h ++ h2) = [t].
Proof.
  intros h s t H W F. destruct (shist_inv h s H) as [_ I2 I3]. apply I3 in W.
  assert (G : sflag s = false) by (destruct I2 as [[X _]|[_ (u & Y)]]; congruence).
  assert (A : forall h s, shist h s -> inside h = [] -> sflag s = false -> spcs s t = PExch ->
    shist (h ++ [(t, AStep, SGot)]) (mkS true (tset (spcs s) t PHold)) /\ inside (h ++ [(t, AStep, SGot)]) = [t]).
  { intros h0 s0 H0 F0 G0 P0. split.
    - eapply sh_snoc; [exact H0|]. unfold sstep. rewrite P0, G0. reflexivity.
    - rewrite inside_snoc, F0. reflexivity. }
  destruct W as [P|P].
  - destruct (A h s H F G P) as [A1 A2]. exists [(t, AStep, SGot)], (mkS true (tset (spcs s) t PHold)).
    split; [exact A1|]. split; [repeat constructor|]. split; [cbn; lia|exact A2].
  - assert (B : shist (h ++ [(t, AStep, STau)]) (s_at s t PExch)).
    { eapply sh_snoc; [exact H|]. unfold sstep. destruct P as [P|P]; rewrite P, G; reflexivity. }
    destruct (A _ _ B) as [A1 A2].
    { rewrite inside_snoc, F. reflexivity. } { exact G. } { apply tset_same. }
    exists [(t, AStep, STau); (t, AStep, SGot)], (mkS true (tset (spcs (s_at s t PExch)) t PHold)).
    rewrite <- app_assoc in A1, A2. split; [exact A1|]. split; [repeat constructor|]. split; [cbn; lia|exact A2].
Qed.
Print Assumptions C69_waiter_gets_free_lock.

(** The holder can always release, which makes the lock free. *)
Theorem C69_release : forall h s t, shist h s -> In t (inside h) ->
  exists s', shist (h ++ [(t, AUnlock, SReleased)]) s' /\ inside (h ++ [(t, AUnlock, SReleased)]) = [].
Proof.
  intros h s t H Hi. destruct (shist_inv h s H) as [I1 I2 _]. pose proof Hi as P. apply I1 in P.
  exists (mkS false (tset (spcs s) t PIdle)). split.
  - eapply sh_snoc; [exact H|]. unfold sstep. rewrite P. reflexivity.
  - rewrite inside_snoc. destruct I2 as [[_ Y]|[_ (u & Y)]]; rewrite Y in *; [destruct Hi|].
    destruct Hi as [->|[]]. cbn. destruct (Nat.eq_dec t t); [reflexivity|congruence].
Qed.
Print Assumptions C69_release.

(** One thread inside, one waiting, one refused. *)
Example C69_example : exists s, shist [(1, ALock, STau); (2, ALock, STau); (1, AStep, SGot); (2, AStep, STau); (3, ATry, STau); (3, AStep, STryFail); (1, AUnlock, SReleased)] s
  /\ waiting [(1, ALock, STau); (2, ALock, STau); (1, AStep, SGot); (2, AStep, STau); (3, ATry, STau); (3, AStep, STryFail); (1, AUnlock, SReleased)] 2 = true.
Proof.
  eexists. split; [|reflexivity].
  eapply (sgo_hist [(1, ALock); (2, ALock); (1, AStep); (2, AStep); (3, ATry); (3, AStep); (1, AUnlock)]); [apply sh_nil|reflexivity].
Qed.

(** ** C70: a LazyInstance is constructed exactly once, before anybody uses it. *)
Theorem C70_constructed_once : forall h s, lhist h s -> begins h <= 1.
Proof.
  intros h s H. destruct (lhist_inv h s H) as [P _ _ _].
  destruct P as [(_ & [(_ & P & _)|[(_ & P & _)|(_ & P & _)]])|(_ & u & [(_ & P & _)|(_ & P & _)])]; rewrite P; lia.
Qed.
Print Assumptions C70_constructed_once.

(** get() returns, in any thread, only after the constructor has completed. *)
Theorem C70_return_after_construction : forall h s h1 t a h2, lhist h s -> h = h1 ++ (t, a, LReturn) :: h2 -> ends h1 = 1.
Proof. intros h s h1 t a h2 H E. exact (li_ret _ _ (lhist_inv h s H) _ _ _ _ E). Qed.
Print Assumptions C70_return_after_construction.

(** Every call of get() can be completed from every reachable state, by steps of the caller and of the constructing thread. *)
Definition C70_progress_statement : Prop := forall h s t, lhist h s -> calling h t = true ->
  exists h2 s' a, lhist (h ++ h2 ++ [(t, a, LReturn)]) s'.

(** After the constructor has thrown no call ever returns, neither earlier nor later ones. *)
Theorem C70_progress_statement_refuted : ~ C70_progress_statement.
Proof.
  intro S. set (h := [(1, LCall, LTau); (2, LCall, LTau); (1, LStep, LTau); (1, LStep, LTau); (1, LStep, LBegin); (1, LThrow, LThrown)]).
  assert (H : exists s, lhist h s).
  { eexists. eapply (lgo_hist [(1, LCall); (2, LCall); (1, LStep); (1, LStep); (1, LStep); (1, LThrow)]); [apply lh_nil|reflexivity]. }
  destruct H as (s & H). destruct (S h s 2 H eq_refl) as (h2 & s' & a & H2).
  pose proof (lhist_inv _ _ H2) as [P _ _ R]. rewrite app_assoc in *. specialize (R _ 2 a [] eq_refl).
  assert (T : throws ((h ++ h2) ++ [(2, a, LReturn)]) >= 1).
  { unfold throws, count_ev. rewrite !filter_app, !app_length. cbn. lia. }
  assert (E : ends ((h ++ h2) ++ [(2, a, LReturn)]) >= 1).
  { unfold ends in *. rewrite count_snoc. lia. }
  destruct P as [(_ & [(_ & P)|[(_ & P)|(_ & P)]])|(_ & u & [(_ & P)|(_ & P)])]; destruct P as (_ & P1 & P2); lia.
Qed.
Print Assumptions C70_progress_statement_refuted.
Theorem C70_throw_is_final_partial : forall h s, lhist h s -> throws h >= 1 -> forall t a, ~ In (t, a, LReturn) h.
Proof.
  intros h s H T t a Hi. apply in_split in Hi as (h1 & h2 & E). pose proof (lhist_inv _ _ H) as [P _ _ R].
  specialize (R _ _ _ _ E). assert (En : ends h >= 1).
  { rewrite E. unfold ends, count_ev in *. rewrite filter_app, app_length. lia. }
  destruct P as [(_ & [(_ & P)|[(_ & P)|(_ & P)]])|(_ & u & [(_ & P)|(_ & P)])]; destruct P as (_ & P1 & P2); lia.
Qed.
Print Assumptions C70_throw_is_final_partial.

(** As long as no constructor throws it holds: every call of get() completes if its thread and the constructing one run. *)
Theorem C70_progress_partial : forall h s t, lhist h s -> throws h = 0 -> calling h t = true ->
  exists h2 s' a, lhist (h ++ h2 ++ [(t, a, LReturn)]) s' /\ length h2 <= 6.
Proof.
  exact progress.
Qed.
Print Assumptions C70_progress_partial.
(** The hypotheses are met with one thread constructing and one waiting. *)
Example C70_example : exists s, lhist [(1, LCall, LTau); (2, LCall, LTau); (1, LStep, LTau); (1, LStep, LTau); (1, LStep, LBegin); (2, LStep, LTau); (2, LStep, LTau); (2, LStep, LTau)] s /\
  calling [(1, LCall, LTau); (2, LCall, LTau); (1, LStep, LTau); (1, LStep, LTau); (1, LStep, LBegin); (2, LStep, LTau); (2, LStep, LTau); (2, LStep, LTau)] 2 = true /\ lpcs s 2 = LSpin.
Proof.
  eexists. split; [eapply (lgo_hist [(1, LCall); (2, LCall); (1, LStep); (1, LStep); (1, LStep); (2, LStep); (2, LStep); (2, LStep)]); [apply lh_nil|reflexivity]|].
  split; reflexivity.
Qed.

(** ** C71: hasInstance() says whether the object exists. *)
Definition C71_statement : Prop := forall h s t s' b, lhist h s -> lstep s t LHas = Some (s', LHasIs b) -> (b = true <-> ends h = 1).
(** It is already true while the constructor runs, and stays true when it has thrown. *)
Theorem C71_statement_refuted : ~ C71_statement.
Proof.
  intro S. set (h := [(1, LCall, LTau); (1, LStep, LTau); (1, LStep, LTau); (1, LStep, LBegin)]).
  assert (H : lhist h (mkL 1 (tset (lpcs (l_at (l_at (l_at linit 1 LLoad) 1 LCheck) 1 LCas)) 1 LCtor))).
  { eapply (lgo_hist [(1, LCall); (1, LStep); (1, LStep); (1, LStep)]); [apply lh_nil|reflexivity]. }
  destruct (S h _ 2 _ true H eq_refl) as [X _]. specialize (X eq_refl). discriminate.
Qed.
Print Assumptions C71_statement_refuted.
(** What it does say: whether construction was ever started. *)
Theorem C71_started_partial : forall h s t s' b, lhist h s -> lstep s t LHas = Some (s', LHasIs b) -> (b = true <-> begins h = 1).
Proof.
  intros h s t s' b H St. unfold lstep in St. destruct (lpcs s t); try discriminate. injection St as _ <-.
  rewrite negb_true_iff, Nat.eqb_neq. destruct (lhist_inv h s H) as [P _ _ _].
  destruct P as [(_ & [(M & P & _)|[(M & P & _)|(M & P & _)]])|(M & u & [(_ & P & _)|(_ & P & _)])]; rewrite P, M; lia.
Qed.
Print Assumptions C71_started_partial.
