(** C301-C304: answering a raw request (net_io/server/raw_server/raw_server.{h,cc}).

    [run h s]: history [h] of calls Response(r) by threads t ([Enter]: the call reads the flag, [Act]: it goes on and returns), of
    functors run by the connection's loop ([Loop]) and of the codec's end ([Gone]); [acts s] is what the connection was told:
    [Send t r ok] (SendResponse with the message of thread t's call, and its result) and [Close]. Thread 0 is the loop's. *)
From Coq Require Import Permutation.
From Verif.Model Require Import Common RawCtx.
From Verif.Spec Require Import RawCtxSpec.
From Verif.Proofs Require Import Tac RawCtxProofs.

(** C301. Full statement: one request gets at most one answer, whichever threads call Response. *)
Definition C301_statement : Prop := forall h s, run h s -> length (sent (acts s)) <= 1.

(** Two threads that read the flag before either sets it both answer. *)
Theorem C301_statement_refuted : ~ C301_statement.
Proof. intros H.
  assert (R : run [Enter 1 7 false; Enter 2 8 false; Act 1 7 true; Act 2 8 true; Loop true; Loop true] (R true true [] [] [Send 1 7 true; Send 2 8 true])).
  { change [Enter 1 7 false; Enter 2 8 false; Act 1 7 true; Act 2 8 true; Loop true; Loop true] with (((((([] ++ [Enter 1 7 false]) ++ [Enter 2 8 false]) ++ [Act 1 7 true]) ++ [Act 2 8 true]) ++ [Loop true]) ++ [Loop true]).
    eapply run_snoc; [eapply run_snoc; [eapply run_snoc; [eapply run_snoc; [eapply run_snoc; [eapply run_snoc; [constructor|]|]|]|]|]|].
    - apply (s_enter rctx0 1 7); simpl; tauto.
    - apply (s_enter (R false true [] [(1, 7)] []) 2 8); simpl; [reflexivity|intuition discriminate].
    - apply (s_post (R false true [] [(1, 7); (2, 8)] []) 1 7 [] [(2, 8)]); [reflexivity|discriminate|reflexivity].
    - apply (s_post (R true true [(1, 7)] [(2, 8)] []) 2 8 [] []); [reflexivity|discriminate|reflexivity].
    - exact (s_loop (R true true [(1, 7); (2, 8)] [] []) 1 7 [(2, 8)] true eq_refl).
    - exact (s_loop (R true true [(2, 8)] [] [Send 1 7 true]) 2 8 [] true eq_refl). }
  specialize (H _ _ R). simpl in H. lia. Qed.

(** Proved: at most one answer if the calls do not overlap, and in any case at most one for each thread. *)
Theorem C301_one_at_a_time_partial h s : run h s -> one_at_a_time h -> length (sent (acts s)) <= 1.
Proof. intros R O. pose proof (one_answer h s R O) as K. pose proof (Permutation_length (all_given h s R)) as P. rewrite app_length in P. lia. Qed.

Theorem C301_each_thread_partial h s : run h s -> NoDup (map fst (sent (acts s))).
Proof. intros R. destruct (once_each h s R) as (_ & N & _). assert (K : NoDup (map fst (sent (acts s) ++ queue s))).
  { eapply Permutation_NoDup; [|exact N]. symmetry. apply Permutation_map. exact (all_given h s R). }
  rewrite map_app in K. clear - K. induction (map fst (sent (acts s))) as [|x l IH]; [constructor|]. simpl in K. inversion K; subst. constructor; [|auto].
  intros I. apply H1. apply in_or_app. auto. Qed.

Definition calm : list ev := [Enter 1 7 false; Act 1 7 true; Enter 2 8 true; Loop false].
Lemma calm_run : run calm (R true true [] [] [Send 1 7 false; Close]).
Proof. change calm with (((([] ++ [Enter 1 7 false]) ++ [Act 1 7 true]) ++ [Enter 2 8 true]) ++ [Loop false]).
  eapply run_snoc; [eapply run_snoc; [eapply run_snoc; [eapply run_snoc; [constructor|]|]|]|].
  - apply (s_enter rctx0 1 7); simpl; tauto.
  - apply (s_post (R false true [] [(1, 7)] []) 1 7 [] []); [reflexivity|discriminate|reflexivity].
  - apply (s_skip (R true true [(1, 7)] [] []) 2 8); simpl; tauto.
  - exact (s_loop (R true true [(1, 7)] [] []) 1 7 [] false eq_refl). Qed.
Example C301_nonvacuous : exists h s, run h s /\ one_at_a_time h /\ sent (acts s) = [(1, 7)].
Proof. exists calm. eexists. split; [exact calm_run|split; [|reflexivity]]. intros a t r b t' r' seen c E. unfold calm in E.
  destruct a as [|x a].
  - injection E as <- <- E. exists true. destruct b as [|d b]; [discriminate|]. injection E as <- _. left. reflexivity.
  - injection E as _ E. exfalso. destruct a as [|y a]; [discriminate|]. injection E as _ E. destruct a as [|z a]; [discriminate|].
    injection E as _ E. destruct a as [|w a]; [discriminate|]. injection E as _ E. destruct a; discriminate. Qed.

(** C302. An answer sent for a call is the message that this thread passed, in a call that found the request unanswered. *)
Theorem C302_as_passed h s t r : run h s -> In (t, r) (sent (acts s)) -> In (Enter t r false) h.
Proof. intros R I. apply (origin h s R). right. eapply Permutation_in; [exact (all_given h s R)|]. apply in_or_app. auto. Qed.

(** What was sent is never more than what calls returned for while the connection was there. *)
Theorem C302_only_given h s t r : run h s -> In (t, r) (sent (acts s)) -> In (t, r) (given h).
Proof. intros R I. eapply Permutation_in; [exact (all_given h s R)|]. apply in_or_app. auto. Qed.

(** If the calls do not overlap, the answer is the message of the first call of all. *)
Theorem C302_first_call h s t r : run h s -> one_at_a_time h -> In (t, r) (sent (acts s)) ->
  exists a seen b, h = a ++ Enter t r seen :: b /\ forall t' r' seen', ~ In (Enter t' r' seen') a.
Proof. intros R O I. pose proof (first_call h s R O) as F. pose proof (C302_only_given h s t r R I) as G.
  assert (X : exists l, flat_map enter h = (t, r) :: l).
  { destruct (flat_map enter h) as [|x l]; [destruct F as (_ & _ & F); rewrite F in G; contradiction|]. destruct F as [F _]. exists l. f_equal. symmetry. apply F. auto. }
  clear - X. induction h as [|e h IH]; [destruct X; discriminate|]. destruct e as [u v w|u v w|w|].
  - destruct X as [l X]. injection X as -> -> _. exists [], w, h. split; [reflexivity|simpl; tauto].
  - destruct (IH X) as (a & n & b & -> & N). exists (Act u v w :: a), n, b. split; [reflexivity|]. intros t' r' n' [E|E]; [discriminate|eapply N; eassumption].
  - destruct (IH X) as (a & n & b & -> & N). exists (Loop w :: a), n, b. split; [reflexivity|]. intros t' r' n' [E|E]; [discriminate|eapply N; eassumption].
  - destruct (IH X) as (a & n & b & -> & N). exists (Gone :: a), n, b. split; [reflexivity|]. intros t' r' n' [E|E]; [discriminate|eapply N; eassumption]. Qed.

(** Responded() is true exactly if some call went through. *)
Theorem C302_responded h s : run h s -> (replied s = true <-> exists t r ok, In (Act t r ok) h).
Proof. exact (replied_act h s). Qed.

Example C302_nonvacuous : exists h s, run h s /\ In (1, 7) (sent (acts s)).
Proof. exists calm. eexists. split; [exact calm_run|]. left. reflexivity. Qed.

(** C303. No answer is lost: once the loop has run what was posted, every call that went through while the connection was there has
    been answered; answers of the loop's own thread before the call returns; answers of other threads in the order of their calls. *)
Theorem C303_nothing_lost h s : run h s -> queue s = [] -> Permutation (sent (acts s)) (given h).
Proof. intros R Q. pose proof (all_given h s R) as P. rewrite Q, app_nil_r in P. exact P. Qed.

Theorem C303_own_thread h s r ok : run (h ++ [Act 0 r ok]) s -> ~ In Gone h -> In (Send 0 r ok) (acts s).
Proof. intros R N. inversion R as [|h0 s0 e s1 R0 S E]; [destruct h; discriminate|]. apply app_inj_tail in E. destruct E as [-> ->].
  pose proof (alive_gone _ _ R0) as A. assert (G : existsb (fun d => match d with Gone => true | _ => false end) h = false).
  { destruct (existsb _ h) eqn:X; [|reflexivity]. apply existsb_exists in X. destruct X as ([] & I & X); try discriminate. contradiction. }
  rewrite G in A. inversion S; subst; simpl in *; try congruence. apply in_or_app. right. destruct ok; left; reflexivity. Qed.

Theorem C303_in_order h s : run h s -> exists waiting, others (given h) = others (sent (acts s)) ++ waiting.
Proof. intros R. exists (queue s). symmetry. exact (in_order h s R). Qed.

Example C303_nonvacuous : exists h s, run h s /\ queue s = [] /\ given h = [(1, 7)].
Proof. exists calm. eexists. split; [exact calm_run|split; reflexivity]. Qed.
Example C303_own_nonvacuous : exists s, run ([Enter 0 3 false] ++ [Act 0 3 true]) s /\ ~ In Gone [Enter 0 3 false].
Proof. exists (R true true [] [] [Send 0 3 true]). split; [|intros [E|[]]; discriminate].
  eapply run_snoc; [apply (run_snoc [] rctx0 (Enter 0 3 false) (R false true [] [(0, 3)] [])); [constructor|]|].
  - apply (s_enter rctx0 0 3); simpl; tauto.
  - apply (s_here (R false true [] [(0, 3)] []) 3 [] []); reflexivity. Qed.

(** C304. The connection is closed by an answer exactly when sending it failed, right after it; a raw connection stays open otherwise. *)
Theorem C304_closed_after_failure h s a x b : run h s -> acts s = a ++ x :: b ->
  match x with
  | Send _ _ ok => ok = false <-> exists b', b = Close :: b'
  | Close => exists a' t r, a = a' ++ [Send t r false]
  end.
Proof. intros R E. exact (closes_spec _ (acts_closes h s R) a x b E). Qed.

Example C304_nonvacuous : exists h s, run h s /\ acts s = [] ++ Send 1 7 false :: [Close].
Proof. exists calm. eexists. split; [exact calm_run|reflexivity]. Qed.

Print Assumptions C301_statement_refuted.
Print Assumptions C301_one_at_a_time_partial.
Print Assumptions C301_each_thread_partial.
Print Assumptions C302_as_passed.
Print Assumptions C302_only_given.
Print Assumptions C303_nothing_lost.
Print Assumptions C303_own_thread.
Print Assumptions C303_in_order.
Print Assumptions C304_closed_after_failure.

Print Assumptions C302_first_call.
Print Assumptions C302_responded.
