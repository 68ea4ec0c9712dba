From Verif.Model Require Import Common Bytes IpAddress Acceptor UdpService.
From Verif.Spec Require Import IpSpec AcceptSpec.
From Verif.Proofs Require Import Tac IpProofs IpProofs2 IpProofs3.
Local Open Scope Z_scope.

Lemma peer_v4 b e junk : v4_addr b e -> length junk = 16%nat -> peer_endpoint b junk = Ok e.
Proof.
  intros (a & p & L & P & -> & ->) J. unfold peer_endpoint, k_getname. cbn [fst]. rewrite J, firstn_all2 by (rewrite sin_len; auto).
  rewrite sin_len, skipn_all2 by (auto; lia). rewrite app_nil_r. unfold sockaddr_in. rewrite from_v4; auto.
Qed.
Lemma peer_v6 b e junk : v6_addr b e -> length junk = 16%nat -> peer_endpoint b junk = Ok (mkEP [] 0).
Proof.
  intros (f & a & p & s & LF & L & LS & P & -> & ->) J. unfold peer_endpoint, k_getname. cbn [fst]. rewrite J, sin6_len by auto. rewrite skipn_all2 by lia. rewrite app_nil_r.
  unfold sockaddr_in6. list4 f LF. list16 a L. reflexivity.
Qed.
Lemma peer_any b junk : peer_addr b -> length junk = 16%nat -> exists e, peer_endpoint b junk = Ok e.
Proof. intros (e & [H|H]) J; [rewrite (peer_v4 b e junk H J)|rewrite (peer_v6 b e junk H J)]; eauto. Qed.

Lemma fm_app {A B} (f : A -> list B) a b : flat_map f (a ++ b) = flat_map f a ++ flat_map f b.
Proof. apply flat_map_app. Qed.
Lemma resets_map cs : resets (map (fun c => VReset (fst c)) (cs : list conn)) = map fst cs.
Proof. induction cs as [|c cs IH]; cbn; [reflexivity|]. unfold resets in IH. now rewrite IH. Qed.
Lemma others_map cs : handed (map (fun c => VReset (fst c)) (cs : list conn)) = [] /\ queued (map (fun c => VReset (fst c)) (cs : list conn)) = [].
Proof. induction cs as [|c cs [IH1 IH2]]; cbn; auto. Qed.

Definition good (s : acceptor) : Prop := a_reg s = a_listening s /\ (a_listening s = true -> k_listen s = true) /\ (k_open s = false -> a_listening s = false /\ k_backlog s = []) /\ Forall (fun c => peer_addr (snd c)) (k_backlog s).
Ltac gd := unfold good; cbn; split; [|split; [|split]]; auto; try (intros; exfalso; congruence); try (intros; split; congruence); try (intros; congruence); try (match goal with G : ?a = true -> _ |- ?a = true -> _ => let L := fresh in intros L; specialize (G L); congruence end).
Lemma step_good s x s' o : good s -> op_ok x -> step s x = Ok (s', o) -> good s'.
Proof.
  intros (G1 & G2 & G3 & G4) X E. unfold step in E. destruct (k_open s) eqn:Ko; cbn [negb] in E.
  2:{ destruct x; inv E. split; [exact G1|]. split; [exact G2|]. rewrite Ko. auto. }
  destruct x as [ok| |c|ok junk|].
  - unfold StartListen in E. destruct (a_listening s) eqn:L; [inv E; gd|]. destruct ok; inv E; gd.
  - inv E. unfold StopListen. destruct (a_listening s) eqn:L; gd.
  - destruct (k_listen s) eqn:Kl; inv E; gd. apply Forall_app. split; [exact G4|]. repeat constructor. exact X.
  - destruct (a_reg s) eqn:R; [|inv E; gd]. destruct (k_backlog s) as [|c r] eqn:B; [inv E; gd; rewrite ?B; auto|].
    destruct ok; [|inv E; gd; rewrite ?B; auto]. inversion G4 as [|? ? P1 P2]; subst. destruct (peer_any (snd c) junk P1 X) as [e Ee]. rewrite Ee in E. cbn in E. inv E.
    gd.
  - destruct (a_listening s); inv E. gd.
Qed.
Lemma step_balance s x s' o : good s -> op_ok x -> step s x = Ok (s', o) -> map fst (k_backlog s) ++ queued o = handed o ++ resets o ++ map fst (k_backlog s').
Proof.
  intros (G1 & G2 & G3 & G4) X E. unfold step in E. destruct (k_open s) eqn:Ko; cbn [negb] in E.
  2:{ destruct x; inv E. cbn. now rewrite app_nil_r. }
  destruct x as [ok| |c|ok junk|].
  - unfold StartListen in E. destruct (a_listening s); [|destruct ok]; inv E; cbn; now rewrite app_nil_r.
  - inv E. unfold StopListen. destruct (a_listening s); cbn; now rewrite app_nil_r.
  - destruct (k_listen s); inv E; cbn; [now rewrite map_app|now rewrite app_nil_r].
  - destruct (a_reg s); [|inv E; cbn; now rewrite app_nil_r]. destruct (k_backlog s) as [|c r] eqn:B; [inv E; cbn; rewrite B; reflexivity|].
    destruct ok; [|inv E; cbn; rewrite B; now rewrite app_nil_r]. inversion G4 as [|? ? P1 P2]; subst. destruct (peer_any (snd c) junk P1 X) as [e Ee]. rewrite Ee in E. cbn in E. inv E.
    cbn. now rewrite app_nil_r.
  - destruct (a_listening s); inv E. destruct (others_map (k_backlog s)) as [-> ->]. rewrite resets_map. cbn. now rewrite !app_nil_r.
Qed.
Lemma closed_run xs : forall s s' o, k_open s = false -> run s xs = Ok (s', o) -> s' = s /\ handed o = [] /\ queued o = [] /\ resets o = [].
Proof.
  induction xs as [|x xs IH]; intros s s' o K E; cbn [run] in E; [inv E; auto|].
  unfold step in E. rewrite K in E. cbn [negb] in E. destruct x; cbn [obind] in E; try discriminate.
  destruct (run s xs) as [[s1 o1]| |] eqn:R; cbn [obind] in E; inv E. destruct (IH _ _ _ K R) as (-> & A & B & C). auto.
Qed.
Lemma run_good xs : forall s s' o, good s -> Forall op_ok xs -> run s xs = Ok (s', o) -> good s'.
Proof.
  induction xs as [|x xs IH]; intros s s' o G F E; cbn [run] in E; [now inv E|]. inv F.
  destruct (step s x) as [[s1 o1]| |] eqn:S1; cbn [obind] in E; try discriminate. destruct (run s1 xs) as [[s2 o2]| |] eqn:R; cbn [obind] in E; inv E.
  eapply IH; [|eassumption|exact R]. now apply (step_good s x s1 o1).
Qed.
Lemma step_resets s x s' o : step s x = Ok (s', o) -> resets o = [] \/ k_open s' = false.
Proof.
  unfold step. destruct (k_open s) eqn:Ko; cbn [negb]; [|destruct x; intros E; inv E; auto].
  destruct x as [ok| |c|ok junk|]; intros E.
  - unfold StartListen in E. destruct (a_listening s); [|destruct ok]; inv E; auto.
  - inv E; auto.
  - destruct (k_listen s); inv E; auto.
  - destruct (a_reg s); [|inv E; auto]. destruct (k_backlog s); [inv E; auto|]. destruct ok; [|inv E; auto]. destruct (peer_endpoint _ _); cbn in E; inv E; auto.
  - destruct (a_listening s); inv E; auto.
Qed.
Lemma run_balance xs : forall s s' o, good s -> Forall op_ok xs -> run s xs = Ok (s', o) -> map fst (k_backlog s) ++ queued o = handed o ++ resets o ++ map fst (k_backlog s').
Proof.
  induction xs as [|x xs IH]; intros s s' o G F E; cbn [run] in E.
  - inv E. cbn. now rewrite app_nil_r.
  - inv F. destruct (step s x) as [[s1 o1]| |] eqn:S1; cbn [obind] in E; try discriminate. destruct (run s1 xs) as [[s2 o2]| |] eqn:R; cbn [obind] in E; inv E.
    pose proof (step_balance s x s1 o1 G H1 S1) as B1. pose proof (step_good s x s1 o1 G H1 S1) as G1. pose proof (IH _ _ _ G1 H2 R) as B2.
    unfold queued, handed, resets in *. rewrite !fm_app. rewrite app_assoc, B1. destruct (step_resets s x s1 o1 S1) as [N|N].
    + unfold resets in N. rewrite N in *. cbn [app] in *. rewrite <- !app_assoc. f_equal. exact B2.
    + destruct (closed_run xs s1 s' o2 N R) as (-> & A1 & A2 & A3). unfold queued, handed, resets in *. rewrite A1, A2, A3. cbn. rewrite !app_nil_r. reflexivity.
Qed.
Lemma created e s : create e = Ok s -> good s /\ k_backlog s = [].
Proof. unfold create. destruct (_ && _); intros E; inv E. repeat split; cbn; auto; discriminate. Qed.

(** Polling. *)
Fixpoint successes (ps : list (bool * list Z)) : nat := match ps with [] => 0 | (true, _) :: ps => S (successes ps) | (false, _) :: ps => successes ps end.
Lemma polls ps : forall s, good s -> k_open s = true -> a_listening s = true -> Forall (fun p => length (snd p) = 16%nat) ps ->
  exists s' o, run s (map (fun p => APoll (fst p) (snd p)) ps) = Ok (s', o) /\ handed o = map fst (firstn (successes ps) (k_backlog s)) /\
    k_backlog s' = skipn (successes ps) (k_backlog s) /\ a_listening s' = true /\ k_open s' = true.
Proof.
  induction ps as [|[ok junk] ps IH]; intros s G K L F; cbn [map run successes fst snd].
  - exists s, []. repeat split; auto.
  - inv F. cbn [snd] in H1. pose proof G as (G1 & G2 & G3 & G4). unfold step. rewrite K. cbn [negb]. rewrite G1, L.
    destruct (k_backlog s) as [|c r] eqn:B.
    + cbn [obind]. destruct (IH s G K L H2) as (s' & o & R & A1 & A2 & A3 & A4). rewrite R. cbn [obind]. rewrite B in *. rewrite firstn_nil, skipn_nil in *.
      exists s', o. destruct ok; rewrite ?firstn_nil, ?skipn_nil; auto.
    + destruct ok.
      * inversion G4 as [|? ? P1 P2]; subst. destruct (peer_any (snd c) junk P1 H1) as [e Ee]. rewrite Ee. cbn [obind].
        destruct (IH (Acceptor true true (k_listen s) r true)) as (s' & o & R & A1 & A2 & A3 & A4); auto.
        { split; [reflexivity|]. split; [cbn; intros _; auto|]. split; [discriminate|exact P2]. }
        cbn [k_backlog] in *. rewrite R. cbn [obind]. eexists _, _. split; [reflexivity|]. cbn [app firstn skipn map]. unfold handed in *. cbn. rewrite A1. auto.
      * cbn [obind]. destruct (IH s G K L H2) as (s' & o & R & A1 & A2 & A3 & A4). rewrite R. cbn [obind]. rewrite B in *. exists s', o. auto.
Qed.
Lemma polls_n n s : good s -> k_open s = true -> a_listening s = true ->
  exists s' o, run s (repeat (APoll true (repeat 0 16)) n) = Ok (s', o) /\ handed o = map fst (firstn n (k_backlog s)) /\ k_backlog s' = skipn n (k_backlog s).
Proof.
  intros G K L. destruct (polls (repeat (true, repeat 0 16) n) s G K L) as (s' & o & R & A1 & A2 & _).
  - apply Forall_forall. intros p I. apply repeat_spec in I. subst p. reflexivity.
  - assert (SN : forall z k, successes (repeat (true, z) k) = k) by (intros z k; induction k as [|k IHk]; [reflexivity|cbn [repeat successes]; now rewrite IHk]). rewrite SN in *. assert (MR : forall z k, map (fun p : bool * list Z => APoll (fst p) (snd p)) (repeat (true, z) k) = repeat (APoll true z) k) by (intros z k; induction k as [|k IHk]; [reflexivity|cbn [repeat map fst snd]; rewrite IHk; reflexivity]). rewrite MR in R. exists s', o. auto.
Qed.
Lemma run_app xs : forall s ys s1 o1 s2 o2, run s xs = Ok (s1, o1) -> run s1 ys = Ok (s2, o2) -> run s (xs ++ ys) = Ok (s2, o1 ++ o2).
Proof.
  induction xs as [|x xs IH]; intros s ys s1 o1 s2 o2 H1 H2; cbn [run app] in *; [inv H1; exact H2|].
  destruct (step s x) as [[t p]| |]; cbn [obind] in *; try discriminate. destruct (run t xs) as [[t2 p2]| |] eqn:R; cbn [obind] in *; inv H1.
  rewrite (IH _ _ _ _ _ _ R H2). cbn [obind]. now rewrite app_assoc.
Qed.
Lemma connects cs : forall s, good s -> k_open s = true -> k_listen s = true -> Forall (fun c => peer_addr (snd c)) cs ->
  run s (map AConnect cs) = Ok (Acceptor (a_listening s) (a_reg s) (k_listen s) (k_backlog s ++ cs) (k_open s), map (fun c => VQueued (fst c)) cs).
Proof.
  induction cs as [|c cs IH]; intros s G K L F; cbn [map run].
  - rewrite app_nil_r. now destruct s.
  - inv F. unfold step. rewrite K, L. cbn [negb obind]. rewrite IH; auto.
    + cbn. rewrite <- app_assoc. cbn [app]. reflexivity.
    + destruct G as (G1 & G2 & G3 & G4). repeat split; cbn; auto; try discriminate. apply Forall_app. split; auto.
Qed.
