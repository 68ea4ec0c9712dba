(** C254-C262: what serves which scheme, and several services under one server. *)
From Coq Require Import String Permutation Znumtheory.
From Verif.Model Require Import Common Serving.
From Verif.Spec Require Import ServeSpec.
From Verif.Proofs Require Import Tac ServeProofs.
Local Open Scope string_scope.
Local Open Scope list_scope.
Local Open Scope nat_scope.
Local Notation length := List.length.

(** C254. After any registrations [xs], a scheme is served, on both sides, by what was registered last for it, otherwise by the library's
    own codec, otherwise by nothing; the codec knows its scheme and its side. *)
Theorem C254_last_registration : forall h2 xs p server, let r := fold_left RegisterCreator xs (defaults h2) in
  (forall k, last_registered xs p (CMake k) -> NewService r p server = Ok (Some (Codec k p server))) /\
  (last_registered xs p CEmpty -> NewService r p server = Ok None) /\
  (forall k, never_registered xs p -> builtin h2 p k -> NewService r p server = Ok (Some (Codec k p server))) /\
  (never_registered xs p -> (forall k, ~ builtin h2 p k) -> NewService r p server = Ok None /\ HasCreator r p = false).
Proof.
  intros h2 xs p server r. unfold r, NewService, HasCreator. repeat split.
  - intros k H. now rewrite (find_last _ _ _ _ H).
  - intros H. now rewrite (find_last _ _ _ _ H).
  - intros k N B. now rewrite (find_never _ _ _ N), (defaults_builtin _ _ _ B).
  - intros. rewrite (find_never _ _ _ H). destruct (find (defaults h2) p) as [c|] eqn:E; [|reflexivity]. destruct (defaults_inv _ _ _ E) as (k & -> & B). destruct (H0 k B).
  - intros. rewrite (find_never _ _ _ H). destruct (find (defaults h2) p) as [c|] eqn:E; [|reflexivity]. destruct (defaults_inv _ _ _ E) as (k & -> & B). destruct (H0 k B).
Qed.
Example C254_nonvacuous : let xs := [("raw", CMake (KUser 1 false)); ("mine", CMake (KUser 2 true)); ("raw", CMake (KUser 3 false))] in
  last_registered xs "raw" (CMake (KUser 3 false)) /\ never_registered xs "http" /\ builtin false "http" KHttp /\ never_registered xs "h2" /\ (forall k, ~ builtin false "h2" k).
Proof.
  cbn zeta. split; [eexists [_; _], []; split; [reflexivity|constructor]|]. split; [repeat constructor; discriminate|]. split; [constructor|]. split; [repeat constructor; discriminate|]. intros k H. inv H. discriminate.
Qed.

(** C255 (refuted). With the library's own codecs, connections of the schemes named for TLS are encrypted, on both sides, and the others are not. *)
Definition C255_statement : Prop := forall h2 xs p k, never_registered xs p -> builtin h2 p k -> let r := fold_left RegisterCreator xs (defaults h2) in
  exists n m, server_connection true r p = Ok (Some n) /\ client_connection true r p = Ok m /\ (n_tls n = true <-> tls_scheme p) /\ (n_tls m = true <-> tls_scheme p).
Theorem C255_statement_refuted : ~ C255_statement.
Proof.
  intros H. destruct (H false [] "rawSSL" KRaw) as (n & m & A & _ & B & _); [constructor|constructor|]. vm_compute in A. inv A. cbn in B. destruct B as [_ B]. discriminate B. unfold tls_scheme. auto.
Qed.
(** All but rawSSL, which is plain text on both sides. *)
Theorem C255_all_but_rawssl_partial : forall h2 xs p k, never_registered xs p -> builtin h2 p k -> let r := fold_left RegisterCreator xs (defaults h2) in
  exists n m, server_connection true r p = Ok (Some n) /\ client_connection true r p = Ok m /\ n_tls n = n_tls m /\ (n_tls n = true <-> tls_scheme p /\ p <> "rawSSL").
Proof.
  intros h2 xs p k N B r. unfold server_connection, client_connection, NewService, r. rewrite (find_never _ _ _ N), (defaults_builtin _ _ _ B). cbn [obind].
  unfold channel_for, UseSSLChannel, tls_scheme. destruct B; cbn; eexists _, _; (split; [reflexivity|]); (split; [reflexivity|]); (split; [reflexivity|]); cbn; intuition congruence.
Qed.
(** In a build without TLS the schemes that would be encrypted abort on both sides, and never fall back to plain text; the others are served as before. *)
Theorem C255_without_tls_partial : forall h2 xs p k, never_registered xs p -> builtin h2 p k -> let r := fold_left RegisterCreator xs (defaults h2) in
  (tls_scheme p /\ p <> "rawSSL" -> server_connection false r p = CheckFail /\ client_connection false r p = CheckFail) /\
  (~ (tls_scheme p /\ p <> "rawSSL") -> server_connection false r p = server_connection true r p /\ client_connection false r p = client_connection true r p).
Proof.
  intros h2 xs p k N B r. unfold server_connection, client_connection, NewService, r. rewrite (find_never _ _ _ N), (defaults_builtin _ _ _ B). cbn [obind].
  unfold channel_for, UseSSLChannel, tls_scheme. destruct B; cbn; split; intros HT; split; try reflexivity; exfalso; intuition congruence.
Qed.
Example C255_nonvacuous : (exists n, server_connection true (defaults true) "h2" = Ok (Some n) /\ n_tls n = true) /\ (exists m, client_connection true (defaults false) "ws" = Ok m /\ n_tls m = false).
Proof. split; eexists; split; reflexivity. Qed.

(** C256 (refuted). The coroutine server encrypts the connections of schemes named for TLS. *)
Definition C256_statement : Prop := forall h2 p k, builtin h2 p k -> tls_scheme p -> exists n, coro_connection (defaults h2) p = Ok n /\ n_tls n = true.
Theorem C256_statement_refuted : ~ C256_statement.
Proof. intros H. destruct (H false "https" KHttp) as (n & A & B); [constructor|unfold tls_scheme; auto|]. vm_compute in A. inv A. discriminate B. Qed.
(** It never encrypts, even for codecs that ask for it; for a scheme without codec the first connection ends the process. *)
Theorem C256_plain_partial : forall h2 xs p, let r := fold_left RegisterCreator xs (defaults h2) in
  (forall n, coro_connection r p = Ok n -> n_tls n = false) /\
  (forall k, last_registered xs p (CMake k) \/ never_registered xs p /\ builtin h2 p k -> exists n, coro_connection r p = Ok n /\ c_kind (n_codec n) = k) /\
  (never_registered xs p -> (forall k, ~ builtin h2 p k) -> coro_connection r p = CheckFail).
Proof.
  intros h2 xs p r. unfold coro_connection. destruct (C254_last_registration h2 xs p true) as (A & B & C & D). fold r in A, B, C, D. split; [|split].
  - intros n. destruct (NewService r p true) as [[c|]| |]; cbn [obind]; intros H; inv H. reflexivity.
  - intros k [H|[H1 H2]]; [rewrite (A _ H)|rewrite (C _ H1 H2)]; cbn [obind]; eexists; split; reflexivity.
  - intros H1 H2. destruct (D H1 H2) as [E _]. now rewrite E.
Qed.
Example C256_nonvacuous : exists n, coro_connection (fold_left RegisterCreator [("mine", CMake (KUser 2 true))] (defaults false)) "mine" = Ok n /\ UseSSLChannel (n_codec n) = true /\ n_tls n = false.
Proof. eexists. split; [reflexivity|]. split; reflexivity. Qed.

(** C257 (refuted). If a server accepts an address, the connections made to it are served. *)
Definition C257_statement : Prop := forall h2 xs p q, let r := fold_left RegisterCreator xs (defaults h2) in
  ServeScheme r p = Ok q -> exists n, server_connection true r q = Ok (Some n).
Theorem C257_statement_refuted : ~ C257_statement.
Proof. intros H. destruct (H false [("mine", CEmpty)] "mine" "mine" eq_refl) as (n & E). discriminate E. Qed.
(** So it is if every registered creator makes codecs (also after further registrations); otherwise, for an empty creator every
    connection is dropped, and a creator that returns null crashes the process at the first connection. An address whose scheme has no codec is not accepted. *)
Theorem C257_served_partial : forall h2 xs ys p, let r := fold_left RegisterCreator xs (defaults h2) in let r' := fold_left RegisterCreator ys r in
  (Forall (fun x => exists k, snd x = CMake k) (xs ++ ys) -> forall q, ServeScheme r p = Ok q -> exists n, server_connection true r' q = Ok (Some n) /\ c_proto (n_codec n) = p) /\
  (last_registered xs p CEmpty -> ServeScheme r p = Ok p /\ server_connection true r p = Ok None) /\
  (last_registered xs p CNull -> ServeScheme r p = Ok p /\ server_connection true r p = UB) /\
  (never_registered xs p -> (forall k, ~ builtin h2 p k) -> ServeScheme r p = CheckFail).
Proof.
  intros h2 xs ys p r r'. split; [|split; [|split]].
  - intros F q S. unfold ServeScheme in S. destruct (HasCreator r p) eqn:HC; [|discriminate]. inv S.
    assert (R : r' = fold_left RegisterCreator (xs ++ ys) (defaults h2)) by (unfold r', r; now rewrite fold_left_app).
    assert (K : exists k, find r' q = Some (CMake k)).
    { rewrite R. destruct (last_or_never (xs ++ ys) q) as [N|(c & L)].
      - rewrite (find_never _ _ _ N). unfold HasCreator, r in HC. unfold never_registered in N. apply Forall_app in N. destruct N as [N _]. rewrite (find_never _ _ _ N) in HC.
        destruct (find (defaults h2) q) as [c|] eqn:E; [|discriminate]. destruct (defaults_inv _ _ _ E) as (k & -> & _). eauto.
      - rewrite (find_last _ _ _ _ L). destruct L as (a & b & E & _). rewrite E in F. apply Forall_app in F. destruct F as [_ F]. inv F. destruct H1 as (k & H1). cbn in H1. subst. eauto. }
    destruct K as (k & K). unfold server_connection, NewService. rewrite K. cbn [obind]. unfold channel_for. destruct (UseSSLChannel _); cbn [obind]; eexists; split; reflexivity.
  - intros L. unfold ServeScheme, HasCreator, server_connection, NewService, r. rewrite (find_last _ _ _ _ L). split; reflexivity.
  - intros L. unfold ServeScheme, HasCreator, server_connection, NewService, r. rewrite (find_last _ _ _ _ L). split; reflexivity.
  - intros N B. unfold ServeScheme. destruct (C254_last_registration h2 xs p true) as (_ & _ & _ & D). unfold r. now rewrite (proj2 (D N B)).
Qed.
Example C257_nonvacuous : let xs := [("mine", CMake (KUser 1 true))] in Forall (fun x => exists k, snd x = CMake k) (xs ++ [("mine", CMake (KUser 2 false))]) /\
  ServeScheme (fold_left RegisterCreator xs (defaults false)) "mine" = Ok "mine" /\ last_registered [("x", CNull)] "x" CNull.
Proof. cbn zeta. split; [repeat constructor; eexists; reflexivity|]. split; [reflexivity|]. exists [], []. split; [reflexivity|constructor]. Qed.

(** C258 (refuted). A client for a scheme without codec reports an error. *)
Definition C258_statement : Prop := forall h2 p, (forall k, ~ builtin h2 p k) -> client_connection true (defaults h2) p <> CheckFail.
Theorem C258_statement_refuted : ~ C258_statement.
Proof. intros H. apply (H false "h2"); [intros k B; inv B; discriminate|]. reflexivity. Qed.
(** The process ends when the first connection is made, for exactly those schemes without codec (or whose creator was taken away); never for others. *)
Theorem C258_abort_partial : forall h2 xs p, let r := fold_left RegisterCreator xs (defaults h2) in
  client_connection true r p = CheckFail <-> (last_registered xs p CEmpty \/ never_registered xs p /\ forall k, ~ builtin h2 p k).
Proof.
  intros h2 xs p r. destruct (C254_last_registration h2 xs p false) as (A & B & C & D). fold r in A, B, C, D. unfold client_connection. split.
  - intros E. destruct (last_or_never xs p) as [N|(c & L)].
    + right. split; [exact N|]. intros k BI. rewrite (C _ N BI) in E. cbn [obind] in E. unfold channel_for in E. destruct (UseSSLChannel _); discriminate.
    + destruct c as [| |k]; [now left| |]; exfalso.
      * unfold NewService, r in E. rewrite (find_last _ _ _ _ L) in E. discriminate E.
      * rewrite (A _ L) in E. cbn [obind] in E. unfold channel_for in E. destruct (UseSSLChannel _); discriminate.
  - intros [L|[N NB]]; [rewrite (B L)|rewrite (proj1 (D N NB))]; reflexivity.
Qed.
Example C258_nonvacuous : client_connection true (defaults false) "ftp" = CheckFail /\ exists m, client_connection true (defaults false) "redis" = Ok m.
Proof. split; [reflexivity|]. eexists. reflexivity. Qed.

(** C259 (refuted). With one service per loop the connections of a server never exceed its limit. *)
Definition C259_statement : Prop := forall limit n os s, lrun limit n linit os = Some s -> length (l_held s) <= limit.
(** They exceed it by at most the number of loops less one, under every schedule, and the count is always exact ... *)
Theorem C259_bound_partial : forall limit n os s, lrun limit n linit os = Some s -> length (l_held s) <= limit + (n - 1) /\ l_count s = length (l_held s).
Proof. intros limit n os s H. destruct (lrun_inv limit n os linit s (linit_inv limit n) H) as (A & _ & _ & _ & B). split; [|exact A]. rewrite <- A. lia. Qed.
(** ... and some schedule reaches that, for every limit and number of loops. *)
Theorem C259_reached_partial : forall limit n, 0 < limit -> 0 < n -> exists os s, lrun limit n linit os = Some s /\ length (l_held s) = limit + (n - 1) /\ l_pending s = [].
Proof.
  intros limit n L N.
  assert (A := one_by_one limit n (limit - 1) 0 [] N ltac:(lia)).
  assert (B := all_check limit n (limit - 1) (repeat 0 (limit - 1) ++ []) ltac:(lia) n 0 [] ltac:(lia) ltac:(intros i [])).
  assert (C := all_store limit n (List.rev (seq 0 n)) (limit - 1) (repeat 0 (limit - 1) ++ [])).
  eexists (_ ++ _ ++ _), _. split; [|split].
  - erewrite lrun_app by exact A. erewrite lrun_app by (cbn [Nat.add]; exact B). rewrite app_nil_r. exact C.
  - cbn [l_held]. rewrite !app_length, !rev_length, repeat_length, seq_length. cbn. lia.
  - reflexivity.
Qed.
Theorem C259_statement_refuted : ~ C259_statement.
Proof. intros H. destruct (C259_reached_partial 1 2) as (os & s & R & E & _); [lia|lia|]. specialize (H _ _ _ _ R). lia. Qed.
Example C259_nonvacuous : exists s, lrun 1 2 linit [LCheck 0; LCheck 1; LStore 1; LStore 0; LCheck 0; LRemove 1; LCheck 1; LRemove 0; LCheck 1; LStore 1] = Some s /\ l_held s = [1].
Proof. eexists. split; reflexivity. Qed.

(** C260 (refuted). Every callback given to StopServer runs, once all services that ran have reported. *)
Definition C260_statement : Prop := forall os s e c, srun server0 os = Ok (s, e) -> In (SStop (Some c)) os -> (forall i, i < v_next s -> In (SReport i) os) -> In c e.
Theorem C260_statement_refuted : ~ C260_statement.
Proof.
  intros H. specialize (H [SServe 1; SStop (Some 1); SServe 1; SReport 0; SStop (Some 2); SReport 1] _ _ 1 eq_refl). cbn in H.
  destruct H as [E|[]]; [auto| |discriminate]. intros i I. destruct i as [|[|i]]; [auto 10|auto 10|lia].
Qed.
(** Rounds of serving with any number of loops, stopping, and reports of all services in any order, each round finished before the next
    begins: each round's callback runs exactly once, at its last report and not before. A service that reports again runs it again. *)
Inductive rounds : nat -> list sop -> list nat -> Prop :=
| r_nil : rounds 0 [] []
| r_round : forall base os cbs n c is js, rounds base os cbs -> n <> 0 -> Permutation is (seq base n) ->
    rounds (base + n) (os ++ SServe n :: SStop (Some c) :: map SReport (is ++ js)) (cbs ++ repeat c (S (length js))).
Lemma rounds_run : forall b os cbs, rounds b os cbs -> exists cb, srun server0 os = Ok (Server false [] b cb, cbs).
Proof.
  induction 1 as [|base os cbs n c is js R (cb & IH) N P]; [exists None; reflexivity|]. exists (Some c).
  destruct (cycle_ok (Server false [] base cb) n c is js eq_refl eq_refl N P) as [A _]. rewrite (srun_app _ _ _ _ _ IH). rewrite A. reflexivity.
Qed.
Theorem C260_rounds_partial : forall base os cbs n c is, rounds base os cbs -> n <> 0 -> Permutation is (seq base n) ->
  (exists s, srun server0 os = Ok (s, cbs)) /\
  (exists s, srun server0 (os ++ SServe n :: SStop (Some c) :: map SReport is) = Ok (s, cbs ++ [c])) /\
  (forall a b, is = a ++ b -> b <> [] -> exists s, srun server0 (os ++ SServe n :: SStop (Some c) :: map SReport a) = Ok (s, cbs)).
Proof.
  intros base os cbs n c is R N P. destruct (rounds_run _ _ _ R) as (cb & E).
  destruct (cycle_ok (Server false [] base cb) n c is [] eq_refl eq_refl N P) as [A B]. split; [eauto|]. split.
  - rewrite (srun_app _ _ _ _ _ E). rewrite app_nil_r in A. rewrite A. cbn. eauto.
  - intros a b Ea Nb. destruct (B a b Ea Nb) as (l & X). rewrite (srun_app _ _ _ _ _ E). rewrite X. cbn [obind]. rewrite app_nil_r. eauto.
Qed.
Example C260_nonvacuous : rounds 3 (SServe 3 :: SStop (Some 7) :: map SReport [1; 2; 0]) [7] /\ Permutation [4; 3] (seq 3 2) /\
  exists s, srun server0 [SServe 3; SStop (Some 7); SReport 1; SReport 2; SReport 0; SServe 2; SStop (Some 8); SReport 4; SReport 3] = Ok (s, [7; 8]).
Proof.
  split; [|split; [apply perm_swap|eexists; reflexivity]].
  assert (X := r_round 0 [] [] 3 7 [1; 2; 0] [] r_nil). cbn in X. apply X; [discriminate|]. apply perm_trans with [1; 0; 2]; [apply perm_skip, perm_swap|apply perm_swap].
Qed.

(** C261 (refuted). Without SO_REUSEPORT a server's connections go to its loops in turn: of as many consecutive ones as it has loops, each loop gets one. *)
Local Open Scope Z_scope.
Definition loops_of (a : nat) (l : list (nat * Z)) : list Z := map snd (filter (fun x => Nat.eqb (fst x) a) l).
Definition C261_statement : Prop := forall c loops arrivals a, 0 <= c < 2 ^ 32 -> (forall b, 0 < loops b < 2 ^ 32) -> Z.of_nat (length (filter (Nat.eqb a) arrivals)) = loops a -> NoDup (loops_of a (assign c loops arrivals)).
Theorem C261_statement_refuted : ~ C261_statement.
Proof.
  intros H. specialize (H 0 (fun _ => 2) [0; 1; 0; 1]%nat 0%nat ltac:(lia) ltac:(intros; lia) eq_refl). vm_compute in H. inv H. apply H2. now left.
Qed.
(** Also for a lone server, when the 32-bit counter wraps. *)
Theorem C261_wrap_partial : ~ NoDup (loops_of 0 (assign (2 ^ 32 - 1) (fun _ => 3) [0; 0; 0]%nat)).
Proof. intros H. vm_compute in H. inv H. apply H2. now left. Qed.
Lemma assign_alone n a : 0 < n -> forall k c, 0 <= c < 2 ^ 32 -> c + Z.of_nat k <= 2 ^ 32 \/ (n | 2 ^ 32) ->
  map snd (assign c (fun _ => n) (repeat a k)) = map (fun i => (c + Z.of_nat i) mod n) (seq 0 k).
Proof.
  intros N. induction k as [|k IH]; intros c C D; [reflexivity|]. cbn [repeat assign GetNextIOWorkLoop seq map snd]. f_equal; [now rewrite Z.add_0_r|].
  rewrite <- seq_shift, map_map. destruct (Z.eq_dec (c + 1) (2 ^ 32)) as [E|NE].
  - rewrite E, Z_mod_same_full. destruct k as [|k]; [reflexivity|]. destruct D as [D|D]; [lia|]. rewrite IH by (auto; lia). apply map_ext. intros i.
    rewrite Nat2Z.inj_succ. replace (c + Z.succ (Z.of_nat i)) with (0 + Z.of_nat i + 2 ^ 32) by lia. destruct D as [q D]. rewrite D. now rewrite Z_mod_plus_full.
  - rewrite Z.mod_small by lia. rewrite IH; [|lia|destruct D; [left; lia|now right]]. apply map_ext. intros i. f_equal. lia.
Qed.
(** A lone server whose counter does not wrap meanwhile, or whose number of loops is a power of two, does give each loop one. *)
Theorem C261_in_turn_partial : forall n a c, 0 < n < 2 ^ 32 -> 0 <= c < 2 ^ 32 -> c + n <= 2 ^ 32 \/ (n | 2 ^ 32) ->
  Permutation (map snd (assign c (fun _ => n) (repeat a (Z.to_nat n)))) (map Z.of_nat (seq 0 (Z.to_nat n))).
Proof.
  intros n a c N C D. rewrite assign_alone; [|lia|exact C|rewrite Z2Nat.id by lia; exact D].
  apply NoDup_Permutation_bis.
  - assert (G : forall l, NoDup l -> (forall i, In i l -> (i < Z.to_nat n)%nat) -> NoDup (map (fun i => (c + Z.of_nat i) mod n) l)).
    { induction l as [|x l IH]; intros ND B; [constructor|]. inv ND. cbn [map]. constructor; [|apply IH; auto; intros; apply B; now right].
      intros I. apply in_map_iff in I. destruct I as (y & E & I). assert (X := B x (or_introl eq_refl)). assert (Y := B y (or_intror I)).
      assert (HX := Z.div_mod (c + Z.of_nat x) n ltac:(lia)). assert (HY := Z.div_mod (c + Z.of_nat y) n ltac:(lia)). rewrite E in HY.
      assert (Q : n * ((c + Z.of_nat x) / n - (c + Z.of_nat y) / n) = Z.of_nat x - Z.of_nat y) by lia.
      assert ((c + Z.of_nat x) / n - (c + Z.of_nat y) / n = 0) by nia. assert (x = y) by lia. subst. auto. }
    apply G; [apply seq_NoDup|]. intros i I. apply in_seq in I. lia.
  - rewrite !map_length. lia.
  - intros x I. apply in_map_iff in I. destruct I as (i & <- & I). apply in_map_iff. exists (Z.to_nat ((c + Z.of_nat i) mod n)). pose proof (Z.mod_pos_bound (c + Z.of_nat i) n ltac:(lia)).
    split; [lia|]. apply in_seq. lia.
Qed.
Example C261_nonvacuous : map snd (assign 7 (fun _ => 3) [0; 0; 0]%nat) = [1; 2; 0] /\ map snd (assign (2 ^ 32 - 1) (fun _ => 4) [0; 0; 0; 0]%nat) = [3; 0; 1; 2].
Proof. split; vm_compute; reflexivity. Qed.
Local Close Scope Z_scope.

(** C262. However often a raw server's handler answers a request, the first answer counts: it alone is sent (or closes the connection if it cannot be). *)
Theorem C262_first_answer : forall l, responses (RCtx false) l = match l with (true, true, m) :: _ => [Sent m] | (true, false, _) :: _ => [Closed] | _ => [] end.
Proof.
  assert (D : forall l, responses (RCtx true) l = []) by (induction l as [|[[a ok] m] l IH]; [reflexivity|exact IH]).
  intros [|[[[|] [|]] m] l]; cbn; rewrite ?D; reflexivity.
Qed.
Example C262_nonvacuous : responses (RCtx false) [(true, true, 5); (true, true, 6)] = [Sent 5] /\ responses (RCtx false) [(false, true, 5); (true, true, 6)] = [].
Proof. split; reflexivity. Qed.

Print Assumptions C254_last_registration.
Print Assumptions C255_statement_refuted.
Print Assumptions C255_all_but_rawssl_partial.
Print Assumptions C255_without_tls_partial.
Print Assumptions C256_statement_refuted.
Print Assumptions C256_plain_partial.
Print Assumptions C257_statement_refuted.
Print Assumptions C257_served_partial.
Print Assumptions C258_statement_refuted.
Print Assumptions C258_abort_partial.
Print Assumptions C259_bound_partial.
Print Assumptions C259_reached_partial.
Print Assumptions C259_statement_refuted.
Print Assumptions C260_statement_refuted.
Print Assumptions C260_rounds_partial.
Print Assumptions C261_statement_refuted.
Print Assumptions C261_wrap_partial.
Print Assumptions C261_in_turn_partial.
Print Assumptions C262_first_answer.
