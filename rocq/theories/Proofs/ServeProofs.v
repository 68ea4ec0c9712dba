From Coq Require Import String Permutation.
From Verif.Model Require Import Common Serving.
From Verif.Spec Require Import ServeSpec.
From Verif.Proofs Require Import Tac.
Local Open Scope string_scope.
Local Open Scope list_scope.
Local Open Scope nat_scope.
Local Notation length := List.length.

Lemma find_set r p c q : find (set_entry r p c) q = if String.eqb p q then Some c else find r q.
Proof.
  induction r as [|[x d] r IH]; cbn [set_entry find]; [destruct (String.eqb p q); reflexivity|].
  destruct (String.eqb_spec x p) as [->|N]; cbn [find].
  - destruct (String.eqb p q); reflexivity.
  - rewrite IH. destruct (String.eqb_spec x q) as [->|M]; [|reflexivity].
    destruct (String.eqb_spec p q) as [->|]; [congruence|reflexivity].
Qed.
Lemma find_never xs p : forall r, never_registered xs p -> find (fold_left RegisterCreator xs r) p = find r p.
Proof.
  induction xs as [|[q c] xs IH]; intros r H; [reflexivity|]. inv H. cbn [fold_left fst] in *. rewrite IH by assumption.
  unfold RegisterCreator. cbn. rewrite find_set. destruct (String.eqb_spec q p); [congruence|reflexivity].
Qed.
Lemma find_last xs p c r : last_registered xs p c -> find (fold_left RegisterCreator xs r) p = Some c.
Proof.
  intros (a & b & -> & F). rewrite fold_left_app. cbn [fold_left]. rewrite find_never by exact F. unfold RegisterCreator. cbn. rewrite find_set. now rewrite String.eqb_refl.
Qed.
Lemma last_or_never xs p : never_registered xs p \/ exists c, last_registered xs p c.
Proof.
  induction xs as [|[q c] xs IH]; [left; constructor|]. destruct IH as [N|(d & a & b & -> & F)].
  - destruct (String.eqb_spec q p) as [->|M]; [right; exists c, [], xs; split; [reflexivity|exact N]|left; constructor; assumption].
  - right. exists d, ((q, c) :: a), b. split; [reflexivity|exact F].
Qed.
Lemma defaults_builtin h2 p k : builtin h2 p k -> find (defaults h2) p = Some (CMake k).
Proof. intros H. destruct H; try (destruct h2; reflexivity); subst; reflexivity. Qed.
Lemma defaults_inv h2 p c : find (defaults h2) p = Some c -> exists k, c = CMake k /\ builtin h2 p k.
Proof.
  unfold defaults. destruct h2; cbn [app find];
    repeat match goal with |- context [String.eqb ?a p] => destruct (String.eqb_spec a p); [subst; intros H; inv H; eexists; split; [reflexivity|constructor; reflexivity]|] end; discriminate.
Qed.

(** ** The limit. *)
Lemma remove1_in i l x : In x (remove1 i l) -> In x l.
Proof. induction l as [|y l IH]; cbn; [auto|]. destruct (Nat.eqb_spec y i); cbn; intuition. Qed.
Lemma remove1_length i l : existsb (Nat.eqb i) l = true -> length l = S (length (remove1 i l)).
Proof. induction l as [|y l IH]; cbn; [discriminate|]. rewrite (Nat.eqb_sym y i). destruct (Nat.eqb_spec i y); cbn; [reflexivity|]. intros H. rewrite IH by exact H. reflexivity. Qed.
Lemma remove1_nodup i l : NoDup l -> NoDup (remove1 i l).
Proof. induction l as [|y l IH]; cbn; intros N; inv N; [constructor|]. destruct (Nat.eqb_spec y i); [assumption|]. constructor; [|auto]. intros I. apply remove1_in in I. auto. Qed.
Lemma existsb_eqb i l : existsb (Nat.eqb i) l = true <-> In i l.
Proof. rewrite existsb_exists. split; [intros (x & I & E); apply Nat.eqb_eq in E; now subst|intros I; exists i; rewrite Nat.eqb_refl; auto]. Qed.
Definition linv (limit n : nat) (s : lstate) : Prop :=
  l_count s = length (l_held s) /\ NoDup (l_pending s) /\ (forall i, In i (l_pending s) -> i < n) /\ (forall i, In i (l_held s) -> i < n) /\ (l_count s + length (l_pending s) <= limit + pred n).
Lemma pending_bound n l : NoDup l -> (forall i, In i l -> i < n) -> length l <= n.
Proof. intros N H. rewrite <- (seq_length n 0). apply NoDup_incl_length; [exact N|]. intros x I. apply in_seq. specialize (H x I). lia. Qed.
Lemma lstep_inv limit n s o s' : linv limit n s -> lstep limit n s o = Some s' -> linv limit n s'.
Proof.
  intros (A & B & C & D & E). destruct o as [i|i|i]; cbn [lstep].
  - destruct (negb (i <? n) || existsb (Nat.eqb i) (l_pending s)) eqn:G; [discriminate|]. apply orb_false_elim in G. destruct G as [G1 G2]. apply Bool.negb_false_iff, Nat.ltb_lt in G1.
    destruct (l_count s <? limit) eqn:L; intros H; inv H; [|unfold linv; auto 10]. apply Nat.ltb_lt in L.
    assert (NI : ~ In i (l_pending s)) by (rewrite <- existsb_eqb; congruence).
    assert (P : length (i :: l_pending s) <= n) by (apply pending_bound; [constructor; auto|intros j [<-|I]; auto]).
    unfold linv. cbn [l_count l_pending l_held length] in *. repeat split; auto; [constructor; auto|intros j [<-|I]; auto|lia].
  - destruct (existsb (Nat.eqb i) (l_pending s)) eqn:G; [|discriminate]. intros H; inv H. pose proof (remove1_length i _ G). apply existsb_eqb in G.
    unfold linv. cbn [l_count l_pending l_held length] in *. repeat split; auto; [now apply remove1_nodup|intros j I; apply remove1_in in I; auto|intros j [<-|I]; auto|lia].
  - destruct (existsb (Nat.eqb i) (l_held s)) eqn:G; [|discriminate]. intros H; inv H. pose proof (remove1_length i _ G).
    unfold linv. cbn [l_count l_pending l_held length] in *. repeat split; auto; [lia|intros j I; apply remove1_in in I; auto|lia].
Qed.
Lemma lrun_inv limit n os : forall s s', linv limit n s -> lrun limit n s os = Some s' -> linv limit n s'.
Proof.
  induction os as [|o os IH]; intros s s' I H; cbn [lrun] in H; [inv H; exact I|]. destruct (lstep limit n s o) as [t|] eqn:E; [|discriminate]. eauto using lstep_inv.
Qed.
Lemma linit_inv limit n : linv limit n linit.
Proof. unfold linv, linit. cbn. repeat split; auto; [constructor|contradiction|contradiction|lia]. Qed.
Lemma lrun_app limit n a : forall s t b, lrun limit n s a = Some t -> lrun limit n s (a ++ b) = lrun limit n t b.
Proof. induction a as [|o a IH]; intros s t b H; cbn [lrun app] in *; [now inv H|]. destruct (lstep limit n s o); [eauto|discriminate]. Qed.
(** One connection after the other, in loop 0. *)
Lemma one_by_one limit n k : forall c h, 0 < n -> c + k <= limit -> lrun limit n (LS c [] h) (List.concat (repeat [LCheck 0; LStore 0] k)) = Some (LS (c + k) [] (repeat 0 k ++ h)).
Proof.
  induction k as [|k IH]; intros c h N L; [cbn; now rewrite Nat.add_0_r|].
  change (List.concat (repeat [LCheck 0; LStore 0] (S k))) with ([LCheck 0; LStore 0] ++ List.concat (repeat [LCheck 0; LStore 0] k)).
  rewrite (lrun_app limit n _ _ (LS (S c) [] (0 :: h))).
  - rewrite IH by lia. f_equal. f_equal; [lia|]. cbn [repeat]. change (0 :: repeat 0 k) with (repeat 0 (S k)). clear. induction k; cbn in *; [reflexivity|]. now rewrite IHk.
  - cbn [lrun lstep existsb l_pending l_count l_held]. rewrite (proj2 (Nat.ltb_lt 0 n) N). cbn [negb orb]. rewrite (proj2 (Nat.ltb_lt c limit)) by lia. cbn. reflexivity.
Qed.
Lemma all_check limit n c h : c < limit -> forall k b l, b + k <= n -> (forall i, In i l -> i < b) -> lrun limit n (LS c l h) (map LCheck (seq b k)) = Some (LS c (List.rev (seq b k) ++ l) h).
Proof.
  intros L. induction k as [|k IH]; intros b l N H; [reflexivity|]. cbn [seq map lrun lstep l_pending l_count l_held]. rewrite (proj2 (Nat.ltb_lt b n)) by lia. cbn [negb orb].
  replace (existsb (Nat.eqb b) l) with false. 2: { symmetry. destruct (existsb (Nat.eqb b) l) eqn:E; [|reflexivity]. apply existsb_eqb in E. apply H in E. lia. }
  rewrite (proj2 (Nat.ltb_lt c limit)) by lia. rewrite IH; [|lia|intros i [<-|I]; [lia|apply H in I; lia]]. cbn [List.rev]. now rewrite <- app_assoc.
Qed.
Lemma all_store limit n : forall l c h, lrun limit n (LS c l h) (map LStore l) = Some (LS (c + length l) [] (List.rev l ++ h)).
Proof.
  induction l as [|i l IH]; intros c h; [cbn; now rewrite Nat.add_0_r|]. cbn [map lrun lstep l_pending l_count l_held existsb]. rewrite Nat.eqb_refl. cbn [orb remove1]. rewrite Nat.eqb_refl. rewrite IH. cbn [length List.rev]. rewrite <- app_assoc. f_equal. f_equal. lia.
Qed.

(** ** Stop callbacks. *)
Lemma srun_app a : forall s t e b, srun s a = Ok (t, e) -> srun s (a ++ b) = obind (srun t b) (fun '(u, e') => Ok (u, e ++ e')).
Proof.
  induction a as [|o a IH]; intros s t e b H; cbn [srun app] in *; [inv H; destruct (srun t b) as [[u e']| |]; reflexivity|].
  destruct (sstep s o) as [[s1 e1]| |]; cbn [obind] in *; try discriminate. destruct (srun s1 a) as [[s2 e2]| |] eqn:E; cbn [obind] in *; try discriminate. inv H.
  rewrite (IH _ _ _ _ E). destruct (srun t b) as [[u e']| |]; cbn [obind]; [now rewrite app_assoc|reflexivity|reflexivity].
Qed.
Lemma filter_all_in (l : list nat) is : (forall x, In x l -> In x is) -> filter (fun x => negb (existsb (Nat.eqb x) is)) l = [].
Proof. intros H. induction l as [|x l IH]; [reflexivity|]. cbn. rewrite (proj2 (existsb_eqb x is)) by (apply H; now left). cbn. apply IH. intros y I. apply H. now right. Qed.
(** Reports that leave a service out run nothing. *)
Lemma reports_left is : forall v l m c j, In j l -> ~ In j is -> exists l', srun (Server v l m c) (map SReport is) = Ok (Server v l' m c, []) /\ In j l' /\ l' = filter (fun x => negb (existsb (Nat.eqb x) is)) l.
Proof.
  induction is as [|i is IH]; intros v l m c j J N.
  - exists l. repeat split; auto. cbn. clear. induction l; cbn; congruence.
  - cbn [map srun sstep obind v_serving v_services v_next v_cb]. set (l1 := filter (fun x => negb (x =? i)) l).
    assert (J1 : In j l1) by (apply filter_In; split; [exact J|]; apply Bool.negb_true_iff, Nat.eqb_neq; intros ->; apply N; now left).
    destruct (IH v l1 m c j J1) as (l' & R & J2 & E); [intros I; apply N; now right|].
    exists l'. split; [|split; [exact J2|]].
    + rewrite R. destruct l1; [contradiction|]. reflexivity.
    + rewrite E. unfold l1. clear. cbn [existsb]. induction l as [|x l IH]; [reflexivity|]. cbn [filter existsb]. destruct (x =? i); cbn [negb filter orb]; [exact IH|]. destruct (existsb (Nat.eqb x) is); cbn [negb]; congruence.
Qed.
Lemma reports_after is v m c : srun (Server v [] m (Some c)) (map SReport is) = Ok (Server v [] m (Some c), repeat c (length is)).
Proof. induction is as [|i is IH]; [reflexivity|]. cbn [map srun sstep filter obind v_serving v_services v_next v_cb]. rewrite IH. reflexivity. Qed.
Lemma cycle_ok s n c is js : v_serving s = false -> v_services s = [] -> n <> 0 -> Permutation is (seq (v_next s) n) ->
  srun s (SServe n :: SStop (Some c) :: map SReport (is ++ js)) = Ok (Server false [] (v_next s + n) (Some c), repeat c (S (length js))) /\
  (forall a b, is = a ++ b -> b <> [] -> exists l, srun s (SServe n :: SStop (Some c) :: map SReport a) = Ok (Server false l (v_next s + n) (Some c), [])).
Proof.
  intros V L N P. assert (NE : is <> []) by (intros ->; apply Permutation_length in P; rewrite seq_length in P; cbn in P; lia).
  cbn [srun sstep obind]. rewrite V, L. rewrite (proj2 (Nat.eqb_neq n 0) N). cbn [orb obind app v_serving v_services v_next v_cb].
  assert (ND : NoDup is) by (eapply Permutation_NoDup; [apply Permutation_sym; exact P|apply seq_NoDup]).
  assert (PRE : forall a b, is = a ++ b -> b <> [] -> exists l, srun (Server false (seq (v_next s) n) (v_next s + n) (Some c)) (map SReport a) = Ok (Server false l (v_next s + n) (Some c), []) /\ l = filter (fun x => negb (existsb (Nat.eqb x) a)) (seq (v_next s) n)).
  { intros a b E NB. destruct b as [|j b]; [congruence|]. destruct (reports_left a false (seq (v_next s) n) (v_next s + n) (Some c) j) as (l & R & _ & F).
    - eapply Permutation_in; [exact P|]. rewrite E. apply in_or_app. right. now left.
    - rewrite E in ND. intros I. apply NoDup_remove_2 in ND. apply ND. apply in_or_app. now left.
    - exists l. auto. }
  split.
  - destruct (exists_last NE) as (a & j & E). destruct (PRE a [j] E) as (l & R & F); [discriminate|].
    rewrite E, <- app_assoc, map_app. rewrite (srun_app _ _ _ _ _ R). cbn [app map srun sstep obind v_serving v_services v_next v_cb].
    replace (filter (fun x => negb (x =? j)) l) with (@nil nat).
    + rewrite reports_after. reflexivity.
    + subst l. symmetry. assert (A : forall x, In x (seq (v_next s) n) -> In x a \/ x = j).
      { intros x I. apply (Permutation_in _ (Permutation_sym P)) in I. rewrite E in I. apply in_app_or in I. destruct I as [I|[I|[]]]; auto. }
      revert A. generalize (seq (v_next s) n). clear. induction l as [|x l IH]; intros A; [reflexivity|]. cbn [filter]. destruct (A x (or_introl eq_refl)) as [I| ->].
      * rewrite (proj2 (existsb_eqb x a) I). cbn [negb]. apply IH. intros y I'. apply A. now right.
      * destruct (negb (existsb (Nat.eqb j) a)); cbn [filter]; [rewrite Nat.eqb_refl; cbn [negb]|]; apply IH; intros y I'; apply A; now right.
  - intros a b E NB. destruct (PRE a b E NB) as (l & R & _). exists l. rewrite R. reflexivity.
Qed.
