(** The timer queue: heap, slots and free identifiers. *)
From Coq Require Import Permutation.
From Verif.Model Require Import Common TimerQueue.
From Verif.Spec Require Import WaitSpec.
From Verif.Proofs Require Import Tac.
Local Open Scope Z_scope.

Lemma put_length {A} (l : list A) : forall i x, length (put l i x) = length l.
Proof. induction l as [|y l IH]; intros [|i] x; cbn; auto. Qed.
Lemma nth_put {A} (l : list A) d : forall i j x, (i < length l)%nat -> nth j (put l i x) d = if Nat.eqb i j then x else nth j l d.
Proof. induction l as [|y l IH]; intros [|i] [|j] x H; cbn in *; try lia; try reflexivity. apply IH. lia. Qed.
Lemma nth_app1 {A} (l : list A) x d j : nth j (l ++ [x]) d = if Nat.eqb (length l) j then x else nth j l d.
Proof.
  destruct (Nat.eqb (length l) j) eqn:E; [apply Nat.eqb_eq in E|apply Nat.eqb_neq in E].
  - subst j. rewrite app_nth2, Nat.sub_diag by lia. reflexivity.
  - destruct (Nat.lt_ge_cases j (length l)); [apply app_nth1; exact H|]. rewrite !nth_overflow; [reflexivity|lia|rewrite app_length; cbn; lia].
Qed.
Lemma drop_perm {A} (l : list A) : forall i x, nth_error l i = Some x -> Permutation l (x :: drop_nth l i).
Proof.
  induction l as [|y l IH]; intros [|i] x H; cbn in *; try discriminate; [injection H as ->; reflexivity|].
  rewrite perm_swap. apply perm_skip. apply IH. exact H.
Qed.
Lemma owner_slot q id : forall o, nth_error (slots q) id = Some o -> owner q id = o.
Proof. intros o H. unfold owner. apply nth_error_nth. exact H. Qed.
Lemma owner_lt q id t : owner q id = Some t -> (id < length (slots q))%nat.
Proof. unfold owner. intros H. destruct (Nat.lt_ge_cases id (length (slots q))) as [L|L]; [exact L|]. rewrite nth_overflow in H by exact L. discriminate. Qed.

(** All heap entries and free identifiers are in range. *)
Definition ranged (q : tq) : Prop := Forall (fun e => (snd e < length (slots q))%nat) (heap q) /\ Forall (fun i => (i < length (slots q))%nat) (free q).
Lemma add_ok q t : ranged q -> exists q' id, AddTimerEvent q t = Ok (q', id) /\ ranged q' /\ fired q' = fired q /\ heap q' = (due t, id) :: heap q /\
  (forall j, owner q' j = if Nat.eqb id j then Some t else owner q j) /\
  ((free q = [] /\ id = length (slots q) /\ free q' = [] /\ length (slots q') = S (length (slots q))) \/
   (free q = id :: free q' /\ length (slots q') = length (slots q))).
Proof.
  intros [H F]. unfold AddTimerEvent. destruct (free q) as [|id f] eqn:E.
  - eexists. eexists. split; [reflexivity|]. split.
    { split; cbn; [|constructor]. constructor; cbn; [rewrite app_length; cbn; lia|]. eapply Forall_impl; [|exact H]. cbn. intros e L. rewrite app_length. cbn. lia. }
    split; [reflexivity|]. split; [reflexivity|]. split; [intros j; unfold owner; cbn; apply nth_app1|]. left. cbn. rewrite app_length. cbn. repeat split; lia.
  - assert (L : (id < length (slots q))%nat) by (inv F; assumption). rewrite (proj2 (Nat.ltb_lt _ _) L). eexists. eexists. split; [reflexivity|]. split.
    { split; cbn; [constructor; cbn; [rewrite put_length; exact L|]|]; [eapply Forall_impl; [|exact H]|inv F; eapply Forall_impl; [|eassumption]]; cbn; intros e; rewrite put_length; auto. }
    split; [reflexivity|]. split; [reflexivity|]. split; [intros j; unfold owner; cbn; apply nth_put; exact L|]. right. cbn. rewrite put_length. split; reflexivity.
Qed.
Lemma cancel_spec q id : ranged q -> ranged (fst (CancelTimerEvent q id)) /\ fired (fst (CancelTimerEvent q id)) = fired q /\ heap (fst (CancelTimerEvent q id)) = heap q /\
  (forall j, owner (fst (CancelTimerEvent q id)) j = if Nat.eqb id j then None else owner q j) /\
  (free (fst (CancelTimerEvent q id)) = if Nat.ltb id (length (slots q)) then id :: free q else free q) /\ length (slots (fst (CancelTimerEvent q id))) = length (slots q).
Proof.
  intros [H F]. unfold CancelTimerEvent. destruct (Nat.leb (length (slots q)) id) eqn:E; cbn [fst].
  - apply Nat.leb_le in E. split; [split; assumption|]. split; [reflexivity|]. split; [reflexivity|]. split; [|split; [|reflexivity]].
    + intros j. destruct (Nat.eqb id j) eqn:Q; [|reflexivity]. apply Nat.eqb_eq in Q. subst j. unfold owner. apply nth_overflow. exact E.
    + rewrite (proj2 (Nat.ltb_ge _ _) E). reflexivity.
  - apply Nat.leb_gt in E. split; [|split; [reflexivity|split; [reflexivity|split; [|split; [rewrite (proj2 (Nat.ltb_lt _ _) E); reflexivity|cbn; apply put_length]]]]].
    + split; cbn; [|constructor; [rewrite put_length; exact E|]]; (eapply Forall_impl; [|eassumption]); cbn; intros e; rewrite put_length; auto.
    + intros j. unfold owner. cbn. apply nth_put. exact E.
Qed.
Lemma is_top_spec h t : is_top h t = true -> forall e, In e h -> t <= fst e.
Proof. unfold is_top. rewrite forallb_forall. intros H e I. specialize (H e I). apply Z.leb_le. exact H. Qed.
(** What one round of HandleExpiredTimer does. *)
Definition patient (t : timer) : Prop := once t = true \/ 0 < interval t.
Lemma expire_ok q k now now2 : ranged q -> (forall id t, owner q id = Some t -> patient t) -> exists q', expire q k now now2 = Ok q' /\ ranged q' /\ length (slots q') = length (slots q) /\
  (q' = q \/ exists t id h, Permutation (heap q) ((t, id) :: h) /\ ms t <= ms now /\ (forall e, In e (heap q) -> t <= fst e) /\
    match owner q id with
    | None => q' = Tq h (slots q) (free q) (fired q)
    | Some tm => fired q' = fired q ++ [(tid tm, now)] /\
        if once tm then heap q' = h /\ free q' = id :: free q /\ (forall j, owner q' j = if Nat.eqb id j then None else owner q j)
        else let tm' := Timer (tid tm) (now2 + 1000 * interval tm) false (interval tm) in
          heap q' = (due tm', id) :: h /\ free q' = free q /\ (forall j, owner q' j = if Nat.eqb id j then Some tm' else owner q j)
    end).
Proof.
  intros R P. unfold expire. destruct (nth_error (heap q) k) as [[t id]|] eqn:E; [|exists q; auto].
  destruct (is_top (heap q) t && (ms t <=? ms now)) eqn:T; [|exists q; auto]. apply andb_true_iff in T as [T1 T2]. apply Z.leb_le in T2.
  assert (Pm := drop_perm _ _ _ E). destruct R as [H F].
  assert (I : In (t, id) (heap q)) by (eapply nth_error_In; exact E).
  assert (L : (id < length (slots q))%nat) by (rewrite Forall_forall in H; exact (H _ I)).
  assert (Hd : Forall (fun e => (snd e < length (slots q))%nat) (drop_nth (heap q) k)).
  { rewrite Forall_forall in *. intros e Ie. apply H. eapply Permutation_in; [symmetry; exact Pm|]. right. exact Ie. }
  destruct (nth_error (slots q) id) as [[tm|]|] eqn:S.
  - assert (O := owner_slot _ _ _ S). destruct (once tm) eqn:On.
    + eexists. split; [reflexivity|]. split.
      { split; cbn; rewrite put_length; [exact Hd|constructor; [exact L|exact F]]. }
      split; [cbn; apply put_length|]. right. exists t, id, (drop_nth (heap q) k). split; [exact Pm|]. split; [exact T2|]. split; [exact (is_top_spec _ _ T1)|].
      rewrite O, On. split; [reflexivity|]. split; [reflexivity|]. split; [reflexivity|]. intros j. unfold owner. cbn. apply nth_put. exact L.
    + assert (Q : (now2 <? now2 + 1000 * interval tm) = true). { apply Z.ltb_lt. destruct (P _ _ O); [congruence|lia]. } rewrite Q.
      eexists. split; [reflexivity|]. split.
      { split; cbn; rewrite put_length; [constructor; [exact L|exact Hd]|exact F]. }
      split; [cbn; apply put_length|]. right. exists t, id, (drop_nth (heap q) k). split; [exact Pm|]. split; [exact T2|]. split; [exact (is_top_spec _ _ T1)|].
      rewrite O, On. split; [reflexivity|]. cbn zeta. split; [reflexivity|]. split; [reflexivity|]. intros j. unfold owner. cbn. apply nth_put. exact L.
  - assert (O := owner_slot _ _ _ S). eexists. split; [reflexivity|]. split; [split; assumption|]. split; [reflexivity|]. right. exists t, id, (drop_nth (heap q) k).
    split; [exact Pm|]. split; [exact T2|]. split; [exact (is_top_spec _ _ T1)|]. rewrite O. reflexivity.
  - apply nth_error_None in S. lia.
Qed.
Definition kind (q : tq) : Prop := forall id t, owner q id = Some t -> patient t.
Lemma ranged_new : ranged new_tq. Proof. split; constructor. Qed.
Lemma step_safe q o : ranged q -> kind q -> (match o with OAdd t => patient t | _ => True end) -> exists q', step q o = Ok q' /\ ranged q' /\ kind q'.
Proof.
  intros R K P. destruct o as [t|id|k now now2]; cbn [step].
  - destruct (add_ok q t R) as (q' & id & A & R' & _ & _ & O & _). rewrite A. exists q'. split; [reflexivity|]. split; [exact R'|]. intros j t' Ho. rewrite O in Ho.
    destruct (Nat.eqb id j); [inv Ho; exact P|exact (K _ _ Ho)].
  - destruct (cancel_spec q id R) as (R' & _ & _ & O & _). eexists. split; [reflexivity|]. split; [exact R'|]. intros j t' Ho. rewrite O in Ho.
    destruct (Nat.eqb id j); [discriminate|exact (K _ _ Ho)].
  - destruct (expire_ok q k now now2 R K) as (q' & E & R' & _ & X). exists q'. split; [exact E|]. split; [exact R'|].
    destruct X as [-> |(t & id & h & _ & _ & _ & X)]; [exact K|]. destruct (owner q id) as [tm|] eqn:O; [|subst q'; exact K]. destruct X as [_ X].
    destruct (once tm) eqn:On; [destruct X as (_ & _ & X)|cbn zeta in X; destruct X as (_ & _ & X)]; intros j t' Ho; rewrite X in Ho; destruct (Nat.eqb id j); try discriminate; try exact (K _ _ Ho).
    inv Ho. destruct (K _ _ O) as [U|U]; [congruence|right; exact U].
Qed.
Lemma run_safe os : forall q, ranged q -> kind q -> (forall t, In t (added os) -> patient t) -> exists q', run q os = Ok q' /\ ranged q' /\ kind q'.
Proof.
  induction os as [|o os IH]; intros q R K P; [exists q; auto|]. cbn [run].
  destruct (step_safe q o R K) as (q1 & E & R1 & K1). { destruct o; try exact Logic.I. apply P. cbn. left. reflexivity. }
  rewrite E. cbn [obind]. apply IH; try assumption. intros t I. apply P. unfold added. cbn. apply in_or_app. right. exact I.
Qed.
Lemma run_app os os' : forall q, run q (os ++ os') = obind (run q os) (fun q => run q os').
Proof. induction os as [|o os IH]; intros q; cbn; [reflexivity|]. destruct (step q o); cbn; auto. Qed.
