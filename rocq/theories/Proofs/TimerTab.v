(** Consequences of the timer table for histories. *)
From Verif.Model Require Import Common TimeWheel.
From Verif.Spec Require Import TimerSpec.
From Verif.Proofs Require Import Tac WheelBits WheelProofs WheelSleep.
Open Scope Z_scope.

Section Tab.
Variable rep : nat -> bool.

Definition run (h : list op) (S : table) : table := fold_left (tab_step rep) h S.

Fixpoint legal (S : table) (h : list op) : Prop :=
  match h with
  | [] => True
  | o :: h' => permitted S o /\ legal (tab_step rep S o) h'
  end.

Lemma run_app h1 h2 S : run (h1 ++ h2) S = run h2 (run h1 S).
Proof. apply fold_left_app. Qed.

Lemma legal_app h1 h2 S : legal S (h1 ++ h2) <-> legal S h1 /\ legal (run h1 S) h2.
Proof.
  revert S. induction h1 as [|o h1 IH]; intro S; simpl; [tauto|]. rewrite IH. simpl. tauto.
Qed.

Lemma run_now h S : tb_now (run h S) = clock (tb_now S) h.
Proof.
  revert S. induction h as [|o h IH]; intro S; [reflexivity|].
  change (run (o :: h) S) with (run h (tab_step rep S o)). rewrite IH.
  destruct o as [| | | |[]]; reflexivity.
Qed.

Definition due_ok (S : table) : Prop := forall i d, tb_armed S i = Some (d, true) -> d <= tb_now S.

Lemma due_step S o : due_ok S -> ticks_from (tb_now S) [o] -> due_ok (tab_step rep S o).
Proof.
  intros HD Ht j d. destruct o as [i now|i|i ms|now|[i|]]; simpl in *.
  - unfold set1. destruct (Nat.eqb j i); [|apply HD]. intro E. inv E. b2p. assumption.
  - unfold set1. destruct (Nat.eqb j i); [discriminate|apply HD].
  - apply HD.
  - destruct (tb_armed S j) as [[d' b]|] eqn:E; [|discriminate]. intro X. inv X.
    apply orb_prop in H1. destruct H1 as [->|Hx]; b2p; [|assumption]. specialize (HD _ _ E). lia.
  - unfold set1. destruct (Nat.eqb j i); [|apply HD]. destruct (tb_armed S i) as [[d' b]|]; [|discriminate].
    destruct (rep i && _); discriminate.
  - apply HD.
Qed.

Lemma ticks_step t o h : ticks_from t (o :: h) -> ticks_from t [o] /\ ticks_from (clock t [o]) h.
Proof. destruct o; simpl; tauto. Qed.

Lemma step_now S o : tb_now (tab_step rep S o) = clock (tb_now S) [o].
Proof. destruct o as [| | | |[]]; reflexivity. Qed.

Lemma due_run h : forall S, due_ok S -> ticks_from (tb_now S) h -> due_ok (run h S).
Proof.
  induction h as [|o h IH]; intros S HD Ht; [assumption|].
  change (run (o :: h) S) with (run h (tab_step rep S o)). apply ticks_step in Ht. destruct Ht as (T1 & T2).
  apply IH; [apply due_step; assumption|]. rewrite step_now. assumption.
Qed.

(** Without monotone clock: a due timer's deadline was reached by some clock value seen. *)
Definition due_seen (ts : list Z) (S : table) : Prop :=
  In (tb_now S) ts /\ forall i d, tb_armed S i = Some (d, true) -> exists t, In t ts /\ d <= t.

Lemma due_seen_run h : forall S ts, due_seen ts S ->
  due_seen (ts ++ flat_map (fun o => match o with OTick now => [now] | _ => [] end) h) (run h S).
Proof.
  induction h as [|o h IH]; intros S ts HD; [simpl; rewrite app_nil_r; assumption|].
  change (run (o :: h) S) with (run h (tab_step rep S o)). cbn [flat_map]. rewrite app_assoc.
  apply IH. destruct HD as (HT & HD).
  split.
  - rewrite step_now. apply in_or_app. destruct o; simpl; auto.
  - intros j d. destruct o as [i now|i|i ms|now|[i|]]; simpl; rewrite ?app_nil_r.
    + unfold set1. destruct (Nat.eqb j i); [|apply HD]. intro E. inv E. b2p. eauto.
    + unfold set1. destruct (Nat.eqb j i); [discriminate|apply HD].
    + apply HD.
    + destruct (tb_armed S j) as [[d' b]|] eqn:E; [|discriminate]. intro X. inv X.
      apply orb_prop in H1. destruct H1 as [->|Hx]; b2p.
      * destruct (HD _ _ E) as (t & A & B). exists t. split; [apply in_or_app; auto|assumption].
      * exists now. split; [apply in_or_app; simpl; auto|assumption].
    + unfold set1. destruct (Nat.eqb j i); [|apply HD]. destruct (tb_armed S i) as [[d' b]|]; [|discriminate].
      destruct (rep i && _); discriminate.
    + apply HD.
Qed.

(** One timer, untouched by the operations of [h]. *)
Lemma untouched_oneshot i d h : rep i = false -> forallb (fun o => negb (rearms i o)) h = true ->
  forall S, (exists b, tb_armed S i = Some (d, b)) \/ tb_armed S i = None ->
  (exists b, tb_armed (run h S) i = Some (d, b)) \/ tb_armed (run h S) i = None.
Proof.
  intros Hr. induction h as [|o h IH]; intros Hn S HS; [assumption|].
  simpl in Hn. b2p. apply IH; [assumption|]. clear IH.
  destruct o as [j now|j|j ms|now|[j|]]; simpl in *; auto.
  - unfold set1. rewrite Nat.eqb_sym, H. assumption.
  - unfold set1. rewrite Nat.eqb_sym, H. assumption.
  - destruct HS as [(b & ->)|HS]; [left; eauto|right; now rewrite HS].
  - unfold set1. destruct (Nat.eqb_spec i j) as [<-|]; [|assumption]. rewrite Hr. simpl.
    destruct (tb_armed S i) as [[]|]; auto.
Qed.

Lemma untouched_none i h : forallb (fun o => negb (rearms i o)) h = true ->
  forall S, tb_armed S i = None -> tb_armed (run h S) i = None.
Proof.
  induction h as [|o h IH]; intros Hn S HS; [assumption|].
  simpl in Hn. b2p. apply IH; [assumption|].
  destruct o as [j now|j|j ms|now|[j|]]; simpl in *; auto.
  - unfold set1. rewrite Nat.eqb_sym, H. assumption.
  - unfold set1. now rewrite Nat.eqb_sym, H.
  - now rewrite HS.
  - unfold set1. destruct (Nat.eqb_spec i j) as [<-|]; [|assumption]. now rewrite HS.
Qed.

Lemma fires_app i h1 h2 : fires i (h1 ++ h2) = (fires i h1 + fires i h2)%nat.
Proof. unfold fires. rewrite map_app. apply count_occ_app. Qed.

Lemma fires_cons i o h : fires i (o :: h) =
  ((match o with OGet (Some j) => if Nat.eqb j i then 1 else 0 | _ => 0 end) + fires i h)%nat.
Proof.
  unfold fires. simpl. destruct o as [| | | |[j|]]; simpl; auto. destruct (Nat.eqb j i); simpl; auto.
Qed.

(** A timer that is not armed cannot fire before it is re-armed. *)
Lemma none_no_fire i h : forallb (fun o => negb (rearms i o)) h = true ->
  forall S, legal S h -> tb_armed S i = None -> fires i h = 0%nat.
Proof.
  induction h as [|o h IH]; intros Hn S HL HS; [reflexivity|].
  rewrite fires_cons. simpl in HL. destruct HL as (Hp & HL).
  assert (Hn' := Hn). simpl in Hn. b2p.
  rewrite (IH H0 _ HL).
  - destruct o as [| | | |[j|]]; auto. destruct (Nat.eqb_spec j i) as [->|]; auto.
    exfalso. simpl in Hp. destruct Hp as (d & Hp). congruence.
  - change (tb_armed (run [o] S) i = None). apply untouched_none; [|assumption]. simpl. now rewrite H.
Qed.

(** Draining: no tick inside, so a timer that is not due stays not due. *)
Definition notdue (S : table) (i : nat) : Prop := forall d, tb_armed S i <> Some (d, true).

Lemma notdue_step S i o : rearms i o = false -> (forall now, o <> OTick now) -> notdue S i ->
  notdue (tab_step rep S o) i.
Proof.
  intros Hn Ht HS d. destruct o as [j now|j|j ms|now|[j|]]; simpl in *.
  - unfold set1. rewrite Nat.eqb_sym, Hn. apply HS.
  - unfold set1. rewrite Nat.eqb_sym, Hn. apply HS.
  - apply HS.
  - exfalso. eapply Ht. reflexivity.
  - unfold set1. destruct (Nat.eqb i j); [|apply HS].
    destruct (tb_armed S j) as [[]|]; [|discriminate]. destruct (rep j && _); discriminate.
  - apply HS.
Qed.

Definition no_tick (o : op) : bool := match o with OTick _ => false | _ => true end.

Lemma notdue_no_fire i h : forallb (fun o => negb (rearms i o)) h = true -> forallb no_tick h = true ->
  forall S, legal S h -> notdue S i -> fires i h = 0%nat.
Proof.
  induction h as [|o h IH]; intros Hn Ht S HL HS; [reflexivity|].
  rewrite fires_cons. simpl in HL. destruct HL as (Hp & HL).
  simpl in Hn, Ht. b2p.
  rewrite (IH H2 H0 _ HL).
  - destruct o as [| | | |[j|]]; auto. destruct (Nat.eqb_spec j i) as [->|]; auto.
    exfalso. simpl in Hp. destruct Hp as (d & Hp). eapply HS; eauto.
  - apply notdue_step; auto. intros now ->. discriminate.
Qed.

Lemma handler_no_tick hs : forallb handler_op hs = true -> forallb no_tick hs = true.
Proof. intro H. rewrite forallb_forall in *. intros o Ho. specialize (H o Ho). destruct o; auto; discriminate. Qed.

Lemma drain_no_tick l : drain_trace l -> forallb no_tick l = true.
Proof.
  induction 1 as [|i hs l Hh Hd IH]; [reflexivity|]. simpl. rewrite forallb_app, IH, handler_no_tick by assumption. reflexivity.
Qed.

Lemma handlers_keep_due i hs d : forallb (fun o => negb (rearms i o)) hs = true -> forallb handler_op hs = true ->
  forall S, tb_armed S i = Some (d, true) -> tb_armed (run hs S) i = Some (d, true) /\ fires i hs = 0%nat.
Proof.
  induction hs as [|o hs IH]; intros Hn Hh S HS; [auto|].
  simpl in Hn, Hh. b2p. rewrite fires_cons. change (run (o :: hs) S) with (run hs (tab_step rep S o)).
  assert (HS' : tb_armed (tab_step rep S o) i = Some (d, true)).
  { destruct o as [j now|j|j ms|now|[j|]]; simpl in *; try discriminate; auto;
    unfold set1; rewrite Nat.eqb_sym, H1; assumption. }
  destruct (IH H2 H0 _ HS') as (A & B). rewrite B. destruct o; auto. discriminate.
Qed.

Lemma drain_fires_due i l : drain_trace l -> forallb (fun o => negb (rearms i o)) l = true ->
  forall S d, legal S l -> tb_armed S i = Some (d, true) -> fires i l = 1%nat.
Proof.
  induction 1 as [|j hs l Hh Hd IH]; intros Hn S d HL HS.
  - exfalso. simpl in HL. destruct HL as (Hp & _). eapply Hp; eauto.
  - rewrite fires_cons, fires_app.
    simpl in Hn. rewrite forallb_app in Hn. b2p.
    cbn [legal] in HL. destruct HL as (Hp & HL). apply legal_app in HL. destruct HL as (HL1 & HL2).
    destruct (Nat.eqb_spec j i) as [->|n].
    + assert (ND : notdue (tab_step rep S (OGet (Some i))) i).
      { intro d'. simpl. unfold set1. rewrite Nat.eqb_refl, HS. destruct (rep i && _); discriminate. }
      assert (Z0 : fires i (hs ++ l) = 0%nat).
      { eapply notdue_no_fire; [| |apply legal_app; split; eassumption|assumption].
        - rewrite forallb_app. now rewrite H, H0.
        - rewrite forallb_app. now rewrite handler_no_tick, drain_no_tick. }
      rewrite fires_app in Z0. lia.
    + assert (HS' : tb_armed (tab_step rep S (OGet (Some j))) i = Some (d, true)).
      { simpl. unfold set1. destruct (Nat.eqb_spec i j); [congruence|assumption]. }
      destruct (handlers_keep_due i hs d H Hh _ HS') as (A & B). rewrite B, (IH H0 _ _ HL2 A). reflexivity.
Qed.

Lemma process_fires_due i l now S d b : process_trace now l -> forallb (fun o => negb (rearms i o)) l = true ->
  legal S l -> tb_armed S i = Some (d, b) -> d <= now -> fires i l = 1%nat.
Proof.
  intros (dr & -> & Hd) Hn HL HS Hle. rewrite fires_cons. simpl in HL. simpl in Hn.
  destruct HL as (_ & HL). rewrite (drain_fires_due i dr Hd Hn _ d HL); [reflexivity|].
  simpl. rewrite HS. replace (d <=? now) with true by (symmetry; now apply Z.leb_le). now rewrite orb_true_r.
Qed.

Lemma process_not_due i l now S d : process_trace now l -> forallb (fun o => negb (rearms i o)) l = true ->
  legal S l -> tb_armed S i = Some (d, false) -> now < d -> fires i l = 0%nat.
Proof.
  intros (dr & -> & Hd) Hn HL HS Hle. rewrite fires_cons. simpl in HL. simpl in Hn. destruct HL as (_ & HL).
  rewrite (notdue_no_fire i dr Hn (drain_no_tick _ Hd) _ HL); [reflexivity|].
  intros d'. simpl. rewrite HS. replace (d <=? now) with false by (symmetry; now apply Z.leb_gt). discriminate.
Qed.

(** Phase and rate of a repeating timer. *)
Definition phase (i : nat) (tadd v : Z) (n : nat) (S : table) : Prop :=
  tb_ival S i = v /\ exists k b, tb_armed S i = Some (tadd + v + k * v, b) /\ Z.of_nat n <= k.

Lemma phase_run i tadd v h : rep i = true -> 0 < v ->
  forallb (fun o => negb (rearms i o) && negb (reinterval i o)) h = true ->
  forall S n, phase i tadd v n S -> phase i tadd v (n + fires i h) (run h S).
Proof.
  intros Hr Hv. induction h as [|o h IH]; intros Hn S n HS.
  - unfold fires. simpl. rewrite Nat.add_0_r. assumption.
  - simpl in Hn. b2p. change (run (o :: h) S) with (run h (tab_step rep S o)). rewrite fires_cons, Nat.add_assoc.
    apply IH; [assumption|]. clear IH. destruct HS as (Hi & k & b & Ha & Hk).
    destruct o as [j now|j|j ms|now|[j|]]; simpl in *; rewrite ?Nat.add_0_r.
    + split; simpl.
      * destruct (rep j); [|assumption]. unfold set1. now rewrite Nat.eqb_sym, H.
      * exists k, b. unfold set1. rewrite Nat.eqb_sym, H. auto.
    + split; [assumption|]. exists k, b. simpl. unfold set1. rewrite Nat.eqb_sym, H. auto.
    + split; simpl; [|eauto]. unfold set1. rewrite Nat.eqb_sym, H1. assumption.
    + split; [assumption|]. simpl. rewrite Ha. eauto.
    + split; [assumption|]. simpl. unfold set1. destruct (Nat.eqb_spec j i) as [->|nj].
      * rewrite Nat.eqb_refl, Ha, Hr, Hi. replace (0 <? v) with true by (symmetry; now apply Z.ltb_lt). simpl.
        destruct (next_period_spec (tadd + v + k * v) v (tb_now S) Hv) as (k' & K1 & K2 & _).
        exists (k + k'), false. rewrite K2. split; [|lia]. f_equal. f_equal. lia.
      * destruct (Nat.eqb_spec i j); [congruence|]. rewrite Nat.add_0_r. eauto.
    + split; [assumption|]. eauto.
Qed.

End Tab.

(** From runs of the code to legal histories. *)
Lemma steps_prefix T0 h1 h2 T : steps T0 (h1 ++ h2) T -> exists T1, steps T0 h1 T1.
Proof.
  revert T. induction h2 as [|o h2 IH] using rev_ind; intros T H.
  - rewrite app_nil_r in H. eauto.
  - rewrite app_assoc in H. inversion H as [|? h' T1 o' T2 Hs Hst E1 E2]; subst.
    + exfalso. destruct (h1 ++ h2); discriminate.
    + apply app_inj_tail in E2. destruct E2 as (-> & ->). eauto.
Qed.

Lemma run_prefix rep ms t0 h1 h2 T : pump_run rep ms t0 (h1 ++ h2) T -> exists T1, pump_run rep ms t0 h1 T1.
Proof. intros (T0 & A & B). apply steps_prefix in B. destruct B as (T1 & B). exists T1, T0. auto. Qed.

Lemma run_ok_prefix ms t0 h1 h2 : run_ok ms t0 (h1 ++ h2) -> run_ok ms t0 h1.
Proof. intros (A & B & C). apply Forall_app in C. destruct C. exact (conj A (conj B H)). Qed.

Lemma run_legal rep ms t0 h T : run_ok ms t0 h -> pump_run rep ms t0 h T -> legal rep (tab0 ms t0) h.
Proof.
  revert T. induction h as [|o h IH] using rev_ind; intros T Hok Hr; [exact I|].
  apply legal_app. split.
  - destruct (run_prefix _ _ _ _ _ _ Hr) as (T1 & Hr1). eapply IH; [eapply run_ok_prefix; eauto|eauto].
  - simpl. split; [|exact I]. exact (run_permitted _ _ _ _ _ _ Hok Hr).
Qed.

Lemma get_shrinks T i T' : timeouts_get T = Ok (Some i, T') -> expired T = i :: expired T'.
Proof.
  unfold timeouts_get. destruct (expired T) as [|j l] eqn:El; [discriminate|]. cbv zeta.
  destruct (_ && _).
  - unfold timeouts_readd, timeouts_sched_future_nopending. cbv zeta.
    match goal with |- obind (obind ?x _) _ = _ -> _ => destruct x eqn:Ew; try discriminate end.
    cbn [obind]. intro E. inversion E. reflexivity.
  - intro E. inversion E. reflexivity.
Qed.

Lemma get_none_empty T T' : timeouts_get T = Ok (None, T') -> expired T = [].
Proof.
  unfold timeouts_get. destruct (expired T) as [|j l] eqn:El; [reflexivity|]. cbv zeta.
  destruct (_ && _); [|discriminate]. destruct (timeouts_readd _ _); discriminate.
Qed.

(** With handlers that do nothing, draining ends. *)
Lemma drain_exists rep n : forall T S, Rel rep T S -> length (expired T) = n ->
  exists l T', steps T l T' /\ drain_trace l /\ Forall (fun o => exists r, o = OGet r) l.
Proof.
  assert (pre : forall T o T1 l T2, step T o T1 -> steps T1 l T2 -> steps T (o :: l) T2).
  { intros T o T1 l T2 H1 H2. revert H1. induction H2 as [T1|T1 h T3 o' T4 H2 IH H3]; intro H1.
    - change [o] with ([] ++ [o]). econstructor; [constructor|eassumption].
    - change (o :: h ++ [o']) with ((o :: h) ++ [o']). econstructor; [apply IH; assumption|assumption]. }
  induction n as [|n IH]; intros T S HR Hn; destruct (get_ok rep T S HR) as (r & T' & A & B & _).
  - destruct r as [i|]; [apply get_shrinks in A; rewrite A in Hn; discriminate|].
    exists [OGet None], T'. split; [|split; [constructor|repeat constructor; eauto]].
    eapply pre; [constructor; eassumption|constructor].
  - destruct r as [i|]; [|apply get_none_empty in A; rewrite A in Hn; discriminate].
    pose proof (get_shrinks _ _ _ A) as E. rewrite E in Hn. simpl in Hn. 
    destruct (IH T' _ B ltac:(lia)) as (l & T2 & A2 & B2 & C2).
    exists (OGet (Some i) :: l), T2. split; [eapply pre; [constructor; eassumption|assumption]|].
    split; [apply (dt_fire i [] l); [reflexivity|assumption]|constructor; eauto].
Qed.

(** Executable runs, for concrete examples. *)
Definition get_eqb (a b : option nat) : bool :=
  match a, b with Some x, Some y => Nat.eqb x y | None, None => true | _, _ => false end.
Fixpoint exec (T : timeouts) (h : list op) : option timeouts :=
  match h with
  | [] => Some T
  | o :: h' =>
      match
        match o with
        | OAdd i now => match AddTimeoutEvent T now i with Ok T' => Some T' | _ => None end
        | ODel i => Some (RemoveTimeoutEvent T i)
        | OSetInterval i ms => Some (UpdateInterval T i ms)
        | OTick now => match timeouts_update T now with Ok T' => Some T' | _ => None end
        | OGet r => match timeouts_get T with
                    | Ok (r', T') => if get_eqb r r' then Some T' else None
                    | _ => None
                    end
        end with
      | Some T' => exec T' h'
      | None => None
      end
  end.
Definition run_exec (rep : nat -> bool) (ms : nat -> Z) (t0 : Z) (h : list op) : bool :=
  match InitializeTimeWheel (new_timers rep ms) t0 with
  | Ok T => match exec T h with Some _ => true | None => false end
  | _ => false
  end.

Lemma steps_cons T o T1 l T2 : step T o T1 -> steps T1 l T2 -> steps T (o :: l) T2.
Proof.
  intros H1 H2. revert H1. induction H2 as [T1|T1 h T3 o' T4 H2 IH H3]; intro H1.
  - change [o] with ([] ++ [o]). econstructor; [constructor|eassumption].
  - change (o :: h ++ [o']) with ((o :: h) ++ [o']). econstructor; [apply IH; assumption|assumption].
Qed.

Lemma exec_steps h : forall T T', exec T h = Some T' -> steps T h T'.
Proof.
  induction h as [|o h IH]; intros T T' H.
  - inv H. constructor.
  - cbn [exec] in H. destruct o as [i now|i|i ms|now|r].
    + destruct (AddTimeoutEvent T now i) eqn:E; try discriminate. eapply steps_cons; [constructor; eassumption|auto].
    + eapply steps_cons; [constructor|auto].
    + eapply steps_cons; [constructor|auto].
    + destruct (timeouts_update T now) eqn:E; try discriminate. eapply steps_cons; [constructor; eassumption|auto].
    + destruct (timeouts_get T) as [[r' T1]| |] eqn:E; try discriminate.
      destruct (get_eqb r r') eqn:Er; try discriminate.
      assert (r = r'). { destruct r, r'; simpl in Er; try discriminate; auto. b2p. congruence. }
      subst r'. eapply steps_cons; [constructor; eassumption|auto].
Qed.

Lemma run_exec_ok rep ms t0 h : run_exec rep ms t0 h = true -> exists T, pump_run rep ms t0 h T.
Proof.
  unfold run_exec. destruct (InitializeTimeWheel _ _) as [T0| |] eqn:E; try discriminate.
  destruct (exec T0 h) as [T|] eqn:Ex; try discriminate. intros _.
  exists T, T0. split; [assumption|]. now apply exec_steps.
Qed.
