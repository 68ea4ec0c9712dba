From Verif.Model Require Import Common LogMetrics.
From Verif.Spec Require Import MetricsSpec.
From Verif.Proofs Require Import Tac MetricsProofs.
Local Open Scope Z_scope.

Local Arguments MetricsSpec.vals : simpl never.
Section Stash.
Variable kind : name -> mtype.
Variable provider : name -> option dargs.
Variable handler : item -> bool.
Notation vals := (vals handler).
Notation summ := (summ kind provider).

Definition flat (fs : list (name -> list Z)) (n : name) : list Z := concat (map (fun f => f n) fs).
Lemma flat_app a b n : flat (a ++ b) n = flat a n ++ flat b n.
Proof. unfold flat. now rewrite map_app, concat_app. Qed.
Lemma flat_cons f b n : flat (f :: b) n = f n ++ flat b n.
Proof. reflexivity. Qed.
Record Inv (s : stash) (its : list item) (fc ft : name -> list Z) (fp fm : list (name -> list Z)) (lost : name -> list Z) : Prop := {
  I_cur : summ (cur s) fc;
  I_printed : Forall2 (fun p f => summ (snd p) f) (printed s) fp;
  I_merger : Forall2 summ (merger s) fm;
  I_dispatch : Forall (fun c => datas c = []) (dispatch s);
  I_turbo : match turbo_pc s with TProc _ _ c => summ c ft | _ => forall n, ft n = [] end;
  I_bag : forall n, Permutation (vals n its) (vals n (queued s) ++ lost n ++ fc n ++ ft n ++ flat fm n ++ flat fp n);
  I_lost : forall n, kind n = kGauge \/ enable_turbo s = false -> lost n = [];
  I_off : enable_turbo s = false -> turbo_pc s = TEnd;
  I_qs : queues s <> [] }.

Lemma upd_concat {A} (x : list A) l : forall i q, nth_error l i = Some q ->
  Permutation (concat (upd i x l) ++ q) (concat l ++ x).
Proof.
  induction l as [|y l IH]; intros [|i] q H; cbn in *; try discriminate.
  - inv H. rewrite (Permutation_app_comm (q ++ concat l) x), <- !app_assoc. apply Permutation_app_head. apply Permutation_app_comm.
  - rewrite <- !app_assoc. apply Permutation_app_head. auto.
Qed.
Lemma queued_take s i q taken rest : nth_error (queues s) i = Some q -> Permutation q (taken ++ rest) ->
  Permutation (concat (queues s)) (concat (upd i rest (queues s)) ++ taken).
Proof.
  intros H P. apply Permutation_app_inv_r with (l := rest). rewrite <- (upd_concat rest _ _ _ H), P, <- app_assoc. reflexivity.
Qed.
Lemma upd_nil {A} (x : A) i l : l <> [] -> upd i x l <> [].
Proof. destruct l, i; cbn; congruence. Qed.

(** Permutations of concatenations by comparing multiplicities. *)
Lemma perm_occ (a b : list Z) : (forall x, count_occ Z.eq_dec a x = count_occ Z.eq_dec b x) -> Permutation a b.
Proof. intro H. now apply (Permutation_count_occ Z.eq_dec). Qed.
Ltac occ :=
  apply perm_occ; let x := fresh "x" in intro x;
  repeat match goal with H : Permutation _ _ |- _ => apply (Permutation_count_occ Z.eq_dec) with (x := x) in H || fail end;
  repeat match goal with H : _ |- _ => progress rewrite ?count_occ_app in H end; rewrite ?count_occ_app; rewrite ?count_occ_nil; try lia.

Definition bounds (its : list item) := forall n, count (vals n its) < 2 ^ 32 /\ magnitude (vals n its) < 2 ^ 63.
Lemma sub_bounds a b r : Permutation a (b ++ r) -> count a < 2 ^ 32 /\ magnitude a < 2 ^ 63 -> count b < 2 ^ 32 /\ magnitude b < 2 ^ 63.
Proof.
  intros P [B1 B2]. rewrite (count_perm _ _ P), count_app in B1. rewrite (magnitude_perm _ _ P), magnitude_app in B2.
  assert (H1 := count_pos r). assert (H2 := magnitude_pos r). lia.
Qed.
Lemma one_kind_queued s its fc ft fp fm lost i q taken rest : one_kind kind its -> (forall it, In it (queued s) -> In it its) ->
  Inv s its fc ft fp fm lost -> nth_error (queues s) i = Some q -> Permutation q (taken ++ rest) -> one_kind kind taken.
Proof.
  intros K I _ Hq P it Hit. apply K, I. unfold queued. apply in_concat. exists q. split; [now apply nth_error_In in Hq|].
  eapply Permutation_in; [symmetry; exact P|]. apply in_or_app. now left.
Qed.

Local Arguments concat : simpl never.
Theorem step_inv s e o its fc ft fp fm lost : safe_settings kind provider ->
  let its' := match e with EStash it => its ++ [it] | _ => its end in
  one_kind kind its' -> bounds its' -> (forall it, In it (queued s) -> In it its) ->
  Inv s its fc ft fp fm lost -> step handler provider s e o ->
  exists s' fc' ft' fp' fm' lost', o = Ok s' /\ Inv s' its' fc' ft' fp' fm' lost' /\ (forall it, In it (queued s') -> In it its').
Proof.
  intros SS its' K B Q I St. destruct I as [Ic Ip Im Id It Ib Il Io Iq]. destruct St; subst its'; cbv zeta in *.
  - (* Stash *)
    unfold Stash. destruct (length (queues s)) as [|k] eqn:L; [destruct (queues s); cbn in L; congruence|].
    set (idx := u32 (index s + 1)). set (q := Z.to_nat (idx mod Z.of_nat (S k))).
    assert (Hq : (q < length (queues s))%nat). { assert (M := Z.mod_pos_bound idx (Z.of_nat (S k)) ltac:(lia)). unfold q. lia. }
    assert (Hn : nth_error (queues s) q = Some (nth q (queues s) [])) by (now apply nth_error_nth').
    assert (P : Permutation (concat (upd q (nth q (queues s) [] ++ [it]) (queues s))) (concat (queues s) ++ [it])).
    { apply Permutation_app_inv_r with (l := nth q (queues s) []). rewrite (upd_concat _ _ _ _ Hn).
      rewrite <- !app_assoc. apply Permutation_app_head, Permutation_app_comm. }
    eexists; exists fc, ft, fp, fm, lost. split; [reflexivity|]. split.
    + split; cbn; eauto.
      * intro n. rewrite vals_app. unfold queued. cbn. rewrite (vals_perm _ n _ _ P), vals_app.
        rewrite (Ib n). unfold queued. occ.
      * now apply upd_nil.
    + unfold queued. cbn. intros x Hx. eapply Permutation_in in Hx; [|exact P]. apply in_app_or in Hx. apply in_or_app.
      destruct Hx; auto.
  - eexists; exists fc, ft, fp, fm, lost. split; [reflexivity|]. split; [split; cbn; eauto|auto].
  - (* top *)
    eexists; exists fc, ft, fp, fm, lost. split; [reflexivity|]. unfold stash_top. destruct (running s); (split; [split; cbn; eauto|auto]).
    destruct (enable_turbo s); auto. apply Forall_app. split; auto.
  - (* take *)
    assert (P := queued_take s i q taken rest H0 H1).
    assert (Kt : one_kind kind taken).
    { intros x Hx. apply K, Q. unfold queued. eapply Permutation_in; [symmetry; exact P|]. apply in_or_app. auto. }
    destruct (handle_all_ok kind provider handler taken (cur s) fc Ic SS Kt) as (c' & E & S').
    { intro n. apply sub_bounds with (a := vals n its) (r := vals n (concat (upd i rest (queues s))) ++ lost n ++ ft n ++ flat fm n ++ flat fp n); auto.
      rewrite (Ib n). unfold queued. rewrite (vals_perm _ n _ _ P), vals_app. occ. }
    unfold stash_take. rewrite E. cbn [obind].
    exists (Stash_ (running s) (enable_turbo s) (report_interval s) (last_report_time s) (index s) (upd i rest (queues s)) c'
      (dispatch s) (merger s) (SProc (S i)) (turbo_pc s) (printed s)), (fun n => fc n ++ vals n taken), ft, fp, fm, lost.
    split; [reflexivity|]. split.
    + split; cbn; eauto.
      * intro n. rewrite (Ib n). unfold queued. cbn. rewrite (vals_perm _ n _ _ P), vals_app. occ.
      * now apply upd_nil.
    + unfold queued. cbn. intros x Hx. apply Q. unfold queued. eapply Permutation_in; [symmetry; exact P|]. apply in_or_app. auto.
  - eexists; exists fc, ft, fp, fm, lost. split; [reflexivity|]. split; [split; cbn; eauto|auto].
  - (* merge *)
    unfold stash_merge. destruct (merger s) as [|c r] eqn:Mg.
    { eexists; exists fc, ft, fp, fm, lost. split; [reflexivity|]. split; [split; cbn; rewrite ?Mg; eauto|auto]. }
    destruct (enable_turbo s) eqn:T.
    2: { eexists; exists fc, ft, fp, fm, lost. split; [reflexivity|]. split; [split; cbn; rewrite ?T, ?Mg; eauto|auto]. }
    inv Im. rename y into g. rename l' into fm'.
    destruct (Merge_ok kind provider (cur s) c fc g Ic H2 SS) as (c' & E & S').
    { intro n. apply sub_bounds with (a := vals n its) (r := vals n (queued s) ++ lost n ++ ft n ++ flat fm' n ++ flat fp n); auto.
      rewrite (Ib n), flat_cons. occ. }
    rewrite E. cbn [obind].
    exists (Stash_ (running s) true (report_interval s) (last_report_time s) (index s) (queues s) c'
      (dispatch s) r SReport (turbo_pc s) (printed s)), (fun n => fc n ++ (if mtype_eqb (kind n) kGauge then g n else [])), ft, fp, fm',
      (fun n => lost n ++ (if mtype_eqb (kind n) kGauge then [] else g n)).
    split; [reflexivity|]. split; [|auto].
    split; cbn; auto.
    + intro n. rewrite (Ib n), flat_cons. unfold queued. cbn. destruct (mtype_eqb (kind n) kGauge); occ.
    + intros n [Kn|]; [|discriminate]. rewrite Kn. cbn. now rewrite Il by auto.
  - eexists; exists fc, ft, fp, fm, lost. split; [reflexivity|]. split; [split; cbn; eauto|auto].
  - (* report *)
    unfold GenerateReport. destruct (_ <? _).
    { eexists; exists fc, ft, fp, fm, lost. split; [reflexivity|]. split; [split; cbn; eauto|auto]. }
    exists (Stash_ (running s) (enable_turbo s) (report_interval s) now (index s) (queues s) (new_container now)
         (dispatch s) (merger s) STop (turbo_pc s) ((now, cur s) :: printed s)), (fun _ => []), ft, (fc :: fp), fm, lost.
    split; [reflexivity|]. split; [|auto]. split; cbn; auto using summ_new.
    intro n. rewrite (Ib n), flat_cons. unfold queued. cbn. occ.
  - (* turbo top *)
    unfold turbo_top. destruct (running s).
    + destruct (dispatch s) as [|c r] eqn:D.
      { eexists; exists fc, ft, fp, fm, lost. split; [reflexivity|]. split; [split; cbn; rewrite ?D; eauto|auto]. }
      inv Id. exists (Stash_ true (enable_turbo s) (report_interval s) (last_report_time s) (index s) (queues s) (cur s) r (merger s)
                  (stash_pc s) (TProc 0 0 c) (printed s)), fc, ft, fp, fm, lost.
      rewrite H in It. split; [reflexivity|]. split; [|auto]. split; cbn; auto.
      * eapply summ_ext; [|apply summ_empty; eauto]. auto.
      * intro F. specialize (Io F). congruence.
    + eexists; exists fc, ft, fp, fm, lost. split; [reflexivity|]. rewrite H in It. split; [split; cbn; eauto|auto].
  - (* turbo take *)
    rewrite H in It.
    assert (P := queued_take s i q taken rest H0 H1).
    assert (Kt : one_kind kind taken).
    { intros x Hx. apply K, Q. unfold queued. eapply Permutation_in; [symmetry; exact P|]. apply in_or_app. auto. }
    destruct (handle_all_ok kind provider handler taken c ft It SS Kt) as (c' & E & S').
    { intro k. apply sub_bounds with (a := vals k its) (r := vals k (concat (upd i rest (queues s))) ++ lost k ++ fc k ++ flat fm k ++ flat fp k); auto.
      rewrite (Ib k). unfold queued. rewrite (vals_perm _ k _ _ P), vals_app. occ. }
    unfold turbo_take. rewrite E. cbn [obind].
    exists (Stash_ (running s) (enable_turbo s) (report_interval s) (last_report_time s) (index s) (upd i rest (queues s)) (cur s)
      (dispatch s) (merger s) (stash_pc s) (TProc (S i) (n + length taken) c') (printed s)), fc, (fun n => ft n ++ vals n taken), fp, fm, lost.
    split; [reflexivity|]. split.
    + split; cbn; eauto.
      * intro k. rewrite (Ib k). unfold queued. cbn. rewrite (vals_perm _ k _ _ P), vals_app. occ.
      * intro F. specialize (Io F). congruence.
      * now apply upd_nil.
    + unfold queued. cbn. intros x Hx. apply Q. unfold queued. eapply Permutation_in; [symmetry; exact P|]. apply in_or_app. auto.
  - rewrite H in It. eexists; exists fc, ft, fp, fm, lost. split; [reflexivity|]. split; [split; cbn; eauto|auto].
    intro F. specialize (Io F). congruence.
  - (* turbo done *)
    rewrite H in It.
    exists (turbo_done s c), fc, (fun _ => []), fp, (fm ++ [ft]), lost.
    split; [reflexivity|]. split; [|auto]. split; cbn; auto.
    + apply Forall2_app; auto.
    + intro k. rewrite (Ib k). unfold queued. rewrite flat_app, flat_cons. cbn. occ.
    + intro F. specialize (Io F). congruence.
Qed.

Lemma run_inv s es o : run handler provider s es o -> forall its fc ft fp fm lost, safe_settings kind provider ->
  one_kind kind (its ++ stashed es) -> bounds (its ++ stashed es) -> (forall it, In it (queued s) -> In it its) ->
  Inv s its fc ft fp fm lost ->
  exists s' fc' ft' fp' fm' lost', o = Ok s' /\ Inv s' (its ++ stashed es) fc' ft' fp' fm' lost'.
Proof.
  induction 1 as [s|s e s' es o St R IH|s e o es St Bad]; intros its fc ft fp fm lost SS K B Q I.
  - cbn. rewrite app_nil_r. do 6 eexists; eauto.
  - set (its' := match e with EStash it => its ++ [it] | _ => its end).
    assert (E : its ++ stashed (e :: es) = its' ++ stashed es).
    { unfold its', stashed. cbn. destruct e; cbn; auto. now rewrite <- app_assoc. }
    rewrite E in *.
    assert (K1 : one_kind kind its') by (intros x Hx; apply K, in_or_app; auto).
    assert (B1 : bounds its'). { intro n. eapply sub_bounds; [|apply (B n)]. rewrite vals_app. reflexivity. }
    destruct (step_inv s e (Ok s') its fc ft fp fm lost SS K1 B1 Q I St) as (s2 & fc' & ft' & fp' & fm' & lost' & Es & I' & Q').
    inv Es. eapply IH; eauto.
  - set (its' := match e with EStash it => its ++ [it] | _ => its end).
    assert (E : its ++ stashed (e :: es) = its' ++ stashed es).
    { unfold its', stashed. cbn. destruct e; cbn; auto. now rewrite <- app_assoc. }
    rewrite E in *.
    assert (K1 : one_kind kind its') by (intros x Hx; apply K, in_or_app; auto).
    assert (B1 : bounds its'). { intro n. eapply sub_bounds; [|apply (B n)]. rewrite vals_app. reflexivity. }
    destruct (step_inv s e o its fc ft fp fm lost SS K1 B1 Q I St) as (s2 & fc' & ft' & fp' & fm' & lost' & Es & _).
    exfalso. eapply Bad; eauto.
Qed.
Lemma concat_repeat_nil {A} n : concat (repeat (@nil A) n) = [].
Proof. induction n; cbn; auto. Qed.
Lemma started_inv n turbo interval now : (0 < n)%nat -> Inv (started n turbo interval now) [] (fun _ => []) (fun _ => []) [] [] (fun _ => []).
Proof.
  intro N. split; cbn; auto using summ_new.
  - destruct turbo; auto.
  - intro k. unfold queued. cbn. rewrite concat_repeat_nil. reflexivity.
  - now intros ->.
  - destruct n; cbn; [lia|congruence].
Qed.
Lemma summ_count c f n : summ c f -> count_in n c = count (f n) /\ total_in n c = sum (f n).
Proof.
  intros [_ S]. unfold count_in, total_in, entry_of. specialize (S n). destruct (find n (datas c)).
  - destruct S as (_ & C & T & _). auto.
  - now rewrite S.
Qed.
Lemma summs_count cs fs n : Forall2 summ cs fs -> zsum (count_in n) cs = count (flat fs n) /\ zsum (total_in n) cs = sum (flat fs n).
Proof.
  induction 1 as [|c f cs fs S _ [IH1 IH2] ]; cbn; auto. destruct (summ_count c f n S) as [-> ->].
  rewrite flat_cons, count_app, sum_app. unfold zsum in *. rewrite IH1, IH2. auto.
Qed.
Theorem run_conserves n0 turbo interval now es o : (0 < n0)%nat -> safe_settings kind provider -> one_kind kind (stashed es) -> moderate handler (stashed es) ->
  run handler provider (started n0 turbo interval now) es o ->
  exists s, o = Ok s /\ enable_turbo s = turbo /\ forall n, 
   (kind n = kGauge \/ turbo = false ->
    zsum (count_in n) (map snd (printed s)) + zsum (count_in n) (pending s) + count (vals n (queued s)) = count (vals n (stashed es)) /\
    zsum (total_in n) (map snd (printed s)) + zsum (total_in n) (pending s) + sum (vals n (queued s)) = sum (vals n (stashed es))) /\
    zsum (count_in n) (map snd (printed s)) + zsum (count_in n) (pending s) + count (vals n (queued s)) <= count (vals n (stashed es)).
Proof.
  intros N SS K B R.
  assert (ET : forall s es o, run handler provider s es o -> forall s', o = Ok s' -> enable_turbo s' = enable_turbo s).
  { clear. induction 1 as [s|s e s' es o St R IH|s e o es St Bad]; intros s2 E.
    - inv E. auto.
    - rewrite (IH _ E). clear - St. remember (Ok s') as o eqn:Eo. destruct St; try (inv Eo; reflexivity).
      + unfold Stash in Eo. destruct (length (queues s)); inv Eo. reflexivity.
      + inv Eo. unfold stash_top. destruct (running s); reflexivity.
      + unfold stash_take in Eo. destruct (handle_all _ _ _ _); inv Eo. reflexivity.
      + unfold stash_merge in Eo. destruct (merger s); [inv Eo; reflexivity|]. destruct (enable_turbo s) eqn:T; [|inv Eo; cbn; auto].
        destruct (Merge _ _ _); inv Eo. cbn. auto.
      + inv Eo. unfold GenerateReport. destruct (_ <? _); reflexivity.
      + inv Eo. unfold turbo_top. destruct (running s); [destruct (dispatch s)|]; reflexivity.
      + unfold turbo_take in Eo. destruct (handle_all _ _ _ _); inv Eo. reflexivity.
    - exfalso. eapply Bad; eauto. }
  destruct (run_inv _ _ _ R [] (fun _ => []) (fun _ => []) [] [] (fun _ => []) SS K B)
    as (s & fc & ft & fp & fm & lost & E & I); [|now apply started_inv|].
  { unfold queued. cbn. rewrite concat_repeat_nil. cbn. tauto. }
  exists s. split; [auto|]. assert (T : enable_turbo s = turbo) by (rewrite (ET _ _ _ R s E); reflexivity).
  split; [auto|]. intro n. cbn [app] in I. destruct I as [Ic Ip Im Id It Ib Il Io Iq].
  assert (P1 : Forall2 summ (map snd (printed s)) fp). { clear - Ip. induction Ip; cbn; constructor; auto. }
  assert (P2 : exists fs, Forall2 summ (in_turbo s) fs /\ flat fs n = ft n).
  { unfold in_turbo. destruct (turbo_pc s); [exists []|exists [ft]|exists []]; cbn; (split; [auto|]); rewrite ?It; auto.
    rewrite flat_cons. apply app_nil_r. }
  destruct P2 as (fs & P2 & F2).
  assert (P3 : Forall2 summ (pending s) (fc :: fm ++ fs)). { constructor; auto. apply Forall2_app; auto. }
  destruct (summs_count _ _ n P1) as [-> ->]. destruct (summs_count _ _ n P3) as [-> ->].
  specialize (Ib n). rewrite (count_perm _ _ Ib), (sum_perm _ _ Ib).
  rewrite flat_cons, flat_app, F2. rewrite !count_app, !sum_app. assert (L := count_pos (lost n)). split.
  - intro H. rewrite <- T in H. rewrite (Il n H). rewrite count_nil. cbn. lia.
  - lia.
Qed.
End Stash.
