(** Proofs about tasks with replies. *)
From Coq Require Import Permutation.
From Verif.Model Require Import Common TaskReply.
From Verif.Spec Require Import ReplySpec.
From Verif.Proofs Require Import Tac.

Lemma dec : forall x y : nat * nat, {x = y} + {x <> y}.
Proof. repeat decide equality. Defined.
Definition c (x : nat * nat) (l : list (nat * nat)) : nat := count_occ dec l x.
Lemma c_app x l l' : c x (l ++ l') = c x l + c x l'. Proof. apply count_occ_app. Qed.
Lemma c_in x l : In x l <-> 0 < c x l. Proof. apply count_occ_In. Qed.
Definition owed_at (l : nat) (t : task) : list (nat * nat) :=
  match t with Plain n => [(l, n)] | WithReply n r k => [(l, n); (match k with Some k => k | None => l end, r)] end.
Definition queue (L : loop) : list task := sched L ++ nested L ++ batch L.
Definition owed_loop (l : nat) (L : loop) := flat_map (owed_at l) (queue L).
Fixpoint owed_from (i : nat) (ls : list loop) : list (nat * nat) :=
  match ls with [] => [] | L :: ls => owed_loop i L ++ owed_from (S i) ls end.
Definition owed (w : world) := owed_from 0 (loops w).

Lemma set_length ls : forall l L, length (set ls l L) = length ls.
Proof. induction ls as [|a ls IH]; intros [|l] L; cbn; auto. Qed.
Lemma nth_set ls : forall l L L0, nth_error ls l = Some L0 -> forall j, nth_error (set ls l L) j = if Nat.eqb l j then Some L else nth_error ls j.
Proof.
  induction ls as [|a ls IH]; intros [|l] L L0 H j; cbn in *; try discriminate H.
  - destruct j; reflexivity.
  - destruct j; [ reflexivity | ]. cbn. eapply IH; eauto.
Qed.
Lemma owed_set x ls : forall l L L' i, nth_error ls l = Some L ->
  c x (owed_from i (set ls l L')) + c x (owed_loop (i + l) L) = c x (owed_from i ls) + c x (owed_loop (i + l) L').
Proof.
  induction ls as [|a ls IH]; intros [|l] L L' i H; cbn [nth_error set owed_from] in *; try discriminate H.
  - injection H as ->. rewrite Nat.add_0_r, !c_app. lia.
  - rewrite !c_app. specialize (IH l L L' (S i) H). replace (S i + l) with (i + S l) in IH by lia. lia.
Qed.
Lemma owed_loop_c x l b q ne ba : c x (owed_loop l (Loop b q ne ba)) = c x (flat_map (owed_at l) q) + c x (flat_map (owed_at l) ne) + c x (flat_map (owed_at l) ba).
Proof. unfold owed_loop, queue. cbn [sched nested batch]. rewrite !flat_map_app, !c_app. lia. Qed.
Lemma fm1 l t : flat_map (owed_at l) [t] = owed_at l t. Proof. cbn. apply app_nil_r. Qed.
Lemma post_count x w cur l t w' : PostTask w cur l t = Ok w' -> log w' = log w /\ c x (owed w') = c x (owed w) + c x (owed_at l t).
Proof.
  unfold PostTask. destruct (nth_error (loops w) l) as [L|] eqn:E; [ | discriminate ]. destruct (running L) eqn:Er; [ | discriminate ].
  intros H. inv H. split; [ reflexivity | ]. unfold owed. cbn [loops].
  match goal with |- c x (owed_from 0 (set _ _ ?L')) = _ => pose proof (owed_set x _ _ _ L' 0 E) as Hs end. cbn [Nat.add] in Hs.
  destruct L as [b q ne ba]. cbn [running sched nested batch] in *. revert Hs.
  destruct (match cur with Some c0 => c0 =? l | None => false end); rewrite !owed_loop_c, !flat_map_app, !c_app, fm1; lia.
Qed.
Lemma run_task_count x w l t w' : run_task w l t = Ok w' -> c x (log w') + c x (owed w') = c x (log w) + c x (owed w) + c x (owed_at l t).
Proof.
  destruct t as [n|n r [k|]]; cbn [run_task].
  - intros H. inv H. unfold owed. cbn [log loops owed_at]. rewrite c_app. lia.
  - intros H. destruct (post_count x _ _ _ _ _ H) as [Hl Hc]. rewrite Hl. cbn [log] in *. unfold owed in *. cbn [loops owed_at] in *. rewrite c_app, Hc.
    change [(l, n); (k, r)] with ([(l, n)] ++ [(k, r)]). rewrite c_app. lia.
  - intros H. inv H. unfold owed. cbn [log loops owed_at]. rewrite c_app. lia.
Qed.
Lemma step_count x w o w' : step w o = Ok w' -> c x (log w') + c x (owed w') = c x (asked o) + c x (log w) + c x (owed w).
Proof.
  destruct o as [cur l n|cur l n r|cur l n r k|l|l|l|l]; cbn [step].
  - intros H. destruct (post_count x _ _ _ _ _ H) as [Hl Hc]. rewrite Hl, Hc. cbn [owed_at asked]. lia.
  - intros H. destruct (post_count x _ _ _ _ _ H) as [Hl Hc]. rewrite Hl, Hc. cbn [owed_at asked]. lia.
  - intros H. destruct (post_count x _ _ _ _ _ H) as [Hl Hc]. rewrite Hl, Hc. destruct k; cbn [owed_at asked]; lia.
  - destruct (nth_error (loops w) l) as [[b [|t q] ne [|t' ba]]|] eqn:E; try (intros H; inv H; cbn; lia; fail).
    intros H. apply (run_task_count x) in H. rewrite H. unfold owed. cbn [log loops asked].
    pose proof (owed_set x _ _ _ (Loop b q ne []) 0 E) as Hs. cbn [Nat.add] in Hs. rewrite !owed_loop_c in Hs. cbn [flat_map] in Hs. rewrite c_app in Hs. cbn. lia.
  - destruct (nth_error (loops w) l) as [[b q ne [|t' ba]]|] eqn:E; try (intros H; inv H; cbn; lia; fail).
    intros H. inv H. unfold owed. cbn [log loops asked].
    pose proof (owed_set x _ _ _ (Loop b q [] ne) 0 E) as Hs. cbn [Nat.add] in Hs. rewrite !owed_loop_c in Hs. cbn in Hs |- *. lia.
  - destruct (nth_error (loops w) l) as [[b q ne [|t ba]]|] eqn:E; try (intros H; inv H; cbn; lia; fail).
    intros H. apply (run_task_count x) in H. rewrite H. unfold owed. cbn [log loops asked].
    pose proof (owed_set x _ _ _ (Loop b q ne ba) 0 E) as Hs. cbn [Nat.add] in Hs. rewrite !owed_loop_c in Hs. cbn [flat_map] in Hs. rewrite c_app in Hs. cbn. lia.
  - destruct (nth_error (loops w) l) as [[b q ne ba]|] eqn:E; intros H; inv H; [ | cbn; lia ].
    unfold owed. cbn [log loops asked sched nested batch].
    pose proof (owed_set x _ _ _ (Loop false q ne ba) 0 E) as Hs. cbn [Nat.add] in Hs. rewrite !owed_loop_c in Hs. cbn in *. lia.
Qed.
Lemma run_count x os : forall w w', run w os = Ok w' -> c x (log w') + c x (owed w') = c x (flat_map asked os) + c x (log w) + c x (owed w).
Proof.
  induction os as [|o os IH]; cbn [run flat_map]; intros w w' H; [ inv H; cbn; lia | ].
  destruct (step w o) as [w1| |] eqn:E; try discriminate H. cbn in H. rewrite (IH _ _ H), c_app.
  pose proof (step_count x _ _ _ E). lia.
Qed.
Lemma owed_boot n : forall i, owed_from i (repeat started n) = [].
Proof. induction n as [|n IH]; intros i; cbn; [ reflexivity | apply IH ]. Qed.
Lemma boot_count x n os w : run (boot n) os = Ok w -> c x (log w) + c x (owed w) = c x (flat_map asked os).
Proof. intros H. rewrite (run_count x _ _ _ H). unfold owed, boot. cbn [log loops]. rewrite owed_boot. cbn. lia. Qed.
Lemma idle_owed ls : forall i, (forall L, In L ls -> idle L) -> owed_from i ls = [].
Proof.
  induction ls as [|L ls IH]; intros i H; cbn; [ reflexivity | ]. rewrite IH by (intros; apply H; right; assumption).
  destruct (H L (or_introl eq_refl)) as (H1 & H2 & H3). unfold owed_loop, queue. rewrite H1, H2, H3. reflexivity.
Qed.

(** * Order *)
Definition pending (p : (nat * nat) * (nat * nat)) (ls : list loop) : Prop :=
  exists l L t, nth_error ls l = Some L /\ In t (queue L) /\ owed_at l t = [fst p; snd p].
Lemma pending_count p ls : forall i, (exists l L t, nth_error ls l = Some L /\ In t (queue L) /\ owed_at (i + l) t = [fst p; snd p]) -> 0 < c (snd p) (owed_from i ls).
Proof.
  intros i (l & L & t & Hn & Ht & Ho). apply c_in. revert i l Hn Ho. induction ls as [|a ls IH]; intros i [|l] Hn Ho; cbn in Hn; try discriminate Hn; cbn; apply in_or_app.
  - inv Hn. left. unfold owed_loop. apply in_flat_map. exists t. split; [ exact Ht | ]. rewrite Nat.add_0_r in Ho. rewrite Ho. right. left. reflexivity.
  - right. apply (IH (S i) l Hn). replace (S i + l) with (i + S l) by lia. exact Ho.
Qed.
Lemma pending_set p ls l L L' : nth_error ls l = Some L -> pending p ls ->
  (forall t, In t (queue L) -> owed_at l t = [fst p; snd p] -> In t (queue L')) -> pending p (set ls l L').
Proof.
  intros Hl (j & J & t & Hj & Ht & Ho) Hk. exists j. destruct (Nat.eqb_spec l j) as [->|Hne].
  - rewrite Hl in Hj. inv Hj. exists L', t. rewrite (nth_set _ _ L' _ Hl), Nat.eqb_refl. auto.
  - exists J, t. rewrite (nth_set _ _ L' _ Hl). destruct (Nat.eqb_spec l j); [ contradiction | ]. auto.
Qed.
Lemma post_pending p w cur l t w' : PostTask w cur l t = Ok w' -> (pending p (loops w) \/ owed_at l t = [fst p; snd p]) -> pending p (loops w').
Proof.
  unfold PostTask. destruct (nth_error (loops w) l) as [L|] eqn:E; [ | discriminate ]. destruct (running L); [ | discriminate ].
  intros H. inv H. cbn [loops]. destruct L as [b q ne ba]. cbn [running sched nested batch].
  intros [Hp|Ho].
  - apply (pending_set p _ _ _ _ E Hp). intros t0 Ht0 _. destruct (match cur with Some c0 => c0 =? l | None => false end); unfold queue in *; cbn in *;
      rewrite !in_app_iff in *; tauto.
  - exists l. match goal with |- exists L0 t0, nth_error (set _ _ ?L') _ = _ /\ _ => exists L' end. exists t. rewrite (nth_set _ _ _ _ E), Nat.eqb_refl.
    split; [ reflexivity | ]. split; [ | exact Ho ]. destruct (match cur with Some c0 => c0 =? l | None => false end); unfold queue; cbn; rewrite !in_app_iff; cbn; tauto.
Qed.
Definition started_pair (p : (nat * nat) * (nat * nat)) (new : list (nat * nat)) : Prop := new = [fst p] \/ new = [fst p; snd p].
Lemma run_task_pending w l t w' : run_task w l t = Ok w' -> exists new, log w' = log w ++ new /\
  (forall p, pending p (loops w) -> pending p (loops w')) /\ (forall p, owed_at l t = [fst p; snd p] -> started_pair p new).
Proof.
  destruct t as [n|n r [k|]]; cbn [run_task]; intros H.
  - inv H. exists [(l, n)]. cbn. repeat split; auto. intros p Hp. discriminate Hp.
  - exists [(l, n)]. repeat split.
    + destruct (post_count (0, 0) _ _ _ _ _ H) as [Hl _]. rewrite Hl. reflexivity.
    + intros p Hp. apply (post_pending p _ _ _ _ _ H). left. exact Hp.
    + intros p Hp. cbn in Hp. left. congruence.
  - inv H. exists [(l, n); (l, r)]. cbn. repeat split; auto. intros p Hp. cbn in Hp. right. congruence.
Qed.
Lemma step_pending w o w' : step w o = Ok w' -> exists new, log w' = log w ++ new /\
  forall p, pending p (loops w) \/ In p (pair o) -> pending p (loops w') \/ started_pair p new.
Proof.
  destruct o as [cur l n|cur l n r|cur l n r k|l|l|l|l]; cbn [step].
  - intros H. exists []. rewrite app_nil_r. split; [ apply (post_count (0, 0) _ _ _ _ _ H) | ]. intros p [Hp|Hp]; [ | destruct Hp ].
    left. apply (post_pending p _ _ _ _ _ H). auto.
  - intros H. exists []. rewrite app_nil_r. split; [ apply (post_count (0, 0) _ _ _ _ _ H) | ]. intros p Hp.
    left. apply (post_pending p _ _ _ _ _ H). destruct Hp as [Hp|Hp]; [ left; exact Hp | right ]. destruct Hp as [<-|[]]. reflexivity.
  - intros H. exists []. rewrite app_nil_r. split; [ apply (post_count (0, 0) _ _ _ _ _ H) | ]. intros p Hp.
    left. apply (post_pending p _ _ _ _ _ H). destruct Hp as [Hp|Hp]; [ left; exact Hp | right ]. destruct k; destruct Hp as [<-|[]]; reflexivity.
  - destruct (nth_error (loops w) l) as [[b [|t q] ne [|t' ba]]|] eqn:E; try (intros H; inv H; exists []; rewrite app_nil_r; split; [ reflexivity | intros p [Hp|[]]; auto ]; fail).
    intros H. destruct (run_task_pending _ _ _ _ H) as (new & Hn & Hk & Hs). exists new. split; [ exact Hn | ]. intros p [Hp|[]]. cbn [loops] in Hk.
    destruct (list_eq_dec dec (owed_at l t) [fst p; snd p]) as [Hq|Hq]; [ right; auto | left ].
    apply Hk. apply (pending_set p _ _ _ _ E Hp). intros t0 Ht0 Ho. unfold queue in *. cbn in *. destruct Ht0 as [->|Ht0]; [ contradiction | exact Ht0 ].
  - destruct (nth_error (loops w) l) as [[b q ne [|t' ba]]|] eqn:E; try (intros H; inv H; exists []; rewrite app_nil_r; split; [ reflexivity | intros p [Hp|[]]; auto ]; fail).
    intros H. inv H. exists []. rewrite app_nil_r. split; [ reflexivity | ]. intros p [Hp|[]]. left. cbn [loops].
    apply (pending_set p _ _ _ _ E Hp). intros t0 Ht0 _. unfold queue in *. cbn in *. rewrite app_nil_r in Ht0. exact Ht0.
  - destruct (nth_error (loops w) l) as [[b q ne [|t ba]]|] eqn:E; try (intros H; inv H; exists []; rewrite app_nil_r; split; [ reflexivity | intros p [Hp|[]]; auto ]; fail).
    intros H. destruct (run_task_pending _ _ _ _ H) as (new & Hn & Hk & Hs). exists new. split; [ exact Hn | ]. intros p [Hp|[]]. cbn [loops] in Hk.
    destruct (list_eq_dec dec (owed_at l t) [fst p; snd p]) as [Hq|Hq]; [ right; auto | left ].
    apply Hk. apply (pending_set p _ _ _ _ E Hp). intros t0 Ht0 Ho. unfold queue in *. cbn in *. rewrite !in_app_iff in *. cbn in Ht0.
    destruct Ht0 as [?|[?|[->|?]]]; tauto.
  - destruct (nth_error (loops w) l) as [[b q ne ba]|] eqn:E; intros H; inv H; exists []; rewrite app_nil_r; (split; [ reflexivity | ]); intros p [Hp|[]]; left; [ | exact Hp ].
    cbn [loops]. apply (pending_set p _ _ _ _ E Hp). intros t0 Ht0 _. exact Ht0.
Qed.
Definition ordered (w : world) (ps : list ((nat * nat) * (nat * nat))) : Prop := forall p, In p ps ->
  (pending p (loops w) \/ In (fst p) (log w)) /\ (In (snd p) (log w) -> before (log w) (fst p) (snd p)).
Lemma before_app {A} (l l' : list A) x y : before l x y -> before (l ++ l') x y.
Proof. intros (a & b & d & ->). exists a, b, (d ++ l'). repeat (rewrite <- !app_assoc || cbn [app]). reflexivity. Qed.
Lemma before_split {A} (l l' : list A) x y : In x l -> In y l' -> before (l ++ l') x y.
Proof. intros Hx Hy. apply in_split in Hx as (a & b & ->). apply in_split in Hy as (d & e & ->). exists a, (b ++ d), e. repeat (rewrite <- !app_assoc || cbn [app]). reflexivity. Qed.
Lemma pair_asked p o : In p (pair o) -> asked o = [fst p; snd p].
Proof. unfold pair. destruct (asked o) as [|a [|b [|? ?]]]; cbn; try tauto. intros [<-|[]]. reflexivity. Qed.
Lemma ordered_step w ps o w' : step w o = Ok w' -> ordered w ps -> (forall x, c x (log w') + c x (owed w') <= 1) ->
  (forall p, In p ps \/ In p (pair o) -> fst p <> snd p /\ (In p (pair o) -> ~ In (snd p) (log w))) -> ordered w' (ps ++ pair o).
Proof.
  intros E Ho Hc Hd p Hp. apply in_app_iff in Hp.
  destruct (step_pending _ _ _ E) as (new & Hn & Hk).
  assert (H1 : pending p (loops w') \/ started_pair p new \/ In (fst p) (log w)).
  { destruct Hp as [Hp|Hp]; [ destruct (proj1 (Ho p Hp)) as [H|H]; [ destruct (Hk p (or_introl H)); auto | auto ] | destruct (Hk p (or_intror Hp)); auto ]. }
  split.
  - destruct H1 as [H1|[[-> | -> ]|H1]]; [ left; exact H1 | | | ]; right; rewrite Hn; apply in_or_app; cbn; auto.
  - intros Hb. rewrite Hn in Hb |- *. apply in_app_iff in Hb. destruct (Hd p Hp) as [Hne Hfresh].
    destruct Hb as [Hb|Hb].
    { apply before_app. destruct Hp as [Hp|Hp]; [ exact (proj2 (Ho p Hp) Hb) | destruct (Hfresh Hp Hb) ]. }
    destruct H1 as [H1|[H1|H1]].
    + exfalso. pose proof (pending_count p (loops w') 0 H1) as Hpc. specialize (Hc (snd p)). assert (0 < c (snd p) (log w')) by (apply c_in; rewrite Hn; apply in_or_app; auto). unfold owed in Hc. lia.
    + destruct H1 as [-> | -> ].
      * destruct Hb as [Hb|[]]. congruence.
      * exists (log w), [], []. reflexivity.
    + apply before_split; assumption.
Qed.
Lemma ordered_run os : forall w ps w', run w os = Ok w' -> ordered w ps -> (forall x, c x (flat_map asked os) + c x (log w) + c x (owed w) <= 1) ->
  (forall p, In p ps -> fst p <> snd p) -> ordered w' (ps ++ flat_map pair os).
Proof.
  induction os as [|o os IH]; cbn [run flat_map]; intros w ps w' E Ho Hc Hd; [ inv E; rewrite app_nil_r; exact Ho | ].
  destruct (step w o) as [w1| |] eqn:E1; try discriminate E. cbn in E. rewrite app_assoc.
  assert (Hc1 : forall x, c x (flat_map asked os) + c x (log w1) + c x (owed w1) <= 1).
  { intros x. pose proof (step_count x _ _ _ E1). specialize (Hc x). rewrite c_app in Hc. lia. }
  assert (Hp : forall p, In p (pair o) -> fst p <> snd p /\ ~ In (snd p) (log w)).
  { intros p Hp. apply pair_asked in Hp. pose proof (Hc (snd p)) as H. rewrite c_app, Hp in H. split.
    - intros Heq. rewrite Heq in H. cbn in H. destruct (dec (snd p) (snd p)); [ lia | contradiction ].
    - intros Hi. apply c_in in Hi. cbn in H. destruct (dec (fst p) (snd p)); destruct (dec (snd p) (snd p)); try contradiction; lia. }
  apply (IH w1); auto.
  - apply (ordered_step w _ _ _ E1 Ho).
    + intros x. specialize (Hc1 x). lia.
    + intros p H. split; [ destruct H as [H|H]; [ auto | apply (Hp p H) ] | intros H'; apply (Hp p H') ].
  - intros p H. apply in_app_iff in H as [H|H]; [ auto | apply (Hp p H) ].
Qed.

(** * No abort without QuitLoop *)
Definition in_range (n : nat) (t : task) : Prop := match t with WithReply _ _ (Some k) => k < n | _ => True end.
Definition fine (n : nat) (w : world) : Prop := length (loops w) = n /\ forall l L, nth_error (loops w) l = Some L -> running L = true /\ Forall (in_range n) (queue L).
Lemma fine_set n ls lg l L L' : nth_error ls l = Some L -> fine n (World ls lg) -> running L' = true -> Forall (in_range n) (queue L') -> forall lg', fine n (World (set ls l L') lg').
Proof.
  intros Hl [H1 H2] Hr Hq lg'. split; cbn [loops] in *; [ rewrite set_length; exact H1 | ]. intros j J Hj. rewrite (nth_set _ _ _ _ Hl) in Hj.
  destruct (Nat.eqb l j); [ inv Hj; auto | eauto ].
Qed.
Lemma queue_perm_app n b q ne ba : Forall (in_range n) (queue (Loop b q ne ba)) <-> Forall (in_range n) q /\ Forall (in_range n) ne /\ Forall (in_range n) ba.
Proof. unfold queue. cbn. rewrite !Forall_app. tauto. Qed.
Lemma post_fine n w cur l t : fine n w -> l < n -> in_range n t -> exists w', PostTask w cur l t = Ok w' /\ fine n w'.
Proof.
  intros Hf Hl Ht. unfold PostTask. destruct (nth_error (loops w) l) as [L|] eqn:E.
  - destruct (proj2 Hf l L E) as [Hr Hq]. rewrite Hr. eexists. split; [ reflexivity | ]. destruct w as [ls lg]. cbn [loops log] in *.
    destruct L as [b q ne ba]. cbn [running sched nested batch] in *. apply queue_perm_app in Hq as (Q1 & Q2 & Q3).
    apply (fine_set n ls lg l _ _ E Hf); destruct (match cur with Some c0 => c0 =? l | None => false end); try reflexivity; apply queue_perm_app; rewrite ?Forall_app; auto.
  - apply nth_error_None in E. rewrite (proj1 Hf) in E. lia.
Qed.
Lemma run_task_fine n w l t : fine n w -> in_range n t -> exists w', run_task w l t = Ok w' /\ fine n w'.
Proof.
  intros Hf Ht. destruct t as [m|m r [k|]]; cbn [run_task]; try (eexists; split; [ reflexivity | exact Hf ]).
  apply post_fine; [ exact Hf | exact Ht | exact Logic.I ].
Qed.
Lemma step_fine n w o : fine n w -> known n o -> quits o = false -> exists w', step w o = Ok w' /\ fine n w'.
Proof.
  intros Hf Hk Hq. destruct o as [cur l m|cur l m r|cur l m r k|l|l|l|l]; cbn [step quits known] in *; try discriminate Hq.
  - apply post_fine; auto. exact Logic.I.
  - apply post_fine; auto.
  - destruct k; apply post_fine; auto; try apply Hk; exact Logic.I.
  - destruct (nth_error (loops w) l) as [[b [|t q] ne [|t' ba]]|] eqn:E; try (exists w; split; [ reflexivity | exact Hf ]; fail).
    destruct (proj2 Hf l _ E) as [Hr HQ]. apply queue_perm_app in HQ as (Q1 & Q2 & Q3). inversion Q1; subst. destruct w as [ls lg]. apply run_task_fine; [ | assumption ].
    apply (fine_set n ls lg l _ _ E Hf); [ exact Hr | apply queue_perm_app; auto ].
  - destruct (nth_error (loops w) l) as [[b q ne [|t' ba]]|] eqn:E; try (exists w; split; [ reflexivity | exact Hf ]; fail).
    destruct (proj2 Hf l _ E) as [Hr HQ]. apply queue_perm_app in HQ as (Q1 & Q2 & Q3). destruct w as [ls lg]. eexists. split; [ reflexivity | ].
    apply (fine_set n ls lg l _ _ E Hf); [ exact Hr | apply queue_perm_app; auto ].
  - destruct (nth_error (loops w) l) as [[b q ne [|t ba]]|] eqn:E; try (exists w; split; [ reflexivity | exact Hf ]; fail).
    destruct (proj2 Hf l _ E) as [Hr HQ]. apply queue_perm_app in HQ as (Q1 & Q2 & Q3). inversion Q3; subst. destruct w as [ls lg]. apply run_task_fine; [ | assumption ].
    apply (fine_set n ls lg l _ _ E Hf); [ exact Hr | apply queue_perm_app; auto ].
Qed.
Lemma run_fine n os : forall w, fine n w -> (forall o, In o os -> known n o /\ quits o = false) -> exists w', run w os = Ok w' /\ fine n w'.
Proof.
  induction os as [|o os IH]; intros w Hf Ho; [ exists w; auto | ]. destruct (Ho o (or_introl eq_refl)) as [H1 H2].
  destruct (step_fine n w o Hf H1 H2) as (w1 & E & Hf1). cbn [run]. rewrite E. cbn [obind]. apply IH; [ exact Hf1 | intros; apply Ho; right; assumption ].
Qed.
Lemma fine_boot n : fine n (boot n).
Proof.
  split; cbn [loops boot]; [ apply repeat_length | ]. intros l L H. apply nth_error_In, repeat_spec in H. subst L. split; [ reflexivity | constructor ].
Qed.
