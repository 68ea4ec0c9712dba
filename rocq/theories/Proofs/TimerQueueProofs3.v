(** The wait computed by the timer queue. *)
From Coq Require Import Permutation.
From Verif.Model Require Import Common TimerQueue.
From Verif.Spec Require Import WaitSpec.
From Verif.Proofs Require Import Tac TimerQueueProofs TimerQueueProofs2.
Local Open Scope Z_scope.

Definition covered (q : tq) : Prop := forall id tm, owner q id = Some tm -> In (due tm, id) (heap q).
Lemma covered_new : covered new_tq.
Proof. intros id tm H. rewrite owner_new in H. discriminate H. Qed.
Lemma covered_step q o q' : ranged q -> kind q -> (match o with OAdd t => patient t | _ => True end) -> step q o = Ok q' -> covered q -> covered q'.
Proof.
  intros Hr Hk Hp E Hc. destruct o as [t|id|k now now2]; cbn [step] in E.
  - destruct (add_ok q t Hr) as (q1 & id & E1 & _ & _ & Hh & Ho & _). rewrite E1 in E. cbn in E. injection E as <-.
    intros j tm Hj. rewrite Ho in Hj. rewrite Hh. destruct (Nat.eqb_spec id j) as [->|]; [ injection Hj as <-; left; reflexivity | right; auto ].
  - injection E as <-. destruct (cancel_spec q id Hr) as (_ & _ & Hh & Ho & _). intros j tm Hj. rewrite Ho in Hj. rewrite Hh.
    destruct (Nat.eqb id j); [ discriminate Hj | auto ].
  - destruct (expire_ok q k now now2 Hr Hk) as (q1 & E1 & _ & _ & Hd). rewrite E1 in E. injection E as <-.
    destruct Hd as [->|(t & id & h & Hpm & _ & _ & Hd)]; [ exact Hc | ].
    assert (Hin : forall j tm, j <> id -> owner q j = Some tm -> In (due tm, j) h).
    { intros j tm Hne Hj. apply Hc in Hj. apply (Permutation_in _ Hpm) in Hj. destruct Hj as [Hj|Hj]; [ congruence | exact Hj ]. }
    destruct (owner q id) as [tm|] eqn:Eo.
    + destruct Hd as [_ Hd]. destruct (once tm).
      * destruct Hd as (Hh & _ & Ho). intros j tm' Hj. rewrite Ho in Hj. rewrite Hh. destruct (Nat.eqb_spec id j); [ discriminate Hj | apply Hin; auto ].
      * cbn zeta in Hd. destruct Hd as (Hh & _ & Ho). intros j tm' Hj. rewrite Ho in Hj. rewrite Hh.
        destruct (Nat.eqb_spec id j) as [->|]; [ injection Hj as <-; left; reflexivity | right; apply Hin; auto ].
    + subst q1. intros j tm' Hj. cbn [heap]. change (owner q j = Some tm') in Hj. apply Hin; [ congruence | exact Hj ].
Qed.
Lemma covered_run os : forall q q', ranged q -> kind q -> (forall t, In t (added os) -> patient t) -> run q os = Ok q' -> covered q -> covered q'.
Proof.
  induction os as [|o os IH]; cbn [run]; intros q q' Hr Hk Hp E Hc; [ injection E as <-; exact Hc | ].
  rewrite added_cons in Hp. assert (Hp1 : match o with OAdd t => patient t | _ => True end) by (destruct o; auto; apply Hp; left; reflexivity).
  destruct (step_safe q o Hr Hk Hp1) as (q1 & E1 & Hr1 & Hk1). rewrite E1 in E. cbn in E.
  apply (IH q1); auto; [ intros; apply Hp; apply in_or_app; auto | exact (covered_step _ _ _ Hr Hk Hp1 E1 Hc) ].
Qed.
Lemma least_le h : forall d, least h d <= d /\ forall e, In e h -> least h d <= fst e.
Proof.
  induction h as [|a h IH]; intros d; [ cbn; split; [ lia | easy ] | ]. change (least (a :: h) d) with (Z.min (fst a) (least h d)). destruct (IH d) as [H1 H2]. split; [ lia | ].
  intros e [<-|He]; [ lia | specialize (H2 e He); lia ].
Qed.
Lemma least_in h : forall d, least h d = d \/ exists e, In e h /\ fst e = least h d.
Proof.
  induction h as [|a h IH]; intros d; [ auto | ]. change (least (a :: h) d) with (Z.min (fst a) (least h d)). destruct (Z.min_spec (fst a) (least h d)) as [[_ E]|[_ E]]; rewrite E.
  - right. exists a. cbn; auto.
  - destruct (IH d) as [H|(e & He & Hf)]; [ auto | right; exists e; cbn; auto ].
Qed.
Lemma wait_spec q now : (heap q = [] /\ next_wait q now = 1000) \/
  exists e, In e (heap q) /\ (forall e', In e' (heap q) -> fst e <= fst e') /\ next_wait q now = Z.max 0 (ms (fst e) - ms now).
Proof.
  unfold next_wait. destruct (heap q) as [|e h]; [ auto | right ].
  destruct (least_le h (fst e)) as [H1 H2]. destruct (least_in h (fst e)) as [E|(e' & He & E)].
  - exists e. rewrite E. split; [ left; reflexivity | ]. split; [ intros e' [<-|He']; [ lia | specialize (H2 e' He'); lia ] | ].
    destruct (Z.ltb_spec 0 (ms (fst e) - ms now)); lia.
  - exists e'. split; [ right; exact He | ]. split; [ intros e'' [<-|He'']; [ lia | specialize (H2 e'' He''); lia ] | ]. rewrite <- E.
    destruct (Z.ltb_spec 0 (ms (fst e') - ms now)); lia.
Qed.
Lemma wait_le q now id tm : covered q -> owner q id = Some tm -> next_wait q now <= Z.max 0 (ms (due tm) - ms now).
Proof.
  intros Hc Ho. apply Hc in Ho. destruct (wait_spec q now) as [[E _]|(e & He & Hl & ->)]; [ rewrite E in Ho; destruct Ho | ].
  specialize (Hl _ Ho). cbn in Hl. apply ms_mono in Hl. lia.
Qed.
