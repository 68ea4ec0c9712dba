(** Proofs about waiting for descriptors. *)
From Verif.Model Require Import Common IoWait.
From Verif.Spec Require Import WaitSpec.
From Verif.Proofs Require Import Tac.
Local Open Scope Z_scope.

Definition shape (m : Z) (s : io) : Prop :=
  monitor s = m /\ match at_ s with
    | Elsewhere => resumer s = false /\ armed s = false
    | Suspended => resumer s = true /\ res s = RNone
    | Runnable => resumer s = true /\ res s <> RNone end.
Lemma shape_create mon : shape (if mon =? 0 then 3 else mon) (create mon).
Proof. split; [ reflexivity | ]. cbn. auto. Qed.
Lemma shape_step m s o : shape m s -> (at_ s <> Elsewhere \/ match o with OFire _ => False | _ => True end) -> exists s', step s o = Ok s' /\ shape m s'.
Proof.
  intros [Hm Hs] Ha. destruct s as [mo r re ar w g]. cbn in *. destruct o; cbn.
  - destruct w; eexists; split; try reflexivity; split; cbn; auto.
  - destruct w; destruct Ha as [Ha|Ha]; try easy; destruct Hs as [-> Hr]; unfold HandleEvent, call_resumer, set_result; cbn.
    + subst r. destruct (Z.land mo ev =? 0); cbn; eexists; (split; [ reflexivity | ]); split; cbn; auto; split; auto; discriminate.
    + destruct r; try easy; cbn; eexists; (split; [ reflexivity | ]); split; cbn; auto.
  - destruct ar; [ | eexists; split; [ reflexivity | ]; split; cbn; auto ].
    destruct w; destruct Hs as [-> Hr]; try easy; unfold call_resumer, set_result; cbn.
    + subst r. cbn. eexists; (split; [ reflexivity | ]); split; cbn; auto; split; auto; discriminate.
    + destruct r; try easy; cbn; eexists; (split; [ reflexivity | ]); split; cbn; auto.
  - destruct w; try (eexists; split; [ reflexivity | ]; split; cbn; auto; fail).
    destruct Hs as [-> Hr]. destruct r; try easy; eexists; (split; [ reflexivity | ]); split; cbn; auto.
Qed.
Lemma shape_keep m s o s' : shape m s -> step s o = Ok s' -> shape m s'.
Proof.
  intros Hs E.
  assert (Hc : (at_ s <> Elsewhere \/ match o with OFire _ => False | _ => True end) \/ (at_ s = Elsewhere /\ exists ev, o = OFire ev)).
  { destruct (at_ s); [ destruct o; eauto | left; left; discriminate | left; left; discriminate ]. }
  destruct Hc as [Hc|[Ea [ev ->]]].
  - destruct (shape_step m s o Hs Hc) as (s2 & E2 & H2). rewrite E in E2. injection E2 as ->. exact H2.
  - destruct Hs as [_ Hs]. destruct s as [mo r re ar w g]. cbn in Ea. subst w. cbn in Hs. destruct Hs as [-> ->].
    cbn in E. unfold HandleEvent, call_resumer, set_result in E. cbn in E. destruct r; cbn in E; discriminate E.
Qed.
Lemma shape_run m os : forall s s', shape m s -> run s os = Ok s' -> shape m s'.
Proof.
  induction os as [|o os IH]; cbn; intros s s' Hs E; [ inv E; exact Hs | ].
  destruct (step s o) as [s1| |] eqn:E1; try discriminate E. exact (IH s1 s' (shape_keep m s o s1 Hs E1) E).
Qed.
(** While suspended or runnable. *)
Lemma wait_run m timed os : forall s, shape m s ->
  (match at_ s with Elsewhere => False | Suspended => armed s = timed | Runnable => forall a b, os = a ++ ORun :: b -> False end) ->
  (forall a b, os = a ++ ORun :: b -> verdict m timed a = None) ->
  exists s', run s os = Ok s' /\ shape m s' /\ got s' = got s /\
  match at_ s with
  | Runnable => at_ s' = Runnable /\ res s' = res s
  | _ => match verdict m timed os with None => at_ s' = Suspended | Some r => at_ s' = Runnable /\ res s' = r end
  end.
Proof.
  induction os as [|o os IH]; intros s Hs Ha Hq.
  - exists s. cbn. destruct (at_ s) eqn:Ea; [ easy | | ]; auto.
  - assert (Hq' : forall a b, os = a ++ ORun :: b -> verdict m timed (o :: a) = None) by (intros a b ->; exact (Hq (o :: a) b eq_refl)).
    destruct s as [mo r re ar w g]. destruct Hs as [Hm Hs]. cbn in Hm, Hs, Ha. subst mo.
    destruct w; [ easy | | ]; destruct Hs as [-> Hr].
    + subst r ar. destruct o.
      * cbn. destruct (IH (Io m RNone true timed Suspended g)) as (s' & E & H1 & H2 & H3); [ split; cbn; auto | reflexivity | | eauto ].
        intros a b Ho. exact (Hq' a b Ho).
      * cbn. unfold HandleEvent, call_resumer, set_result; cbn.
        set (v := if Z.land m ev =? 0 then RError else ROk).
        destruct (IH (Io m v true timed Runnable g)) as (s' & E & H1 & H2 & H3).
        { split; [ reflexivity | ]. cbn. split; [ reflexivity | ]. unfold v. destruct (_ =? _); discriminate. }
        { cbn. intros a b ->. specialize (Hq (OFire ev :: a) b eq_refl). cbn in Hq. discriminate Hq. }
        { intros a b ->. specialize (Hq (OFire ev :: a) b eq_refl). cbn in Hq. discriminate Hq. }
        exists s'. cbn in H3. repeat split; auto; apply H1 || apply H3 || idtac.
      * cbn. destruct timed; cbn.
        -- destruct (IH (Io m RTimeout true false Runnable g)) as (s' & E & H1 & H2 & H3).
           { split; [ reflexivity | ]. cbn. split; [ reflexivity | discriminate ]. }
           { cbn. intros a b ->. specialize (Hq (OExpire :: a) b eq_refl). cbn in Hq. discriminate Hq. }
           { intros a b ->. specialize (Hq (OExpire :: a) b eq_refl). cbn in Hq. discriminate Hq. }
           exists s'. cbn in H3. repeat split; auto; apply H1 || apply H3 || idtac.
        -- destruct (IH (Io m RNone true false Suspended g)) as (s' & E & H1 & H2 & H3); [ split; cbn; auto | reflexivity | | eauto ].
           intros a b Ho. exact (Hq' a b Ho).
      * cbn. destruct (IH (Io m RNone true timed Suspended g)) as (s' & E & H1 & H2 & H3); [ split; cbn; auto | reflexivity | | eauto ].
        intros a b Ho. exact (Hq' a b Ho).
    + assert (Hn : forall a b, os = a ++ ORun :: b -> False) by (intros a b ->; exact (Ha (o :: a) b eq_refl)).
      assert (Hs1 : exists ar', step (Io m r true ar Runnable g) o = Ok (Io m r true ar' Runnable g)).
      { destruct o; cbn.
        - eauto.
        - unfold HandleEvent, call_resumer, set_result; cbn. destruct r; try easy; cbn; eauto.
        - destruct ar; [ | eauto ]. unfold call_resumer, set_result; cbn. destruct r; try easy; cbn; eauto.
        - exfalso. exact (Ha [] os eq_refl). }
      destruct Hs1 as [ar' Es]. cbn [run]. rewrite Es. cbn [obind].
      destruct (IH (Io m r true ar' Runnable g)) as (s' & E & H1 & H2 & H3); [ split; cbn; auto | exact Hn | intros a b Ho; destruct (Hn a b Ho) | ].
      exists s'. cbn in *. auto.
Qed.
