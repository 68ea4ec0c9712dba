From Coq Require Import Sorted.
From Verif.Model Require Import Common HttpConn.
From Verif.Spec Require Import HttpConnSpec.
From Verif.Proofs Require Import Tac HttpConnProofs HttpConnProofs2.
Open Scope nat_scope.

Section S.
Variable same : bool.
Ltac hw E := apply hw_spec in E; destruct E as (?HW1&?HW2&?HW3&?HW4&?HW5&?HW6&?HW7&?HW8&?HW9&?HW10&?HW11&?HW12&?HW13&?HW14&?HW15&?HW16&?HW17).
Ltac rs E := apply respond_spec in E; destruct E as (?RS1&?RS2&?RS3&?RS4&?RS5&?RS6&?RS7&?RS8&?RS9&?RS10&?RS11&?RS12&?RS13&?RS14&?RS15&?RS16).

(** How a step changes what the close count depends on: a summary with one case per kind of event. *)
Inductive kind (c c1 : conn) : list ev -> Prop :=
| KNone : c_sched c1 = c_sched c -> c_reqs c1 = c_reqs c ->
    (c_reg c1 = c_reg c) -> (c_out c1 = [] -> c_out c = [] \/ c_sched c = false) ->
    (forall p, In p (c_cross c1) -> In p (c_cross c) \/ exists id b, p = mkreply id b (req_keep c id) /\ id < length (c_reqs c)) ->
    kind c c1 []
| KReq k : c1 = add_req c k -> kind c c1 [VRequest (length (c_reqs c))]
| KClose : c_sched c1 = c_sched c -> c_reqs c1 = c_reqs c -> c_reg c1 = false -> c_cross c1 = c_cross c ->
    kind c c1 [VClosed]
| KBad : c_sched c1 = c_sched c -> c_reqs c1 = c_reqs c -> c_reg c1 = false -> c_cross c1 = c_cross c ->
    kind c c1 [VBad; VClosed]
| KAns id b keep : c_out c1 = c_out c ++ b -> c_sched c1 = c_sched c || negb keep -> c_reqs c1 = c_reqs c ->
    c_reg c1 = c_reg c && keep ->
    ((keep = req_keep c id /\ id < length (c_reqs c) /\ c_cross c1 = c_cross c) \/ c_cross c = mkreply id b keep :: c_cross c1) ->
    kind c c1 (VEncoded id b :: if keep then [] else [VClosed]).

Lemma step_kind c o c1 e1 : possible same c o = true -> step same c o = Ok (c1, e1) -> kind c c1 e1.
Proof.
  intros Po S. unfold possible in Po.
  destruct o; cbn [step] in S; unfold with_this in S;
    repeat match type of S with context [if alive c then _ else UB] => destruct (alive c); [|discriminate S] end.
  - destruct (if w then handle_write c n err else (c, WNone)) as [c2 r2] eqn:E.
    assert (F : c_sched c2 = c_sched c /\ c_reqs c2 = c_reqs c /\ c_reg c2 = c_reg c /\ c_cross c2 = c_cross c /\
       (r2 <> WDone -> c_out c2 = [] -> c_out c = [])).
    { destruct w; [hw E; auto 10|]. inv E. auto 10. }
    destruct F as (F1 & F2 & F3 & F4 & F5).
    destruct r2; [|destruct (c_sched c2) eqn:SC; unfold close_service in S|]; inv S; constructor; fields; auto; try congruence;
      rewrite ?F4; auto; intro O; left; apply F5; auto; congruence.
  - destruct (c_phase c) eqn:P; try discriminate. inv S. constructor; fields; auto.
  - inv S. econstructor. reflexivity.
  - destruct (c_phase c) eqn:P; try discriminate. unfold close_service in S.
    destruct (send_spec c bad_request n err) as (_ & _ & G1 & F & G2 & _ & F1 & G3 & F2 & F3 & F4 & _). cbn zeta in *.
    inv S. constructor; fields; auto.
  - destruct (c_phase c) eqn:P; try discriminate;
    (match type of S with (if ?b then _ else _) = _ => destruct b end; unfold close_service in S; inv S; constructor; fields; auto).
  - assert (LT : id < length (c_reqs c)) by (destruct (c_phase c); try discriminate Po; b2p; auto).
    destruct (guarded && answered c id); [inv S; constructor; auto|].
    destruct (alive (mark_replied c id)); [|inv S; constructor; fields; auto].
    injection S as S. rs S. fields. subst e1. apply KAns; auto.
  - assert (LT : id < length (c_reqs c)) by (destruct (c_phase c); try discriminate Po; b2p; auto).
    destruct (guarded && answered c id); [inv S; constructor; auto|].
    destruct (alive (mark_replied c id)); inv S; constructor; fields; auto.
    intros p Hp. apply in_app_or in Hp. destruct Hp as [|[<-|[]]]; auto. right. exists id, b. split; auto.
  - destruct (c_cross c) as [|[pi pb pk] q] eqn:X; [inv S; constructor; auto|].
    destruct (respond same c pi pb pk) as [c2 e2] eqn:R. cbn [p_id p_bytes p_keep] in S. rewrite R in S. inv S. rs R. subst e1. apply KAns; fields; auto.
  - inv S. constructor; fields; auto.
  - destruct (c_phase c) as [| | | |[|[|] ts] d| |] eqn:P; try discriminate.
    + destruct (alive c); [|discriminate]. destruct (handle_write c n err) as [c2 r] eqn:E. hw E.
      destruct r; [|destruct (c_sched c2) eqn:SC; unfold close_service in S|]; inv S; constructor; fields; auto; try congruence;
      try (rewrite HW8; auto; fail); intro O; first [right; congruence | left; apply HW14; congruence].
    + inv S. constructor; fields; auto.
  - destruct (c_phase c) eqn:P; try discriminate. inv S. constructor; fields; auto.
  - destruct (c_phase c) eqn:P; try discriminate. inv S. constructor; fields; auto.
  - inv S. constructor; fields; auto.
  - inv S. constructor; fields; auto.
Qed.

Lemma step_ops c o c1 e1 : possible same c o = true -> step same c o = Ok (c1, e1) ->
  (nonempty_op o = true -> forall p, In p (c_cross c1) -> In p (c_cross c) \/ p_bytes p <> []) /\
  (nonempty_op o = true -> forall id b, In (VEncoded id b) e1 -> b <> [] \/ exists p, In p (c_cross c) /\ p_bytes p = b) /\
  (keep_op o = true -> forall k, In k (c_reqs c1) -> In k (c_reqs c) \/ k = true) /\
  (bad_op o = false -> ~ In VBad e1).
Proof.
  intros Po S. unfold possible in Po.
  destruct o; cbn [step] in S; unfold with_this in S;
    repeat match type of S with context [if alive c then _ else UB] => destruct (alive c); [|discriminate S] end;
    cbn [nonempty_op keep_op bad_op].
  - destruct (if w then handle_write c n err else (c, WNone)) as [c2 r2] eqn:E.
    assert (F : c_reqs c2 = c_reqs c /\ c_cross c2 = c_cross c).
    { destruct w; [hw E; auto 10|]. inv E. auto 10. }
    destruct F as (F2 & F4).
    destruct r2; [|destruct (c_sched c2) eqn:SC; unfold close_service in S|]; inv S; fields; rewrite ?F2, ?F4; cbn [In];
      repeat split; auto; try (intros; tauto); try (intros; intuition discriminate).
  - destruct (c_phase c) eqn:P; try discriminate. inv S. fields. cbn [In]. repeat split; auto; intros; tauto.
  - inv S. fields. cbn [In]. repeat split; auto; try (intros; intuition discriminate).
    intros -> k Hk. apply in_app_or in Hk. destruct Hk as [|[<-|[]]]; auto.
  - destruct (c_phase c) eqn:P; try discriminate. unfold close_service in S.
    destruct (send_spec c bad_request n err) as (_ & _ & G1 & F & G2 & _ & F1 & G3 & F2 & F3 & F4 & _). cbn zeta in *.
    inv S. fields. rewrite G2, G3. cbn [In]. repeat split; auto; try discriminate; try (intros; intuition discriminate).
  - destruct (c_phase c) eqn:P; try discriminate;
    (match type of S with (if ?b then _ else _) = _ => destruct b end; unfold close_service in S; inv S; fields; cbn [In];
     repeat split; auto; try (intros; tauto); try (intros; intuition discriminate)).
  - destruct (guarded && answered c id); [inv S; cbn [In]; repeat split; auto; intros; tauto|].
    destruct (alive (mark_replied c id)); [|inv S; fields; cbn [In]; repeat split; auto; intros; tauto].
    injection S as S. rs S. fields. subst e1. rewrite RS9, RS6. repeat split; auto.
    + intros NE id' b' Hb. b2p. left. destruct Hb as [E|Hb]; [inv E|destruct (req_keep _ id); [destruct Hb|destruct Hb as [E|[]]; discriminate]].
      intros ->. cbn in NE. congruence.
    + intros _ [E|Hb]; [discriminate|]. destruct (req_keep _ id); [destruct Hb|destruct Hb as [E|[]]; discriminate].
  - destruct (guarded && answered c id); [inv S; cbn [In]; repeat split; auto; intros; tauto|].
    destruct (alive (mark_replied c id)); inv S; fields; cbn [In]; repeat split; auto; try (intros; tauto).
    intros NE p Hp. apply in_app_or in Hp. destruct Hp as [|[<-|[]]]; auto. right. cbn. b2p. intros ->. cbn in NE. congruence.
  - destruct (c_cross c) as [|[pi pb pk] q] eqn:X; [inv S; cbn [In]; repeat split; auto; rewrite ?X; intros; tauto|].
    destruct (respond same c pi pb pk) as [c2 e2] eqn:R. cbn [p_id p_bytes p_keep] in S. rewrite R in S. inv S. rs R. subst e1. fields.
    rewrite RS6. repeat split; auto.
    + intros _ p Hp. left. now right.
    + intros _ id' b' Hb. right. exists (mkreply pi pb pk). split; [now left|]. cbn.
      destruct Hb as [E|Hb]; [now inv E|destruct pk; [destruct Hb|destruct Hb as [E|[]]; discriminate]].
    + intros _ [E|Hb]; [discriminate|]. destruct pk; [destruct Hb|destruct Hb as [E|[]]; discriminate].
  - inv S. fields. cbn [In]. repeat split; auto; intros; tauto.
  - destruct (c_phase c) as [| | | |[|[|] ts] d| |] eqn:P; try discriminate.
    + destruct (alive c); [|discriminate]. destruct (handle_write c n err) as [c2 r] eqn:E. hw E.
      destruct r; [|destruct (c_sched c2) eqn:SC; unfold close_service in S|]; inv S; fields; rewrite ?HW5, ?HW8; cbn [In];
       repeat split; auto; try (intros; tauto); try (intros; intuition discriminate).
    + inv S. fields. cbn [In]. repeat split; auto; intros; tauto.
  - destruct (c_phase c) eqn:P; try discriminate. inv S. fields. cbn [In]. repeat split; auto; intros; tauto.
  - destruct (c_phase c) eqn:P; try discriminate. inv S. fields. cbn [In]. repeat split; auto; intros; tauto.
  - inv S. fields. cbn [In]. repeat split; auto; intros; tauto.
  - inv S. fields. cbn [In]. repeat split; auto; intros; tauto.
Qed.
End S.
