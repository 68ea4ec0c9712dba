From Verif.Model Require Import Common HttpConn.
From Verif.Spec Require Import HttpConnSpec.
From Verif.Proofs Require Import Tac.
Open Scope nat_scope.

Section P.
Variable same : bool.

Lemma run_inv (P : conn -> list ev -> Prop) (G : op -> Prop) :
  (forall c es o c1 e1, P c es -> G o -> possible same c o = true -> step same c o = Ok (c1, e1) -> P c1 (es ++ e1)) ->
  forall os c es c' es', P c es -> Forall G os -> run same c es os = Some (Ok (c', es')) -> P c' es'.
Proof.
  intros S os. induction os as [|o os IH]; intros c es c' es' I F R; cbn [run] in R; [inv R; auto|].
  inv F. destruct (possible same c o) eqn:E; [|discriminate].
  destruct (step same c o) as [[c1 e1]| |] eqn:E1; try discriminate. eapply IH; [eapply S; [exact I|eassumption|exact E|exact E1]|eassumption|exact R].
Qed.
Lemma run_ub (P : conn -> list ev -> Prop) (G : op -> Prop) :
  (forall c es o c1 e1, P c es -> G o -> possible same c o = true -> step same c o = Ok (c1, e1) -> P c1 (es ++ e1)) ->
  (forall c es o, P c es -> G o -> possible same c o = true -> step same c o <> UB) ->
  forall os c es, P c es -> Forall G os -> run same c es os <> Some UB.
Proof.
  intros S U os. induction os as [|o os IH]; intros c es I F R; cbn [run] in R; [inv R; auto|].
  inv F. destruct (possible same c o) eqn:E; [|discriminate].
  destruct (step same c o) as [[c1 e1]| |] eqn:E1; try discriminate; [eapply IH; [eapply S; [exact I|eassumption|exact E|exact E1]|eassumption|exact R]|eapply U; eauto].
Qed.
Lemma run_app os1 os2 : forall c es, run same c es (os1 ++ os2) =
  match run same c es os1 with Some (Ok (c1, e1)) => run same c1 e1 os2 | r => r end.
Proof.
  induction os1 as [|o os IH]; intros c es; cbn [run app]; auto.
  destruct (possible same c o); auto. destruct (step same c o) as [[c1 e1]| |]; auto.
Qed.
End P.

Lemma stream_app a b : stream (a ++ b) = stream a ++ stream b.
Proof. unfold stream. now rewrite map_app, concat_app. Qed.
Lemma answers_app a b : answers (a ++ b) = answers a ++ answers b.
Proof. unfold answers. now rewrite map_app, concat_app. Qed.
Lemma requests_app a b : requests (a ++ b) = requests a ++ requests b.
Proof. unfold requests. now rewrite map_app, concat_app. Qed.
Lemma closes_app a b : closes (a ++ b) = closes a + closes b.
Proof. unfold closes. now rewrite filter_app, app_length. Qed.

Lemma hw_spec c n err c1 r : handle_write c n err = (c1, r) ->
  c_wire c1 ++ c_out c1 = c_wire c ++ c_out c /\
  c_reg c1 = c_reg c /\ c_sched c1 = c_sched c /\ c_flag c1 = c_flag c /\ c_reqs c1 = c_reqs c /\
  c_replied c1 = c_replied c /\ c_stored c1 = c_stored c /\ c_cross c1 = c_cross c /\ c_nested c1 = c_nested c /\
  c_acc c1 = c_acc c /\ c_phase c1 = c_phase c /\
  (c_fail c1 = false -> c_fail c = false) /\
  (r = WDone -> c_out c1 = []) /\ (r <> WDone -> c_out c1 = [] -> c_out c = []) /\
  (c_out c1 <> [] -> c_fail c1 = true \/ c_blk c1 = true) /\
  (c_out c1 <> [] -> c_blk c1 = true -> c_wr c1 = true) /\
  (c_out c = [] -> c1 = c).
Proof.
  unfold handle_write. destruct (c_out c) as [|z l] eqn:O.
  { intros E. inv E. rewrite O. repeat (split; auto); congruence. }
  pose proof (firstn_skipn n (z :: l)) as FS.
  destruct (skipn n (z :: l)) as [|y r'] eqn:SK; intros E.
  - inv E. cbn. rewrite !app_nil_r in *. rewrite FS. repeat (split; auto); try congruence.
  - destruct err; inv E; cbn [set_chan c_out c_wire c_reg c_sched c_flag c_reqs c_replied c_stored c_cross c_nested c_acc c_phase c_fail c_blk c_wr];
      rewrite <- app_assoc, FS; repeat (split; auto); congruence.
Qed.

Ltac fields := cbn [set_phase set_cross set_nested set_removed set_flag set_sched add_req mark_replied set_chan append_out
  c_out c_wire c_reg c_wr c_sched c_flag c_reqs c_replied c_stored c_cross c_nested c_acc c_phase c_blk c_fail fst snd] in *.

Lemma send_spec c b n err : 
  let c1 := chan_send c b n err in
  (c_fail c1 = false -> c_wire c1 ++ c_out c1 = c_wire c ++ c_out c ++ b /\ c_fail c = false) /\
  c_reg c1 = c_reg c /\ c_sched c1 = c_sched c /\ c_flag c1 = c_flag c /\ c_reqs c1 = c_reqs c /\
  c_replied c1 = c_replied c /\ c_stored c1 = c_stored c /\ c_cross c1 = c_cross c /\ c_nested c1 = c_nested c /\
  c_acc c1 = c_acc c /\ c_phase c1 = c_phase c /\
  (c_out c1 <> [] -> c_fail c1 = true \/ c_blk c1 = true) /\
  (c_out c1 <> [] -> c_blk c1 = true -> c_wr c1 = true).
Proof.
  cbn zeta. unfold chan_send. destruct (c_out c) as [|z l] eqn:O.
  - pose proof (firstn_skipn n b) as FS.
    destruct (skipn n b) as [|y r'] eqn:SK.
    + fields. rewrite !app_nil_r in *. rewrite FS. repeat (split; auto); congruence.
    + destruct err; fields.
      * repeat (split; auto); congruence.
      * rewrite <- app_assoc, FS. repeat (split; auto); congruence.
  - destruct (handle_write (append_out c b) n err) as [c1 r] eqn:E.
    destruct (hw_spec _ _ _ _ _ E) as (A & B & C & D & F & H & I & J & K & L & M & N & Q & Q' & R & S & T). fields.
    rewrite A, <- ?app_assoc, O. repeat (split; auto).
Qed.

(** Facts about the two building blocks. *)
Section B.
Variable same : bool.
Definition pend_flush (c : conn) : Prop :=
  In TFlush (c_nested c) \/ match c_phase c with PBatch ts _ | PFlushTail ts _ => In TFlush ts | _ => False end.

Lemma respond_spec c id b keep c1 es : respond same c id b keep = (c1, es) ->
  c_out c1 = c_out c ++ b /\ c_wire c1 = c_wire c /\ c_wr c1 = c_wr c /\ c_blk c1 = false /\ c_fail c1 = c_fail c /\
  c_reqs c1 = c_reqs c /\ c_replied c1 = c_replied c /\ c_stored c1 = c_stored c /\ c_cross c1 = c_cross c /\
  c_phase c1 = c_phase c /\ c_flag c1 = true /\
  c_sched c1 = c_sched c || negb keep /\ c_reg c1 = c_reg c && keep /\
  es = VEncoded id b :: (if keep then [] else [VClosed]) /\
  c_nested c1 = c_nested c ++ (if c_flag c then [] else [TFlush]) ++ (if keep then [] else if same then [TRemove] else []) /\
  c_acc c1 = c_acc c + (if keep then 0 else if same then 0 else 1).
Proof.
  unfold respond, send_response, close_service. intro E.
  destruct keep; fields; destruct (c_flag c) eqn:F; fields; inv E; fields; rewrite ?orb_false_r, ?andb_true_r, ?orb_true_r, ?andb_false_r, ?app_nil_r;
    repeat (split; [auto; fail|]); destruct same; rewrite <- ?app_assoc; cbn [app]; rewrite ?app_nil_r; repeat (split; auto); try lia.
Qed.

Lemma alive_stored c : c_stored c = true -> alive c = true.
Proof. intro E. unfold alive. now rewrite E. Qed.

(** Splits a step into its cases; [hw_spec] and [respond_spec] are left for use. *)
Ltac stepcases H :=
  match type of H with step same ?c ?o = Ok (?c1, ?e1) =>
    destruct o; cbn [step] in H; unfold with_this in H;
    repeat match type of H with
    | context [if alive c then _ else UB] => let A := fresh "AL" in destruct (alive c) eqn:A; [|discriminate H]
    end
  end.

Definition I1 (c : conn) (es : list ev) : Prop := c_fail c = false -> c_wire c ++ c_out c = stream es.

Ltac usehw :=
  repeat match goal with
  | H : handle_write _ _ _ = (_, _) |- _ =>
      let A := fresh "HW" in pose proof (hw_spec _ _ _ _ _ H) as A;
      destruct A as (?&?&?&?&?&?&?&?&?&?&?&?&?&?&?&?&?); clear H
  | H : respond _ _ _ _ _ = (_, _) |- _ =>
      let A := fresh "RS" in pose proof (respond_spec _ _ _ _ _ _ H) as A;
      destruct A as (?&?&?&?&?&?&?&?&?&?&?&?&?&?&?&?); clear H
  end.

Lemma I1_step c es o c1 e1 : I1 c es -> possible same c o = true -> step same c o = Ok (c1, e1) -> I1 c1 (es ++ e1).
Proof.
  intros I Po S. unfold I1 in *. rewrite stream_app.
  stepcases S.
  - destruct (if w then handle_write c n err else (c, WNone)) as [c2 r2] eqn:E.
    assert (HW : c_wire c2 ++ c_out c2 = c_wire c ++ c_out c /\ (c_fail c2 = false -> c_fail c = false)).
    { destruct w; [usehw; auto|]. inv E. auto. }
    destruct HW as [HW1 HW2].
    destruct r2; [|destruct (c_sched c2)|]; unfold close_service in S; inv S; fields; intro F; cbn [stream map concat]; rewrite app_nil_r, HW1; auto.
  - destruct (c_phase c); inv S; fields; intro F; cbn; rewrite app_nil_r; auto.
  - inv S. fields. intro F. cbn. rewrite app_nil_r. auto.
  - unfold close_service in S.
    pose proof (send_spec c bad_request n err) as SP. cbn zeta in SP. destruct SP as (SP & _).
    assert (G : forall c2, c_fail c2 = c_fail (chan_send c bad_request n err) -> c_wire c2 = c_wire (chan_send c bad_request n err) ->
       c_out c2 = c_out (chan_send c bad_request n err) -> c_fail c2 = false -> c_wire c2 ++ c_out c2 = stream es ++ stream [VBad; VClosed]).
    { intros c2 F W O F2. rewrite W, O. rewrite F in F2. destruct (SP F2) as [A B]. rewrite A, app_assoc, (I B). reflexivity. }
    destruct (c_phase c); inv S; apply G; reflexivity.
  - match type of S with (if ?b then _ else _) = _ => destruct b end; unfold close_service in S; inv S; fields; intro F; cbn; rewrite app_nil_r; auto.
  - destruct (guarded && answered c id); [inv S; intro; cbn; rewrite app_nil_r; auto|].
    destruct (alive (mark_replied c id)); [|inv S; fields; cbn; rewrite app_nil_r; auto].
    injection S as S. usehw. fields. intro F. subst e1. rewrite H, H0, app_assoc, I by congruence.
    f_equal. destruct (req_keep (mark_replied c id) id); cbn; now rewrite ?app_nil_r.
  - destruct (guarded && answered c id); [inv S; intro; cbn; rewrite app_nil_r; auto|].
    destruct (alive (mark_replied c id)); inv S; fields; cbn; rewrite app_nil_r; auto.
  - destruct (c_cross c) as [|p q]; [inv S; intro; cbn; rewrite app_nil_r; auto|].
    destruct (respond same c (p_id p) (p_bytes p) (p_keep p)) as [c2 e2] eqn:R. inv S. usehw. fields. intro F. subst e1.
    rewrite H, H0, app_assoc, I by congruence.
    f_equal. destruct (p_keep p); cbn; now rewrite ?app_nil_r.
  - inv S. fields. cbn. rewrite app_nil_r. auto.
  - destruct (c_phase c) as [| | | |[|[|] ts] d| |]; try (inv S; fields; cbn; rewrite app_nil_r; auto; fail).
    destruct (alive c); [|discriminate]. destruct (handle_write c n err) as [c2 r] eqn:E. usehw.
    destruct r; [|destruct (c_sched c2)|]; unfold close_service in S; inv S; fields; intro; cbn; rewrite app_nil_r; rewrite H; auto.
  - destruct (c_phase c); inv S; fields; cbn; rewrite app_nil_r; auto.
  - destruct (c_phase c); inv S; fields; cbn; rewrite app_nil_r; auto.
  - inv S. fields. cbn. rewrite app_nil_r. auto.
  - inv S. fields. cbn. rewrite app_nil_r. auto.
Qed.
(** Without a 400 even a failed write loses nothing that is not still buffered. *)
Definition I1b (c : conn) (es : list ev) : Prop := ~ In VBad es -> c_wire c ++ c_out c = stream es.
Lemma I1b_step c es o c1 e1 : I1b c es -> possible same c o = true -> step same c o = Ok (c1, e1) -> I1b c1 (es ++ e1).
Proof.
  intros I Po S NB. assert (NB1 : ~ In VBad es) by (intro X; apply NB, in_or_app; auto).
  specialize (I NB1). assert (NB2 : ~ In VBad e1) by (intro X; apply NB, in_or_app; auto). clear NB NB1.
  rewrite stream_app, <- I. clear I.
  stepcases S.
  - destruct (if w then handle_write c n err else (c, WNone)) as [c2 r2] eqn:E.
    assert (HW : c_wire c2 ++ c_out c2 = c_wire c ++ c_out c) by (destruct w; [usehw; auto|]; now inv E).
    destruct r2; [|destruct (c_sched c2)|]; unfold close_service in S; inv S; fields; cbn [stream map concat]; rewrite app_nil_r, HW; auto.
  - destruct (c_phase c); inv S; fields; cbn; rewrite app_nil_r; auto.
  - inv S. fields. cbn. rewrite app_nil_r. auto.
  - exfalso. apply NB2. unfold close_service in S. destruct (c_phase c); inv S; now left.
  - match type of S with (if ?b then _ else _) = _ => destruct b end; unfold close_service in S; inv S; fields; cbn; rewrite app_nil_r; auto.
  - destruct (guarded && answered c id); [inv S; cbn; rewrite app_nil_r; auto|].
    destruct (alive (mark_replied c id)); [|inv S; fields; cbn; rewrite app_nil_r; auto].
    injection S as S. usehw. fields. subst e1. rewrite H, H0, app_assoc.
    f_equal. destruct (req_keep (mark_replied c id) id); cbn; now rewrite ?app_nil_r.
  - destruct (guarded && answered c id); [inv S; cbn; rewrite app_nil_r; auto|].
    destruct (alive (mark_replied c id)); inv S; fields; cbn; rewrite app_nil_r; auto.
  - destruct (c_cross c) as [|p q]; [inv S; cbn; rewrite app_nil_r; auto|].
    destruct (respond same c (p_id p) (p_bytes p) (p_keep p)) as [c2 e2] eqn:R. inv S. usehw. fields. subst e1.
    rewrite H, H0, app_assoc.
    f_equal. destruct (p_keep p); cbn; now rewrite ?app_nil_r.
  - inv S. fields. cbn. rewrite app_nil_r. auto.
  - destruct (c_phase c) as [| | | |[|[|] ts] d| |]; try (inv S; fields; cbn; rewrite app_nil_r; auto; fail).
    destruct (alive c); [|discriminate]. destruct (handle_write c n err) as [c2 r] eqn:E. usehw.
    destruct r; [|destruct (c_sched c2)|]; unfold close_service in S; inv S; fields; cbn; rewrite app_nil_r; rewrite H; auto.
  - destruct (c_phase c); inv S; fields; cbn; rewrite app_nil_r; auto.
  - destruct (c_phase c); inv S; fields; cbn; rewrite app_nil_r; auto.
  - inv S. fields. cbn. rewrite app_nil_r. auto.
  - inv S. fields. cbn. rewrite app_nil_r. auto.
Qed.


(** I2: at most one flush is pending, exactly when the flag says so; unwritten bytes wait for it, for the socket, or met
    an error. *)
Definition isf (t : task) : bool := match t with TFlush => true | _ => false end.
Definition cf (l : list task) : nat := length (filter isf l).
Definition pf (p : phase) : nat := match p with PBatch ts _ | PFlushTail ts _ => cf ts | _ => 0 end.
Definition tl (p : phase) : nat := match p with PFlushTail _ _ => 1 | _ => 0 end.
Definition I2 (c : conn) : Prop :=
  cf (c_nested c) + pf (c_phase c) + tl (c_phase c) = Nat.b2n (c_flag c) /\
  (c_out c <> [] -> c_fail c = true \/ c_blk c = true \/ 0 < cf (c_nested c) + pf (c_phase c)) /\
  (c_out c <> [] -> c_blk c = true -> c_wr c = true).
Lemma cf_app a b : cf (a ++ b) = cf a + cf b.
Proof. unfold cf. now rewrite filter_app, app_length. Qed.
Lemma I2_close c c1 es : close_service same c = (c1, es) -> I2 c -> I2 c1.
Proof.
  unfold close_service, I2. intro E. inv E. fields. intros (A & B & C). split; [|split; auto].
  - destruct same; rewrite ?cf_app; cbn [cf filter isf length]; lia.
  - intro O. destruct (B O) as [X|[X|X]]; auto. do 2 right. destruct same; rewrite ?cf_app; cbn [cf filter isf length]; lia.
Qed.
Lemma I2_respond c id b keep c1 es : respond same c id b keep = (c1, es) -> tl (c_phase c) = 0 -> I2 c -> I2 c1.
Proof.
  intros E T (A & B & C). usehw. unfold I2.
  assert (X : cf (c_nested c1) = if c_flag c then cf (c_nested c) else S (cf (c_nested c))).
  { rewrite H13. destruct (c_flag c), keep, same; rewrite ?cf_app; cbn [cf filter isf length app]; lia. }
  rewrite X, H8, H9. cbn [Nat.b2n]. split; [|split].
  - destruct (c_flag c); cbn [Nat.b2n] in A; lia.
  - intros _. do 2 right. destruct (c_flag c); cbn [Nat.b2n] in A; lia.
  - intros _. congruence.
Qed.
Lemma I2_ext c c1 : c_nested c1 = c_nested c -> c_phase c1 = c_phase c -> c_flag c1 = c_flag c -> c_out c1 = c_out c ->
  c_fail c1 = c_fail c -> c_blk c1 = c_blk c -> c_wr c1 = c_wr c -> I2 c -> I2 c1.
Proof. unfold I2. intros -> -> -> -> -> -> ->. auto. Qed.
Lemma I2_phase c p : pf p = pf (c_phase c) -> tl p = tl (c_phase c) -> I2 c -> I2 (set_phase c p).
Proof. unfold I2. fields. intros -> ->. auto. Qed.
Lemma I2_hw c n err c1 r : handle_write c n err = (c1, r) -> I2 c -> I2 c1.
Proof.
  intros E (A & B & C). usehw. unfold I2. rewrite H7, H9, H2. split; [auto|split; auto]. intro O. destruct (H13 O); auto.
Qed.

Lemma I2_step c o c1 e1 : I2 c -> possible same c o = true -> step same c o = Ok (c1, e1) -> I2 c1.
Proof.
  intros I Po S. unfold possible in Po. stepcases S.
  - destruct (c_phase c) eqn:P; try discriminate.
    destruct (if w then handle_write c n err else (c, WNone)) as [c2 r2] eqn:E.
    assert (I' : I2 c2 /\ c_phase c2 = PIdle).
    { destruct w; [|inv E; auto]. split; [eapply I2_hw; eauto|]. usehw. congruence. }
    destruct I' as [I' P'].
    destruct r2; [|destruct (c_sched c2); [destruct (close_service same c2) as [c3 e3] eqn:CL|]|]; inv S; apply I2_phase; rewrite ?P'; auto.
    + unfold close_service in CL. inv CL. fields. now rewrite P'.
    + unfold close_service in CL. inv CL. fields. now rewrite P'.
    + eapply I2_close; eauto.
  - destruct (c_phase c) eqn:P; try discriminate. inv S. apply I2_phase; rewrite ?P; auto.
  - inv S. eapply I2_ext; [..|exact I]; reflexivity.
  - destruct (c_phase c) eqn:P; try discriminate.
    destruct (close_service same (chan_send c bad_request n err)) as [c2 e2] eqn:CL. inv S.
    destruct (send_spec c bad_request n err) as (_ & _ & _ & F & _ & _ & _ & _ & N & _ & PH & O1 & O2).
    apply I2_phase.
    + unfold close_service in CL. inv CL. fields. rewrite PH, P. auto.
    + unfold close_service in CL. inv CL. fields. rewrite PH, P. auto.
    + eapply I2_close; eauto. destruct I as (A & B & C). unfold I2. rewrite F, N, PH. split; [auto|split; auto].
      intro O. destruct (O1 O); auto.
  - destruct (c_phase c) eqn:P; try discriminate;
    (match type of S with (if ?b then _ else _) = _ => destruct b end;
      [inv S; apply I2_phase; rewrite ?P; auto|
       destruct (close_service same c) as [c2 e2] eqn:CL; inv S; apply I2_phase; [| |eapply I2_close; eauto];
       unfold close_service in CL; inv CL; fields; rewrite P; auto]).
  - destruct (guarded && answered c id); [inv S; auto|].
    assert (I' : I2 (mark_replied c id)) by (eapply I2_ext; [..|exact I]; reflexivity).
    destruct (alive (mark_replied c id)); [|inv S; auto].
    injection S as S. eapply I2_respond; eauto. fields. revert Po. destruct (c_phase c); intro Po; auto; discriminate Po.
  - destruct (guarded && answered c id); [inv S; auto|].
    destruct (alive (mark_replied c id)); inv S; (eapply I2_ext; [..|exact I]; reflexivity).
  - destruct (c_cross c) as [|p q]; [inv S; auto|].
    destruct (respond same c (p_id p) (p_bytes p) (p_keep p)) as [c2 e2] eqn:R. inv S.
    apply (I2_ext c2); try reflexivity. eapply I2_respond; eauto. revert Po. destruct (c_phase c); intro Po; auto; discriminate Po.
  - destruct (c_phase c) eqn:P; try discriminate. inv S. destruct I as (A & B & C). rewrite P in *. unfold I2. fields. cbn [pf tl] in *.
    change (cf []) with 0. split; [lia|]. split; auto. intro O. destruct (B O) as [|[|]]; auto. do 2 right. lia.
  - destruct (c_phase c) as [| | | |[|[|] ts] d| |] eqn:P; try discriminate.
    + destruct (alive c); [|discriminate]. destruct (handle_write c n err) as [c2 r] eqn:E.
      assert (I3 : I2 (set_phase c2 (PFlushTail ts d))).
      { destruct I as (A & B & C). usehw. unfold I2. fields. rewrite P in *. rewrite H7, H2. cbn [pf tl] in *.
        unfold cf in *. cbn [filter isf length] in A. split; [lia|]. split; auto. intro O. destruct (H13 O); auto. }
      assert (P2 : c_phase c2 = PBatch (TFlush :: ts) d) by (usehw; congruence).
      destruct r; [|destruct (c_sched c2)|]; unfold close_service in S; inv S; auto.
      eapply (I2_close (set_phase c2 (PFlushTail ts d))); [|exact I3]. unfold close_service. fields. reflexivity.
    + inv S. destruct I as (A & B & C). rewrite P in *. unfold I2. fields. cbn [pf tl] in *.
      unfold cf in *. cbn [filter isf length] in *. auto.
  - destruct (c_phase c) eqn:P; try discriminate. inv S. destruct I as (A & B & C). rewrite P in *. unfold I2. fields. cbn [pf tl] in *.
    split; [|split; auto]. destruct (c_flag c); cbn [Nat.b2n] in *; lia.
  - destruct (c_phase c) eqn:P; try discriminate. destruct ts; [|discriminate]. inv S. apply I2_phase; rewrite ?P; auto.
  - destruct (c_phase c) eqn:P; try discriminate. inv S. apply I2_phase; rewrite ?P; auto.
  - inv S. eapply I2_ext; [..|exact I]; reflexivity.
Qed.
Lemma I2_init : I2 (conn0 false).
Proof. repeat split; cbn; congruence. Qed.
End B.
