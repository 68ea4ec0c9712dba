From Verif.Model Require Import Common HttpConn.
From Verif.Spec Require Import HttpConnSpec.
From Verif.Proofs Require Import Tac HttpConnProofs.
Open Scope nat_scope.

Lemma run_ub_split same os : forall c es, run same c es os = Some UB ->
  exists os1 o os2 c1 es1, os = os1 ++ o :: os2 /\ run same c es os1 = Some (Ok (c1, es1)) /\
    possible same c1 o = true /\ step same c1 o = UB.
Proof.
  induction os as [|o os IH]; intros c es R; cbn [run] in R; [discriminate|].
  destruct (possible same c o) eqn:E; [|discriminate].
  destruct (step same c o) as [[c1 e1]| |] eqn:E1; try discriminate.
  - destruct (IH _ _ R) as (os1 & o' & os2 & c2 & es2 & -> & R1 & P & S).
    exists (o :: os1), o', os2, c2, es2. split; [reflexivity|]. split; [cbn [run]; rewrite E, E1; exact R1|]. auto.
  - exists [], o, os, c, es. auto.
Qed.

Lemma aac_app a b : answer_after_close (a ++ b) = false -> answer_after_close a = false.
Proof.
  induction a as [|e a IH]; cbn [app answer_after_close]; auto. destruct e; auto. rewrite answers_app, app_length.
  intro H. b2p. apply negb_false_iff. apply Nat.eqb_eq. lia.
Qed.
Lemma aac_enc a id b r : answer_after_close (a ++ VEncoded id b :: r) = false -> closes a = 0.
Proof.
  induction a as [|e a IH]; cbn [app answer_after_close]; auto. destruct e; auto.
  rewrite answers_app, app_length. cbn. intro H. b2p. lia.
Qed.

(** References by tasks: number of TRemove around *)
Definition isr := is_remove.
Definition cr (l : list task) : nat := length (filter isr l).
Definition pr (p : phase) : nat := match p with PBatch ts d | PFlushTail ts d => cr ts + d | PRunner d => d | _ => 0 end.
Lemma cr_app a b : cr (a ++ b) = cr a + cr b.
Proof. unfold cr. now rewrite filter_app, app_length. Qed.
Definition rest (p : phase) : list task := match p with PBatch ts _ | PFlushTail ts _ => ts | _ => [] end.

Section S.
Variable same : bool.

(** before the first close the service is owned, registered unless..., and nothing removes it *)
Definition I3 (c : conn) (es : list ev) : Prop :=
  (closes es = 0 -> c_stored c = true /\ cr (c_nested c) = 0 /\ pr (c_phase c) = 0 /\ c_acc c = 0) /\
  (c_reg c = true -> closes es = 0).

Ltac stepcases H :=
  match type of H with step same ?c ?o = Ok (?c1, ?e1) =>
    destruct o; cbn [step] in H; unfold with_this in H;
    repeat match type of H with
    | context [if alive c then _ else UB] => let A := fresh "AL" in destruct (alive c) eqn:A; [|discriminate H]
    end
  end.
Ltac cs := repeat match goal with H : context [close_service _ _] |- _ => unfold close_service in H end.

Lemma I3_step c es o c1 e1 : I3 c es -> possible same c o = true -> step same c o = Ok (c1, e1) -> I3 c1 (es ++ e1).
Proof.
  intros [I J] Po S. unfold possible in Po. unfold I3. rewrite closes_app. stepcases S.
  - destruct (c_phase c) eqn:P; try discriminate.
    destruct (if w then handle_write c n err else (c, WNone)) as [c2 r2] eqn:E.
    assert (F : c_stored c2 = c_stored c /\ c_nested c2 = c_nested c /\ c_acc c2 = c_acc c /\ c_reg c2 = c_reg c).
    { destruct w; [|inv E; auto]. destruct (hw_spec _ _ _ _ _ E) as (?&?&?&?&?&?&?&?&?&?&?&?&?&?&?&?&?). auto. }
    destruct F as (F1 & F2 & F3 & F4).
    destruct r2; [|destruct (c_sched c2)|]; cs; inv S; fields; rewrite ?F1, ?F2, ?F3, ?F4; cbn [closes filter length pr];
      (split; [intro X; try (exfalso; lia); (let Y := fresh in assert (Y : closes es = 0) by lia; destruct (I Y) as (?&?&?&?)); auto|]);
      try (intro X; specialize (J X); lia); try discriminate.
  - destruct (c_phase c) eqn:P; try discriminate. inv S. fields. cbn [closes filter length pr] in *.
    split; [intro X; (let Y := fresh in assert (Y : closes es = 0) by lia; destruct (I Y) as (?&?&?&?)); auto | intro X; specialize (J X); lia].
  - inv S. fields. cbn [closes filter length pr] in *.
    split; [intro X; (let Y := fresh in assert (Y : closes es = 0) by lia; destruct (I Y) as (?&?&?&?)); auto | intro X; specialize (J X); lia].
  - destruct (c_phase c) eqn:P; try discriminate. cs. inv S. fields. cbn [closes filter length].
    split; [intro X; exfalso; lia|discriminate].
  - destruct (c_phase c) eqn:P; try discriminate;
    (match type of S with (if ?b then _ else _) = _ => destruct b end; cs; inv S; fields; cbn [closes filter length pr] in *;
     (split; [intro X; try (exfalso; lia); (let Y := fresh in assert (Y : closes es = 0) by lia; destruct (I Y) as (?&?&?&?)); auto|]);
      try (intro X; specialize (J X); lia); try discriminate).
  - destruct (guarded && answered c id); [inv S; cbn [closes filter length]; rewrite Nat.add_0_r; auto|].
    destruct (alive (mark_replied c id)); [|inv S; fields; cbn [closes filter length]; rewrite Nat.add_0_r; auto].
    injection S as S. apply respond_spec in S. destruct S as (?&?&?&?&?&?&?&S1&?&S2&?&?&S3&S4&S5&S6). fields. subst e1.
    rewrite S1, S2, S3, S5, S6. destruct (req_keep (mark_replied c id) id); cbn [closes filter length].
    + rewrite !Nat.add_0_r, andb_true_r. split; [|auto]. intro X. destruct (I X) as (A&B&C&D). repeat split; auto.
      destruct (c_flag c); rewrite ?app_nil_r, ?cr_app; auto. cbn. lia.
    + split; [intro X; exfalso; lia|]. rewrite andb_false_r. discriminate.
  - destruct (guarded && answered c id); [inv S; cbn [closes filter length]; rewrite Nat.add_0_r; auto|].
    destruct (alive (mark_replied c id)); inv S; fields; cbn [closes filter length]; rewrite Nat.add_0_r; auto.
  - destruct (c_cross c) as [|p q]; [inv S; cbn [closes filter length]; rewrite Nat.add_0_r; auto|].
    destruct (respond same c (p_id p) (p_bytes p) (p_keep p)) as [c2 e2] eqn:R. inv S. 
    apply respond_spec in R. destruct R as (?&?&?&?&?&?&?&S1&?&S2&?&?&S3&S4&S5&S6). fields. subst e1.
    rewrite S1, S2, S3, S5, S6. destruct (p_keep p); cbn [closes filter length].
    + rewrite !Nat.add_0_r, andb_true_r. split; [|auto]. intro X. destruct (I X) as (A&B&C&D). repeat split; auto.
      destruct (c_flag c); rewrite ?app_nil_r, ?cr_app; auto. cbn. lia.
    + split; [intro X; exfalso; lia|]. rewrite andb_false_r. discriminate.
  - inv S. fields. cbn [closes filter length pr]. rewrite !Nat.add_0_r. split; auto. intro X. destruct (I X) as (A&B&C&D). repeat split; auto.
  - destruct (c_phase c) as [| | | |[|[|] ts] d| |] eqn:P; try discriminate.
    + destruct (alive c); [|discriminate]. destruct (handle_write c n err) as [c2 r] eqn:E.
      apply hw_spec in E. destruct E as (?&F4&?&?&?&?&F1&?&F2&F3&?&?&?&?&?&?&?).
      destruct r; [|destruct (c_sched c2)|]; cs; inv S; fields; rewrite ?F1, ?F2, ?F3, ?F4; cbn [closes filter length pr] in *;
      (split; [intro X; try (exfalso; lia); (let Y := fresh in assert (Y : closes es = 0) by lia; destruct (I Y) as (?&?&?&?)); auto|]);
      try (intro X; specialize (J X); lia); try discriminate.
    + inv S. fields. cbn [closes filter length pr] in *. rewrite Nat.add_0_r. split; auto. intro X. destruct (I X) as (A&B&C&D).
      unfold cr in C. cbn [filter isr is_remove length] in C. lia.
  - destruct (c_phase c) eqn:P; try discriminate. inv S. fields. cbn [closes filter length pr] in *.
    rewrite Nat.add_0_r. split; auto.
  - destruct (c_phase c) eqn:P; try discriminate. destruct ts; [|discriminate]. inv S. fields. cbn [closes filter length pr] in *.
    rewrite Nat.add_0_r. split; auto.
  - destruct (c_phase c) eqn:P; try discriminate. inv S. fields. cbn [closes filter length pr] in *.
    rewrite Nat.add_0_r. split; auto. intro X. destruct (I X) as (A&B&C&D). repeat split; auto.
  - assert (Po' : negb same && (0 <? c_acc c) = true) by (destruct (c_phase c); exact Po). b2p.
    inv S. fields. cbn [closes filter length pr] in *. rewrite Nat.add_0_r. split; auto. intro X. destruct (I X) as (A&B&C&D). lia.
Qed.

Lemma I3_no_ub c es o : I3 c es -> closes es = 0 -> step same c o <> UB.
Proof.
  intros [I _] C. destruct (I C) as (A & _). assert (AL := alive_stored c A).
  destruct o; cbn [step]; unfold with_this; rewrite ?AL; cs;
    repeat match goal with
    | |- context [let '(_, _) := ?x in _] => destruct x
    | |- context [match ?x with _ => _ end] => destruct x
    end; congruence.
Qed.
End S.

(** One loop: flushes run before the removal, unless an answer comes after the close. *)
Fixpoint ordered (l : list task) : bool :=
  match l with
  | [] => true
  | TFlush :: r => ordered r
  | TRemove :: r => cf r =? 0
  end.
Lemma ordered_flush l : cr l = 0 -> ordered (l ++ [TFlush]) = true.
Proof. induction l as [|[|] l IH]; cbn; auto. discriminate. Qed.
Lemma ordered_remove l : ordered l = true -> ordered (l ++ [TRemove]) = true.
Proof. induction l as [|[|] l IH]; cbn [app ordered]; auto. rewrite cf_app. intro. b2p. apply Nat.eqb_eq. cbn. lia. Qed.
Lemma ordered_tail t l : ordered (t :: l) = true -> ordered l = true.
Proof. destruct t; cbn [ordered]; auto. intro H. b2p. revert H. induction l as [|[|] l IH]; cbn [ordered]; auto; unfold cf in *; cbn [filter isf length]; [discriminate|]. intro H. now apply Nat.eqb_eq. Qed.

Definition owned (p : phase) : bool :=
  match p with PRead _ _ | PParse _ | PTail _ | PFlushTail _ _ => true | _ => false end.
Definition I4 (c : conn) (es : list ev) : Prop :=
  c_acc c = 0 /\ ordered (rest (c_phase c) ++ c_nested c) = true /\
  (c_stored c = false -> cf (rest (c_phase c) ++ c_nested c) = 0) /\
  (owned (c_phase c) = true -> c_stored c = true).

Lemma close4 c c1 es e : close_service true c = (c1, e) -> I4 c es -> I4 c1 (es ++ e).
Proof.
  unfold close_service, I4. intro E. inv E. fields. intros (A & B & C & D). rewrite app_assoc. repeat split; auto.
  - now apply ordered_remove.
  - intro X. rewrite cf_app, (C X). reflexivity.
Qed.
Lemma respond4 c id b keep c1 e es : respond true c id b keep = (c1, e) -> answer_after_close (es ++ e) = false ->
  I3 c es -> I4 c es -> I4 c1 (es ++ e).
Proof.
  intros E AA (I & _) (A & B & C & D). apply respond_spec in E. destruct E as (?&?&?&?&?&?&?&S1&?&S2&?&?&S3&S4&S5&S6).
  subst e. apply aac_enc in AA. destruct (I AA) as (ST & R1 & R2 & _).
  unfold I4. rewrite S6, S5, S2, S1, A.
  assert (R : cr (rest (c_phase c) ++ c_nested c) = 0).
  { rewrite cr_app. destruct (c_phase c); cbn [rest pr] in *; auto; lia. }
  assert (O : ordered (rest (c_phase c) ++ c_nested c ++ (if c_flag c then [] else [TFlush])) = true).
  { destruct (c_flag c); rewrite ?app_nil_r; auto. rewrite app_assoc. now apply ordered_flush. }
  repeat split; auto.
  - destruct keep; auto.
  - destruct keep; [rewrite app_nil_r; auto|]. rewrite !app_assoc in *. now apply ordered_remove.
  - congruence.
Qed.
Lemma I4_eq c c1 es es1 : c_acc c1 = c_acc c -> c_phase c1 = c_phase c -> c_nested c1 = c_nested c -> c_stored c1 = c_stored c ->
  I4 c es -> I4 c1 es1.
Proof. unfold I4. intros -> -> -> ->. auto. Qed.

Lemma I4_step c es o c1 e1 : I3 c es -> I4 c es -> possible true c o = true -> step true c o = Ok (c1, e1) ->
  answer_after_close (es ++ e1) = false -> I4 c1 (es ++ e1).
Proof.
  intros I3c I Po S AA. unfold possible in Po.
  destruct o; cbn [step] in S; unfold with_this in S;
    repeat match type of S with context [if alive c then _ else UB] => destruct (alive c); [|discriminate S] end.
  - destruct (c_phase c) eqn:P; try discriminate.
    destruct I3c as [I3a I3b]. destruct (I3a (I3b Po)) as (ST & _).
    destruct (if w then handle_write c n err else (c, WNone)) as [c2 r2] eqn:E.
    assert (F : c_acc c2 = c_acc c /\ c_phase c2 = c_phase c /\ c_nested c2 = c_nested c /\ c_stored c2 = c_stored c).
    { destruct w; [|inv E; auto]. destruct (hw_spec _ _ _ _ _ E) as (?&?&?&?&?&?&?&?&?&?&?&?&?&?&?&?&?). auto. }
    destruct F as (F1 & F2 & F3 & F4).
    assert (G : forall r ok, I4 (set_phase c2 (PRead r ok)) es).
    { intros. destruct I as (A & B & C & D). rewrite P in *. unfold I4. fields. rewrite F1, F3, F4. cbn [rest owned] in *.
      repeat split; auto. }
    destruct r2; [|destruct (c_sched c2)|].
    + inv S. eapply I4_eq; [..|apply (G r true)]; reflexivity.
    + destruct (close_service true c2) as [c3 e3] eqn:CL. inv S.
      eapply (close4 (set_phase c2 (PRead r true))); eauto. unfold close_service in *. inv CL. reflexivity.
    + inv S. eapply I4_eq; [..|apply (G r true)]; reflexivity.
    + inv S. eapply I4_eq; [..|apply (G false false)]; reflexivity.
  - destruct (c_phase c) eqn:P; try discriminate. inv S. destruct I as (A & B & C & D). rewrite P in *. unfold I4. fields. cbn [rest owned] in *. auto.
  - destruct (c_phase c) eqn:P; try discriminate. inv S. eapply I4_eq; [..|exact I]; reflexivity.
  - destruct (c_phase c) eqn:P; try discriminate.
    destruct (send_spec c bad_request n err) as (_ & _ & _ & F & _ & _ & F1 & _ & F2 & F3 & F4 & _).
    cbn zeta in *.
    assert (G : I4 (set_phase (chan_send c bad_request n err) (PTail ok)) (es ++ [VBad])).
    { destruct I as (A & B & C & D). rewrite P in *. unfold I4. fields. rewrite F1, F2, F3. cbn [rest owned] in *. auto. }
    destruct (close_service true (chan_send c bad_request n err)) as [c3 e3] eqn:CL. inv S.
    change (VBad :: e3) with ([VBad] ++ e3). rewrite app_assoc.
    eapply (close4 (set_phase (chan_send c bad_request n err) (PTail ok))); eauto. unfold close_service in *. inv CL. reflexivity.
  - assert (G : I4 (set_phase c PIdle) es).
    { destruct I as (A & B & C & D). destruct (c_phase c) eqn:P; try discriminate; unfold I4; fields; cbn [rest owned] in *;
      repeat split; auto; discriminate. }
    destruct (c_phase c) eqn:P; try discriminate;
    (match type of S with (if ?b then _ else _) = _ => destruct b end;
     [inv S; eapply I4_eq; [..|exact G]; reflexivity|]; destruct (close_service true c) as [c3 e3] eqn:CL; inv S;
     eapply (close4 (set_phase c PIdle)); eauto; unfold close_service in *; inv CL; reflexivity).
  - destruct (guarded && answered c id); [inv S; eapply I4_eq; [..|exact I]; reflexivity|].
    destruct (alive (mark_replied c id)); [|inv S; eapply I4_eq; [..|exact I]; reflexivity].
    injection S as S. eapply respond4; eauto.
  - destruct (guarded && answered c id); [inv S; eapply I4_eq; [..|exact I]; reflexivity|].
    destruct (alive (mark_replied c id)); inv S; eapply I4_eq; [..|exact I| | | | |exact I]; reflexivity.
  - destruct (c_cross c) as [|p q]; [inv S; eapply I4_eq; [..|exact I]; reflexivity|].
    destruct (respond true c (p_id p) (p_bytes p) (p_keep p)) as [c2 e2] eqn:R. inv S.
    assert (G : I4 c2 (es ++ e1)) by (eapply respond4; eauto). eapply I4_eq; [..|exact G]; reflexivity.
  - destruct (c_phase c) eqn:P; try discriminate. inv S. destruct I as (A & B & C & D). rewrite P in *. unfold I4. fields. cbn [rest owned app] in *.
    rewrite app_nil_r. auto.
  - destruct (c_phase c) as [| | | |[|[|] ts] d| |] eqn:P; try discriminate.
    + destruct I as (A & B & C & D). rewrite P in *. cbn [rest owned app] in *.
      assert (ST : c_stored c = true).
      { destruct (c_stored c); auto. specialize (C eq_refl). unfold cf in C. cbn [filter isf length] in C. lia. }
      destruct (alive c); [|discriminate]. destruct (handle_write c n err) as [c2 r] eqn:E.
      apply hw_spec in E. destruct E as (?&F4&?&?&?&?&F1&?&F2&F3&?&?&?&?&?&?&?).
      assert (G : I4 (set_phase c2 (PFlushTail ts d)) es).
      { unfold I4. fields. rewrite F1, F2, F3. cbn [rest owned]. split; [auto|]. split; [apply (ordered_tail TFlush); auto|]. split; [congruence|auto]. }
      destruct r; [|destruct (c_sched c2)|]; try (inv S; eapply I4_eq; [..|exact G]; reflexivity).
      destruct (close_service true c2) as [c3 e3] eqn:CL. inv S.
      eapply (close4 (set_phase c2 (PFlushTail ts d))); eauto. unfold close_service in *. inv CL. reflexivity.
    + inv S. destruct I as (A & B & C & D). rewrite P in *. unfold I4. fields. cbn [rest owned app] in *.
      cbn [ordered] in B. b2p. repeat split; auto; try discriminate.
      apply (ordered_tail TRemove). cbn [ordered]. now apply Nat.eqb_eq.
  - destruct (c_phase c) eqn:P; try discriminate. inv S. destruct I as (A & B & C & D). rewrite P in *. unfold I4. fields. cbn [rest owned app] in *.
    repeat split; auto.
  - destruct (c_phase c) eqn:P; try discriminate. destruct ts; [|discriminate]. inv S. destruct I as (A & B & C & D). rewrite P in *. unfold I4. fields. cbn [rest owned app] in *.
    repeat split; auto.
  - destruct (c_phase c) eqn:P; try discriminate. inv S. destruct I as (A & B & C & D). rewrite P in *. unfold I4. fields. cbn [rest owned app] in *.
    repeat split; auto.
  - destruct (c_phase c); discriminate Po.
Qed.

Lemma I4_no_ub c es o : I3 c es -> I4 c es -> possible true c o = true -> step true c o <> UB.
Proof.
  intros [Ia Ib] (A & B & C & D) Po.
  assert (AL : c_stored c = true -> step true c o <> UB).
  { intro ST. apply alive_stored in ST.
    destruct o; cbn [step]; unfold with_this; rewrite ?ST; unfold close_service;
    repeat match goal with
    | |- context [let '(_, _) := ?x in _] => destruct x
    | |- context [match ?x with _ => _ end] => destruct x
    end; congruence. }
  unfold possible in Po. destruct o; try (destruct (c_phase c) eqn:P; try discriminate Po; apply AL; apply D; reflexivity).
  - apply AL. destruct (c_phase c); try discriminate. now apply Ia, Ib.
  - cbn [step]. destruct (_ && _); [congruence|]. destruct (alive _); congruence.
  - cbn [step]. destruct (_ && _); [congruence|]. destruct (alive _); congruence.
  - cbn [step]. destruct (c_cross c); [congruence|]. destruct (respond _ _ _ _ _). congruence.
  - cbn [step]. congruence.
  - destruct (c_phase c) as [| | | |[|[|] ts] d| |] eqn:P; try discriminate.
    + apply AL. destruct (c_stored c); auto. specialize (C eq_refl). unfold cf in C. cbn [rest app filter isf length] in C. lia.
    + cbn [step]. rewrite P. congruence.
  - cbn [step]. destruct (c_phase c); congruence.
  - cbn [step]. congruence.
Qed.
