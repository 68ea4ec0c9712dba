From Coq Require Import Sorted.
From Verif.Model Require Import Common HttpConn.
From Verif.Spec Require Import HttpConnSpec.
From Verif.Proofs Require Import Tac HttpConnProofs HttpConnProofs2 HttpConnProofs3.
Open Scope nat_scope.

Definition evphase (p : phase) : bool := match p with PRead _ _ | PParse _ | PTail _ => true | _ => false end.
Definition pp (p : phase) : bool := match p with PRead _ _ | PParse _ => true | _ => false end.

Section S.
Variable same : bool.
Ltac hw E := apply hw_spec in E; destruct E as (?HW1&?HW2&?HW3&?HW4&?HW5&?HW6&?HW7&?HW8&?HW9&?HW10&?HW11&?HW12&?HW13&?HW14&?HW15&?HW16&?HW17).
Ltac rs E := apply respond_spec in E; destruct E as (?RS1&?RS2&?RS3&?RS4&?RS5&?RS6&?RS7&?RS8&?RS9&?RS10&?RS11&?RS12&?RS13&?RS14&?RS15&?RS16).

Lemma step_phase c o c1 e1 : possible same c o = true -> step same c o = Ok (c1, e1) ->
  (evphase (c_phase c1) = true -> evphase (c_phase c) = true \/ c_reg c = true) /\
  (pp (c_phase c1) = true -> pp (c_phase c) = true \/ c_reg c = true) /\
  (In VBad e1 -> pp (c_phase c) = true /\ pp (c_phase c1) = false) /\
  (c_sched c = false -> In VClosed e1 ->
     (exists id b, In (VEncoded id b) e1) \/ In VBad e1 \/ (evphase (c_phase c) = true /\ evphase (c_phase c1) = false)) /\
  (forall id, In (VRequest id) e1 -> pp (c_phase c) = true).
Proof.
  intros Po S. unfold possible in Po.
  destruct o; cbn [step] in S; unfold with_this in S;
    repeat match type of S with context [if alive c then _ else UB] => destruct (alive c); [|discriminate S] end.
  - destruct (c_phase c) eqn:P; try discriminate.
    destruct (if w then handle_write c n err else (c, WNone)) as [c2 r2] eqn:E.
    assert (F : c_sched c2 = c_sched c).
    { destruct w; [hw E; auto 10|]. inv E. auto 10. }
    destruct r2; [|destruct (c_sched c2) eqn:SC; unfold close_service in S|]; inv S; fields; cbn [In];
      repeat split; auto; intros; try tauto; try (intuition congruence).
  - destruct (c_phase c) eqn:P; try discriminate. inv S. fields. cbn [In]. repeat split; auto; intros; tauto.
  - inv S. fields. cbn [In]. destruct (c_phase c) eqn:P; try discriminate. repeat split; auto; intros; intuition discriminate.
  - destruct (c_phase c) eqn:P; try discriminate. unfold close_service in S. inv S. fields. cbn [In].
    repeat split; auto; try discriminate; try (intros; intuition discriminate).
  - destruct (c_phase c) eqn:P; try discriminate;
    (match type of S with (if ?b then _ else _) = _ => destruct b end; unfold close_service in S; inv S; fields; cbn [In evphase pp];
     repeat split; auto; intros; try tauto; try (intuition discriminate)).
  - destruct (guarded && answered c id); [inv S; cbn [In]; repeat split; auto; intros; tauto|].
    destruct (alive (mark_replied c id)); [|inv S; fields; cbn [In]; repeat split; auto; intros; tauto].
    injection S as S. rs S. fields. subst e1. rewrite RS10.
    assert (NB : forall e, In e (if req_keep (mark_replied c id) id then [] else [VClosed]) -> e = VClosed).
    { destruct (req_keep _ id); cbn; intuition. }
    repeat split; auto.
    1-2: destruct H as [H|H]; [discriminate|apply NB in H; discriminate].
    + intros _ _. left. exists id, b. now left.
    + intros id' [H|H]; [discriminate|apply NB in H; discriminate].
  - destruct (guarded && answered c id); [inv S; cbn [In]; repeat split; auto; intros; tauto|].
    destruct (alive (mark_replied c id)); inv S; fields; cbn [In]; repeat split; auto; intros; tauto.
  - destruct (c_cross c) as [|[pi pb pk] q] eqn:X; [inv S; cbn [In]; repeat split; auto; intros; tauto|].
    destruct (respond same c pi pb pk) as [c2 e2] eqn:R. cbn [p_id p_bytes p_keep] in S. rewrite R in S. inv S. rs R. subst e1. fields.
    rewrite RS10.
    assert (NB : forall e, In e (if pk then [] else [VClosed]) -> e = VClosed) by (destruct pk; cbn; intuition).
    repeat split; auto.
    1-2: destruct H as [H|H]; [discriminate|apply NB in H; discriminate].
    + intros _ _. left. exists pi, pb. now left.
    + intros id' [H|H]; [discriminate|apply NB in H; discriminate].
  - inv S. fields. cbn [In evphase pp]. repeat split; auto; intros; try tauto; discriminate.
  - destruct (c_phase c) as [| | | |[|[|] ts] d| |] eqn:P; try discriminate.
    + destruct (alive c); [|discriminate]. destruct (handle_write c n err) as [c2 r] eqn:E. hw E.
      destruct r; [|destruct (c_sched c2) eqn:SC; unfold close_service in S|]; inv S; fields; cbn [In evphase pp];
      repeat split; auto; intros; try tauto; try (intuition congruence).
    + inv S. fields. cbn [In evphase pp]. repeat split; auto; intros; try tauto; discriminate.
  - destruct (c_phase c) eqn:P; try discriminate. inv S. fields. cbn [In evphase pp]. repeat split; auto; intros; try tauto; discriminate.
  - destruct (c_phase c) eqn:P; try discriminate. inv S. fields. cbn [In evphase pp]. repeat split; auto; intros; try tauto; discriminate.
  - inv S. fields. cbn [In evphase pp]. repeat split; auto; intros; try tauto; discriminate.
  - inv S. fields. cbn [In]. repeat split; auto; intros; tauto.
Qed.

(** I5: a scheduled close means bytes to send and a reported close, or two reports. *)
Definition I5 (c : conn) (es : list ev) : Prop :=
  (forall p, In p (c_cross c) -> p_bytes p <> []) /\
  (c_sched c = true -> (c_out c <> [] /\ 1 <= closes es) \/ 2 <= closes es).
Lemma I5_step c es o c1 e1 : I5 c es -> nonempty_op o = true -> possible same c o = true -> step same c o = Ok (c1, e1) ->
  I5 c1 (es ++ e1).
Proof.
  intros [A B] NE Po S. pose proof (step_kind _ _ _ _ _ Po S) as K.
  destruct (step_ops _ _ _ _ _ Po S) as (OA & OB & _). specialize (OA NE). specialize (OB NE).
  split; [intros p Hp; destruct (OA p Hp); auto|]. rewrite closes_app.
  inversion K; subst; cbn [closes filter length] in *.
  - rewrite H. intro SC. destruct (B SC) as [[X Y]|X]; [|right; lia]. left. split; [|lia]. intro O. destruct (H2 O); congruence.
  - fields. intro SC. destruct (B SC) as [[X Y]|X]; [left; split; auto; lia|right; lia].
  - rewrite H. intro SC. destruct (B SC) as [[X Y]|X]; right; lia.
  - rewrite H. intro SC. destruct (B SC) as [[X Y]|X]; right; lia.
  - assert (NB : b <> []).
    { destruct (OB id b (or_introl eq_refl)) as [|(p & Hp & <-)]; auto. }
    assert (O : c_out c1 <> []) by (rewrite H; intro E; apply app_eq_nil in E; tauto).
    rewrite H0. intro SC. destruct keep; cbn [closes filter length negb] in *.
    + rewrite orb_false_r in SC. destruct (B SC) as [[X Y]|X]; [left; split; auto; lia|right; lia].
    + left. split; auto. lia.
Qed.

(** I6: answering a request that asked for a close schedules one. *)
Definition I6 (c : conn) (es : list ev) : Prop :=
  (forall p, In p (c_cross c) -> p_keep p = req_keep c (p_id p) /\ p_id p < length (c_reqs c)) /\
  (forall id b, In (VEncoded id b) es -> id < length (c_reqs c) /\ (req_keep c id = false -> c_sched c = true)).
Lemma req_keep_add c k id : id < length (c_reqs c) -> req_keep (add_req c k) id = req_keep c id.
Proof. intro H. unfold req_keep. fields. now rewrite app_nth1. Qed.
Lemma I6_step c es o c1 e1 : I6 c es -> possible same c o = true -> step same c o = Ok (c1, e1) -> I6 c1 (es ++ e1).
Proof.
  intros [A B] Po S. pose proof (step_kind _ _ _ _ _ Po S) as K.
  inversion K; subst; unfold I6.
  - unfold req_keep in *. rewrite H0, H, app_nil_r. split; auto. intros p Hp. destruct (H3 p Hp) as [|(id & b & -> & L)]; auto.
  - assert (X : forall id, id < length (c_reqs c) -> req_keep (add_req c k) id = req_keep c id /\ id < length (c_reqs (add_req c k))).
    { intros id L. split; [now apply req_keep_add|]. fields. rewrite app_length. lia. }
    split.
    + intros p Hp. destruct (A p Hp) as [P L]. destruct (X _ L) as [-> ?]. auto.
    + intros id b Hb. apply in_app_or in Hb. destruct Hb as [Hb|[Hb|[]]]; [|discriminate].
      destruct (B id b Hb) as [L F]. destruct (X _ L) as [-> ?]. auto.
  - unfold req_keep in *. rewrite H0, H, H2. split; auto. intros id b Hb. apply in_app_or in Hb. destruct Hb as [Hb|[Hb|[]]]; [eauto|discriminate].
  - unfold req_keep in *. rewrite H0, H, H2. split; auto. intros id b Hb. apply in_app_or in Hb. destruct Hb as [Hb|[Hb|[Hb|[]]]]; [eauto|discriminate..].
  - assert (AK : keep = req_keep c id /\ id < length (c_reqs c)).
    { destruct H3 as [(?&?&?)|X]; auto. destruct (A (mkreply id b keep)) as [P L]; [rewrite X; now left|]. auto. }
    destruct AK as [AK AL].
    unfold req_keep in *. rewrite H1. split.
    + intros p Hp. apply A. destruct H3 as [(?&?&<-)|X]; auto. rewrite X. now right.
    + intros id' b' Hb. rewrite H0. apply in_app_or in Hb. destruct Hb as [Hb|[Hb|Hb]].
      * destruct (B id' b' Hb) as [L F]. split; auto. intro X. now rewrite (F X).
      * inv Hb. split; auto. intro X. rewrite X. now rewrite orb_true_r.
      * destruct keep; [destruct Hb|destruct Hb as [Hb|[]]; discriminate].
Qed.

(** I7: only keep-alive requests and no parse error: one close at most. *)
Definition I7 (c : conn) (es : list ev) : Prop :=
  (forall k, In k (c_reqs c) -> k = true) /\ c_sched c = false /\ closes es <= 1 /\
  (c_reg c = true -> closes es = 0) /\ (evphase (c_phase c) = true -> closes es = 0).
Lemma I7_step c es o c1 e1 : I6 c es -> I7 c es -> keep_op o = true -> bad_op o = false ->
  possible same c o = true -> step same c o = Ok (c1, e1) -> I7 c1 (es ++ e1).
Proof.
  intros [I6a _] (A & B & C & D & E) KE BA Po S. pose proof (step_kind _ _ _ _ _ Po S) as K.
  destruct (step_ops _ _ _ _ _ Po S) as (_ & _ & OC & OD). specialize (OC KE). specialize (OD BA).
  destruct (step_phase _ _ _ _ Po S) as (PA & _ & _ & PD & _). specialize (PD B).
  unfold I7. rewrite closes_app.
  assert (A' : forall k, In k (c_reqs c1) -> k = true) by (intros k Hk; destruct (OC k Hk); auto).
  assert (RK : forall id, req_keep c id = true).
  { intro id. unfold req_keep. destruct (nth_in_or_default id (c_reqs c) true) as [X|X]; auto. }
  assert (EP : evphase (c_phase c1) = true -> closes es = 0) by (intro X; destruct (PA X); auto).
  inversion K; subst; cbn [closes filter length] in *.
  - rewrite H, H1. repeat split; auto; try lia; intro X; [specialize (D X)|specialize (EP X)]; lia.
  - fields. repeat split; auto; try lia; intro X; [specialize (D X)|specialize (EP X)]; lia.
  - destruct PD as [(?&?&[X|[]])|[[X|[]]|[X Y]]]; try discriminate; [now left|].
    rewrite H, (E X). repeat split; auto; try lia; try congruence.
  - exfalso. apply OD. now left.
  - assert (keep = true).
    { destruct H3 as [(->&?&?)|X]; auto. destruct (I6a (mkreply id b keep)) as [P L]; [rewrite X; now left|]. cbn in P. rewrite P. auto. }
    subst keep. cbn [closes filter length negb]. rewrite H0, H2, orb_false_r, andb_true_r. repeat split; auto; try lia; intro X; [specialize (D X)|specialize (EP X)]; lia.
Qed.

(** I8: through String and Json a request is answered once. *)
Definition I8 (c : conn) (es : list ev) : Prop :=
  NoDup (answers es ++ map p_id (c_cross c)) /\ forall id, In id (answers es ++ map p_id (c_cross c)) -> In id (c_replied c).
Lemma answered_in c id : answered c id = false -> ~ In id (c_replied c).
Proof.
  unfold answered. intros H X. assert (existsb (Nat.eqb id) (c_replied c) = true); [|congruence].
  apply existsb_exists. exists id. split; auto. apply Nat.eqb_refl.
Qed.
Lemma I8_eq c c1 es e1 : c_cross c1 = c_cross c -> c_replied c1 = c_replied c -> answers e1 = [] -> I8 c es -> I8 c1 (es ++ e1).
Proof. unfold I8. intros -> -> E. rewrite answers_app, E, app_nil_r. auto. Qed.
Lemma I8_step c es o c1 e1 : I8 c es -> guarded_op o = true -> possible same c o = true -> step same c o = Ok (c1, e1) ->
  I8 c1 (es ++ e1).
Proof.
  intros I G Po S. unfold possible in Po.
  destruct o; cbn [step] in S; unfold with_this in S;
    repeat match type of S with context [if alive c then _ else UB] => destruct (alive c); [|discriminate S] end.
  - destruct (if w then handle_write c n err else (c, WNone)) as [c2 r2] eqn:E.
    assert (F : c_cross c2 = c_cross c /\ c_replied c2 = c_replied c).
    { destruct w; [hw E; auto 10|]. inv E. auto 10. }
    destruct F. destruct r2; [|destruct (c_sched c2) eqn:SC; unfold close_service in S|]; inv S; eapply I8_eq; eauto.
  - destruct (c_phase c); inv S; eapply I8_eq; eauto.
  - inv S. eapply I8_eq; eauto.
  - unfold close_service in S.
    destruct (send_spec c bad_request n err) as (_ & _ & G1 & F & G2 & G4 & F1 & G3 & F2 & F3 & F4 & _). cbn zeta in *.
    destruct (c_phase c); inv S; eapply I8_eq; eauto.
  - match type of S with (if ?b then _ else _) = _ => destruct b end; unfold close_service in S; inv S; eapply I8_eq; eauto.
  - cbn [guarded_op] in G. subst guarded. cbn [andb] in S. destruct (answered c id) eqn:AN; [inv S; eapply I8_eq; eauto|].
    apply answered_in in AN. destruct I as [I J].
    destruct (alive (mark_replied c id)).
    + injection S as S. rs S. fields. subst e1. unfold I8. rewrite RS9, RS7, answers_app.
      replace (answers (VEncoded id b :: _)) with [id] by (destruct (req_keep _ id); reflexivity).
      rewrite <- app_assoc. cbn [app]. split.
      * apply NoDup_Add with (a := id) (l := answers es ++ map p_id (c_cross c)); [apply Add_app|]. split; auto.
      * intros x Hx. apply in_app_or in Hx. destruct Hx as [Hx|[->|Hx]]; [right|now left|right]; apply J; apply in_or_app; auto.
    + inv S. unfold I8. fields. rewrite answers_app. cbn [answers map concat]. rewrite app_nil_r. split; auto. intros x Hx. right. auto.
  - cbn [guarded_op] in G. subst guarded. cbn [andb] in S. destruct (answered c id) eqn:AN; [inv S; eapply I8_eq; eauto|].
    apply answered_in in AN. destruct I as [I J].
    destruct (alive (mark_replied c id)); inv S; unfold I8; fields; rewrite answers_app; cbn [answers map concat]; rewrite app_nil_r.
    + rewrite map_app. cbn [map p_id]. rewrite app_assoc. split.
      * apply NoDup_Add with (a := id) (l := answers es ++ map p_id (c_cross c)); [rewrite <- (app_nil_r (answers es ++ _)) at 1; apply Add_app|]. split; auto.
      * intros x Hx. apply in_app_or in Hx. destruct Hx as [Hx|[->|[]]]; [right; auto|now left].
    + split; auto. intros x Hx. right. auto.
  - destruct (c_cross c) as [|[pi pb pk] q] eqn:X; [inv S; eapply I8_eq; eauto|].
    destruct (respond same c pi pb pk) as [c2 e2] eqn:R. cbn [p_id p_bytes p_keep] in S. rewrite R in S. inv S. rs R. subst e1.
    unfold I8 in *. fields. rewrite X in I. cbn [map p_id] in I. rewrite RS7, answers_app.
    replace (answers (VEncoded pi pb :: _)) with [pi] by (destruct pk; reflexivity). rewrite <- app_assoc. exact I.
  - inv S. eapply I8_eq; eauto.
  - destruct (c_phase c) as [| | | |[|[|] ts] d| |] eqn:P; try discriminate.
    + destruct (alive c); [|discriminate]. destruct (handle_write c n err) as [c2 r] eqn:E. hw E.
      destruct r; [|destruct (c_sched c2) eqn:SC; unfold close_service in S|]; inv S; eapply I8_eq; eauto.
    + inv S. eapply I8_eq; eauto.
  - destruct (c_phase c); inv S; eapply I8_eq; eauto.
  - destruct (c_phase c); inv S; eapply I8_eq; eauto.
  - inv S. eapply I8_eq; eauto.
  - inv S. eapply I8_eq; eauto.
Qed.

(** I9: nothing is delivered after a parse error. *)
Definition I9 (c : conn) (es : list ev) : Prop :=
  (In VBad es -> c_reg c = false /\ pp (c_phase c) = false /\ 1 <= closes es) /\ requests_after_bad es = [].
Lemma rab_app a b : requests_after_bad (a ++ b) = requests_after_bad a ++ (if existsb (fun e => match e with VBad => true | _ => false end) a then requests b else requests_after_bad b).
Proof. induction a as [|e a IH]; cbn [app requests_after_bad existsb]; auto. destruct e; auto. cbn [orb]. apply requests_app. Qed.
Lemma rab_none e : ~ In VBad e -> requests_after_bad e = [].
Proof. induction e as [|x e IH]; cbn; auto. intro H. destruct x; auto. exfalso. auto. Qed.
Lemma I9_step c es o c1 e1 : I9 c es -> possible same c o = true -> step same c o = Ok (c1, e1) -> I9 c1 (es ++ e1).
Proof.
  intros [A B] Po S. pose proof (step_kind _ _ _ _ _ Po S) as K.
  destruct (step_phase _ _ _ _ Po S) as (_ & PB & PC & _ & PE).
  unfold I9. rewrite rab_app, B, closes_app. cbn [app].
  assert (BD : existsb (fun e => match e with VBad => true | _ => false end) es = true -> In VBad es).
  { intro X. apply existsb_exists in X. destruct X as ([] & ? & ?); try discriminate; auto. }
  assert (RQ : existsb (fun e => match e with VBad => true | _ => false end) es = true -> requests e1 = []).
  { intro X. destruct (A (BD X)) as (_ & Y & _). destruct (requests e1) eqn:R; auto. exfalso.
    assert (exists i, In (VRequest i) e1) as [i Hi].
    { clear -R. induction e1 as [|e e1 IH]; cbn in R; [discriminate|]. destruct e; try (destruct IH as [i ?]; [exact R|]; exists i; now right).
      eexists; left; reflexivity. }
    apply PE in Hi. congruence. }
  split.
  - intro H. apply in_app_or in H. destruct H as [H|H].
    + destruct (A H) as (X & Y & Z). split; [|split; [|lia]].
      * inversion K; subst; fields; auto; try congruence. rewrite H3, X. reflexivity.
      * destruct (pp (c_phase c1)) eqn:Q; auto. destruct (PB eq_refl); congruence.
    + destruct (PC H) as [_ Y]. split; [|split; auto].
      * inversion K; subst; auto; try contradiction; try (destruct H as [H|[]]; discriminate). destruct H as [H|H]; [discriminate|].
        destruct keep; [destruct H|destruct H as [H|[]]; discriminate].
      * inversion K; subst; cbn [closes filter length]; try lia; try contradiction; try (destruct H as [H|[]]; discriminate).
        destruct H as [H|H]; [discriminate|]. destruct keep; [destruct H|destruct H as [H|[]]; discriminate].
  - destruct (existsb _ es) eqn:X; [auto|]. inversion K; subst; auto. destruct keep; reflexivity.
Qed.

(** requests are numbered in order *)
Lemma reqs_step c es o c1 e1 : requests es = seq 0 (length (c_reqs c)) -> possible same c o = true -> step same c o = Ok (c1, e1) ->
  requests (es ++ e1) = seq 0 (length (c_reqs c1)).
Proof.
  intros I Po S. pose proof (step_kind _ _ _ _ _ Po S) as K. rewrite requests_app, I.
  inversion K; subst; fields; cbn [requests map concat app]; rewrite ?app_nil_r, ?H0; auto.
  - rewrite app_length, seq_app. reflexivity.
  - rewrite H1. destruct keep; cbn; now rewrite app_nil_r.
Qed.
End S.

(** answers given at once are in request order *)
Lemma at_once_sorted es n : requests es = seq 0 n -> answered_at_once es -> Sorted le (answers es) /\ Forall (fun id => id < n) (answers es).
Proof.
  revert n. induction es as [|e es IH] using rev_ind; intros n R A.
  { cbn. auto. }
  assert (A' : answered_at_once es).
  { intros e1 id b e2 ->. apply (A e1 id b (e2 ++ [e])). rewrite <- app_assoc. reflexivity. }
  rewrite requests_app in R. rewrite answers_app.
  destruct e as [i|i b| |]; cbn [requests map concat app answers] in *.
  - assert (exists m, n = S m) as [m ->].
    { destruct n; [|eauto]. apply app_eq_nil in R. destruct R; discriminate. }
    rewrite seq_S in R. cbn [Nat.add] in R. apply app_inj_tail in R. destruct R as [R ->].
    destruct (IH m R A') as [X Y]. rewrite app_nil_r. split; auto. eapply Forall_impl; [|exact Y]. cbn. lia.
  - rewrite app_nil_r in R. destruct (IH n R A') as [X Y].
    destruct (A es i b [] eq_refl) as [bf Hb].
    assert (S n = S (length (bf ++ [i]))).
    { f_equal. rewrite <- Hb, R. now rewrite seq_length. }
    assert (i = n - 1 /\ 0 < n) as [-> ?].
    { rewrite app_length in H. cbn in H. split; [|lia]. rewrite R in Hb. destruct n as [|m]; [lia|].
      rewrite seq_S in Hb. cbn [Nat.add] in Hb. apply app_inj_tail in Hb. destruct Hb. lia. }
    split.
    + clear -X Y. induction (answers es) as [|x l IHl]; cbn; [repeat constructor|]. inv X. inv Y. constructor; auto.
      destruct l; cbn; constructor; [lia|]. inv H2. auto.
    + apply Forall_app. split; auto. constructor; auto. lia.
  - rewrite app_nil_r in *. auto.
  - rewrite app_nil_r in *. auto.
Qed.
