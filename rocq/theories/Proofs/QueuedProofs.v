(** Proofs about the queued client channel. *)
From Coq Require Import ZArith List Bool Lia.
From Verif.Model Require Import Common ClientChan.
From Verif.Spec Require Import ClientSpec.
From Verif.Proofs Require Import Tac ClientProofs.
Import ListNotations.

Section Q.
Variable ok : nat -> bool.
Variable H : nat -> bool.

(** [hb] is the heartbeat among [rs], if any *)
Definition hb_ok (hb : option nat) (rs : list nat) : Prop :=
  NoDup rs /\ (forall x, In x rs -> H x = oeqb hb x) /\ (forall x, hb = Some x -> In x rs).

Record qi (c : qchan) : Prop := {
  qi_del : q_del c = true;
  qi_hb : hb_ok (q_hb c) (q_pending c);
  qi_busy : q_ing c = None -> q_wait c = [];
  qi_tm : forall r, q_ing c = Some r -> In r (q_timers c)
}.

Lemma qi_fresh : qi q_fresh.
Proof. constructor; cbn; try reflexivity; try discriminate. split; [constructor|]. split; [intros x []|discriminate]. Qed.

Lemma hr_q hb r rs res hb' e : hb_ok hb (r :: rs) -> handle_response hb true r res = (hb', e) ->
  hb_ok hb' rs /\ completions [e] = users H [(r, res)] /\ ev_req e = r.
Proof.
  intros (N & A & B) E. unfold handle_response in E. pose proof (A r (or_introl eq_refl)) as AR. inv N.
  unfold users. cbn [filter fst]. rewrite AR.
  destruct (oeqb hb r) eqn:O; inv E; cbn; split; auto; (split; [auto|split]).
  - intros x I. rewrite A by (right; auto). cbn. apply oeqb_true in O. subst hb. cbn.
    destruct (Nat.eqb_spec r x); congruence.
  - discriminate.
  - intros x I. apply A. right; auto.
  - intros x ->. destruct (B x eq_refl); auto. subst. apply oeqb_false in O. congruence.
Qed.

Lemma users_app a b : users H (a ++ b) = users H a ++ users H b.
Proof. apply filter_app. Qed.
Lemma users_cons a b : users H (a :: b) = users H [a] ++ users H b.
Proof. apply (users_app [a] b). Qed.

Lemma fail_all_q rs : forall hb rest hb' es, hb_ok hb (rs ++ rest) -> fail_all hb true rs = (hb', es) ->
  hb_ok hb' rest /\ completions es = users H (all_broken rs).
Proof.
  induction rs as [|r rs IH]; intros hb rest hb' es K E; cbn [fail_all app] in *.
  - inv E. auto.
  - destruct (handle_response hb true r RBroken) as [h1 e] eqn:E1.
    destruct (fail_all h1 true rs) as [h2 es2] eqn:E2. inv E.
    destruct (hr_q _ _ _ _ _ _ K E1) as (K1 & C1 & _).
    destruct (IH _ _ _ _ K1 E2) as (K2 & C2). split; auto.
    change (e :: es2) with ([e] ++ es2). rewrite completions_app, C1, C2.
    symmetry. apply (users_cons _ (all_broken _)).
Qed.

Lemma try_loop_q (w : list nat) : forall hb, hb_ok hb w ->
  exists w' ing hb' es, try_loop ok true w hb true = Ok (w', ing, hb', es) /\
    hb_ok hb' (opt_list ing ++ w') /\ (ing = None -> w' = []) /\
    completions es = users H (all_broken (refused ok w)) /\ w = refused ok w ++ opt_list ing ++ w' /\
    (forall r, ing = Some r -> ok r = true).
Proof.
  induction w as [|r w IH]; intros hb K; cbn [try_loop refused negb].
  - exists [], None, hb, []. split; [reflexivity|]. split; [exact K|]. repeat (split; auto). discriminate.
  - destruct (ok r) eqn:OK.
    + exists w, (Some r), hb, []. split; [reflexivity|]. split; [exact K|]. split; [discriminate|].
      repeat (split; auto). congruence.
    + destruct (handle_response hb true r RBroken) as [h1 e] eqn:E1.
      destruct (hr_q _ _ _ _ _ _ K E1) as (K1 & C1 & _).
      destruct (IH _ K1) as (w' & ing & hb' & es & E & K2 & NB & C2 & SP & OI).
      exists w', ing, hb', (e :: es). rewrite E. cbn [obind]. split; [reflexivity|].
      split; [exact K2|]. split; [exact NB|]. split; [|split; [now rewrite SP at 1|auto]].
      change (e :: es) with ([e] ++ es). rewrite completions_app, C1, C2. symmetry. apply (users_cons _ (all_broken _)).
Qed.

Lemma try_next_q c : q_del c = true -> q_ing c = None -> hb_ok (q_hb c) (q_wait c) ->
  exists c' es, try_send_next ok true c = Ok (c', es) /\ qi c' /\
    completions es = users H (all_broken (refused ok (q_wait c))) /\
    q_wait c = refused ok (q_wait c) ++ q_pending c'.
Proof.
  intros D I K. unfold try_send_next. rewrite I, D.
  destruct (try_loop_q _ _ K) as (w' & ing & hb' & es & E & K2 & NB & C2 & SP & OI).
  rewrite E. cbn [obind]. eexists _, _. split; [reflexivity|]. split; [|split; [exact C2|exact SP]].
  constructor; cbn; auto. intros r ->. apply in_or_app. right. left. auto.
Qed.

Lemma hb_ok_snoc hb rs r : hb_ok hb rs -> ~ In r rs -> H r = oeqb hb r -> hb <> Some r -> hb_ok hb (rs ++ [r]).
Proof.
  intros (N & A & B) NI HR NH. split; [apply nodup_snoc; auto|]. split.
  - intros x I. apply in_app_or in I as [I|[<-|[]]]; auto.
  - intros x E. apply in_or_app. left. auto.
Qed.

Definition op_users (o : qop) := match o with QSend r => [r] | _ => [] end.
Definition op_qreq (o : qop) := match o with QSend r | QHeartbeat r => [r] | _ => [] end.

Lemma users_broken_fst rs : map fst (users H (all_broken rs)) = filter (fun r => negb (H r)) rs.
Proof. unfold users, all_broken. induction rs; cbn; auto. destruct (negb (H a)); cbn; congruence. Qed.

(** what every operation but QClose does *)
Definition qeffect (c : qchan) (o : qop) (done : list (nat * cresult)) (pend : list nat) : Prop :=
  match o with
  | QSend r =>
      match q_pending c with
      | [] => done = (if ok r then [] else users H [(r, RBroken)]) /\ pend = (if ok r then [r] else [])
      | _ => done = [] /\ pend = q_pending c ++ [r]
      end
  | QHeartbeat r =>
      match q_hb c with
      | Some _ => done = [] /\ pend = q_pending c
      | None => done = [] /\
          match q_pending c with
          | [] => pend = (if ok r then [r] else [])
          | _ => pend = q_pending c ++ [r]
          end
      end
  | QResponse m =>
      match q_pending c with
      | [] => done = [] /\ pend = []
      | r :: rest => done = users H ((r, RResp m) :: all_broken (refused ok rest)) /\
                     rest = refused ok rest ++ pend
      end
  | QTimeout r _ =>
      match q_pending c with
      | x :: rest => if (Nat.eqb x r) && existsb (Nat.eqb r) (q_timers c)
                     then done = users H ((r, RTimeout) :: all_broken rest) /\ pend = []
                     else done = [] /\ pend = q_pending c
      | [] => done = [] /\ pend = []
      end
  | QCodecClosed | QClose => done = users H (all_broken (q_pending c)) /\ pend = []
  end.

Lemma q_send_eff c r : qi c -> ~ In r (q_pending c) ->
  forall hb, hb_ok hb (q_pending c ++ [r]) ->
  exists c' es, q_send ok true {| q_wait := q_wait c; q_ing := q_ing c; q_del := q_del c; q_hb := hb; q_timers := q_timers c |} r = Ok (c', es) /\
    qi c' /\
      match q_pending c with
      | [] => completions es = (if ok r then [] else users H [(r, RBroken)]) /\ q_pending c' = (if ok r then [r] else [])
      | _ => completions es = [] /\ q_pending c' = q_pending c ++ [r]
      end.
Proof.
  intros Q NI hb K. pose proof Q as [QD QH QB QT]. unfold q_send. cbn [q_wait q_ing q_del q_hb q_timers].
  destruct (q_ing c) as [x|] eqn:EI.
  - unfold try_send_next. cbn [q_ing]. eexists _, _. split; [reflexivity|].
    unfold q_pending in *. rewrite EI in *. cbn [opt_list app q_ing q_wait] in *. split; [|split; [reflexivity|]].
    + constructor; cbn; auto. discriminate.
    + reflexivity.
  - rewrite (QB eq_refl) in *. cbn [app].
    unfold q_pending in K. rewrite EI, (QB eq_refl) in K. cbn in K.
    destruct (try_next_q {| q_wait := [r]; q_ing := None; q_del := q_del c; q_hb := hb; q_timers := q_timers c |}) as (c' & es & E & Q' & C & SP); auto.
    exists c', es. split; [exact E|]. split; [auto|].
    unfold q_pending at 1. rewrite EI, (QB eq_refl). cbn [opt_list app].
    cbn in C, SP. destruct (ok r); cbn in C, SP; split; auto.
    destruct (q_pending c'); auto. discriminate.
Qed.

Lemma qstep_ok c o : qi c -> o <> QClose ->
  (forall r, In r (op_qreq o) -> ~ In r (q_pending c)) ->
  (forall r, o = QSend r -> H r = false) -> (forall r, o = QHeartbeat r -> H r = true) ->
  exists c' es, qstep ok true c o = Ok (c', es) /\ qi c' /\
    qeffect c o (completions es) (q_pending c').
Proof.
  intros Q NC NR HS HH. pose proof Q as [QD QH QB QT].
  destruct o as [r|r|r al|m| |]; cbn [qstep op_qreq] in *; try congruence.
  - assert (NI : ~ In r (q_pending c)) by (apply NR; cbn; auto).
    assert (HR := HS r eq_refl).
    assert (NH : q_hb c <> Some r).
    { intro E. destruct QH as (_ & _ & B). apply B in E. auto. }
    assert (K : hb_ok (q_hb c) (q_pending c ++ [r])).
    { apply hb_ok_snoc; auto. rewrite HR. symmetry. now apply oeqb_false. }
    destruct (q_send_eff c r Q NI (q_hb c) K) as (c' & es & E & Q' & EF).
    exists c', es. split; [destruct c; exact E|]. split; auto.
  - unfold q_heartbeat. destruct (q_hb c) eqn:HB.
    + exists c, []. split; [reflexivity|]. split; [auto|]. cbn. rewrite HB. auto.
    + assert (NI : ~ In r (q_pending c)) by (apply NR; cbn; auto).
      assert (HR := HH r eq_refl).
      assert (K : hb_ok (Some r) (q_pending c ++ [r])).
      { destruct QH as (N & A & B). split; [apply nodup_snoc; auto|]. split.
        - intros x I. apply in_app_or in I as [I|[<-|[]]].
          + rewrite A by auto. cbn. destruct (Nat.eqb_spec r x); congruence.
          + cbn. rewrite Nat.eqb_refl. auto.
        - intros x E. inv E. apply in_or_app. right. left. auto. }
      destruct (q_send_eff c r Q NI (Some r) K) as (c' & es & E & Q' & EF).
      exists c', es. split; [exact E|]. split; auto. cbn. rewrite HB.
      destruct (q_pending c) eqn:EP; destruct EF as [EF1 EF2]; split; auto.
      rewrite EF1. destruct (ok r); auto. unfold users. cbn. now rewrite HR.
  - unfold q_timeout. destruct (q_ing c) as [x|] eqn:EI.
    + assert (PD : q_pending c = x :: q_wait c) by (unfold q_pending; rewrite EI; reflexivity).
      cbn [qeffect]. rewrite PD.
      destruct (existsb (Nat.eqb r) (q_timers c)) eqn:ET.
      * cbn [oeqb]. destruct (Nat.eqb_spec x r).
        -- subst x. rewrite QD.
           destruct (handle_response (q_hb c) true r RTimeout) as [hb e] eqn:HE.
           rewrite PD in QH. destruct (hr_q _ _ _ _ _ _ QH HE) as (K1 & C1 & _).
           unfold q_fail_all. cbn [q_ing q_wait q_hb q_del q_timers app].
           destruct (fail_all hb true (q_wait c)) as [hb2 es2] eqn:FE.
           rewrite <- (app_nil_r (q_wait c)) in K1.
           destruct (fail_all_q _ _ _ _ _ K1 FE) as (K2 & C2).
           eexists _, _. split; [reflexivity|]. split; [|cbn [andb]; split].
           ++ constructor; cbn; auto. discriminate.
           ++ change (e :: es2) with ([e] ++ es2). rewrite completions_app, C1, C2. symmetry. apply (users_cons _ (all_broken _)).
           ++ reflexivity.
        -- eexists _, _. split; [reflexivity|]. split.
           ++ rewrite PD in QH. constructor; cbn; auto. intros y EY. inv EY. apply in_rm1_neq; auto.
           ++ cbn. split; auto.
      * eexists _, _. split; [reflexivity|]. split; [auto|]. rewrite andb_false_r. split; auto.
    + assert (PD : q_pending c = []) by (unfold q_pending; rewrite EI, (QB eq_refl); reflexivity).
      destruct (existsb (Nat.eqb r) (q_timers c)) eqn:ET; cbn [oeqb];
        eexists _, _; (split; [reflexivity|]); split.
      * unfold q_pending in QH. rewrite EI in QH. cbn in QH. constructor; cbn; auto. discriminate.
      * cbn [qeffect]. rewrite PD. split; [reflexivity|]. unfold q_pending. cbn. apply QB; auto.
      * auto.
      * cbn [qeffect]. rewrite PD. auto.
  - unfold q_response. destruct (q_ing c) as [x|] eqn:EI.
    + assert (PD : q_pending c = x :: q_wait c) by (unfold q_pending; rewrite EI; reflexivity).
      rewrite QD. destruct (handle_response (q_hb c) true x (RResp m)) as [hb e] eqn:HE.
      rewrite PD in QH. destruct (hr_q _ _ _ _ _ _ QH HE) as (K1 & C1 & _).
      destruct (try_next_q {| q_wait := q_wait c; q_ing := None; q_del := true; q_hb := hb; q_timers := q_timers c |}) as (c' & es & E & Q' & C & SP); auto.
      exists c', (e :: es). rewrite E. cbn [obind]. split; [reflexivity|]. split; [auto|].
      cbn [qeffect]. rewrite PD. cbn in C, SP. split; [|exact SP].
      change (e :: es) with ([e] ++ es). rewrite completions_app, C1, C. symmetry. apply (users_cons _ (all_broken _)).
    + assert (PD : q_pending c = []) by (unfold q_pending; rewrite EI, (QB eq_refl); reflexivity).
      eexists _, _. split; [reflexivity|]. split; [auto|]. cbn [qeffect]. rewrite PD. auto.
  - unfold q_fail_all. rewrite QD.
    destruct (fail_all (q_hb c) true (opt_list (q_ing c) ++ q_wait c)) as [hb es] eqn:FE.
    change (match q_ing c with Some r => [r] | None => [] end) with (opt_list (q_ing c)). rewrite FE.
    change (opt_list (q_ing c) ++ q_wait c) with (q_pending c) in FE.
    rewrite <- (app_nil_r (q_pending c)) in QH.
    destruct (fail_all_q _ _ _ _ _ QH FE) as (K2 & C2).
    eexists _, _. split; [reflexivity|]. split; [|cbn; split; auto].
    constructor; cbn; auto. discriminate.
Qed.

(** Conservation: what ended, then what is pending, is what was submitted. *)
Lemma filter_app' {A} f (a b : list A) : filter f (a ++ b) = filter f a ++ filter f b.
Proof. apply filter_app. Qed.

Definition nh (r : nat) := negb (H r).

Lemma users_fst l : map fst (users H l) = filter nh (map fst l).
Proof. unfold users, nh. induction l as [|[r x] l IH]; cbn; auto. destruct (negb (H r)); cbn; congruence. Qed.
Lemma all_broken_fst l : map fst (all_broken l) = l.
Proof. unfold all_broken. rewrite map_map. apply map_id. Qed.

Lemma qeffect_conserve c o done pend : qeffect c o done pend ->
  (forall r, o = QSend r -> H r = false) -> (forall r, o = QHeartbeat r -> H r = true) ->
  map fst done ++ filter nh pend = filter nh (q_pending c) ++ op_users o /\
  (forall x, In x pend -> In x (q_pending c) \/ In x (op_qreq o)).
Proof.
  intros E HS HH. destruct o as [r|r|r al|m| |]; cbn [qeffect op_users op_qreq] in *; rewrite ?app_nil_r.
  - specialize (HS r eq_refl). assert (NR : nh r = true) by (unfold nh; now rewrite HS).
    destruct (q_pending c) as [|x l]; destruct E as [-> ->].
    + destruct (ok r); cbn; rewrite ?HS; cbn; rewrite ?NR; split; auto; cbn; intuition (subst; auto).
    + change (map fst []) with (@nil nat). rewrite filter_app. cbn [filter app]. rewrite NR. split; auto.
      intros y I. cbn in *. rewrite in_app_iff in I. cbn in I. intuition (subst; auto).
  - specialize (HH r eq_refl). assert (NR : nh r = false) by (unfold nh; now rewrite HH).
    destruct (q_hb c); [|].
    + destruct E as [-> ->]. split; auto.
    + destruct E as [-> E]. destruct (q_pending c) as [|x l]; subst pend.
      * destruct (ok r); cbn; rewrite ?NR; split; auto; cbn; intuition (subst; auto).
      * change (map fst []) with (@nil nat). rewrite filter_app. cbn [filter app]. rewrite NR, app_nil_r. split; auto.
        intros y I. cbn in *. rewrite in_app_iff in I. cbn in I. intuition (subst; auto).
  - destruct (q_pending c) as [|x l]; [destruct E as [-> ->]; cbn; auto|].
    destruct (Nat.eqb x r && existsb (Nat.eqb r) (q_timers c)) eqn:B; destruct E as [-> ->].
    + b2p. subst x. rewrite users_fst. cbn [map fst]. rewrite all_broken_fst, app_nil_r. split; auto; cbn; tauto.
    + split; auto.
  - destruct (q_pending c) as [|x l]; [destruct E as [-> ->]; cbn; auto|].
    destruct E as [-> E]. rewrite users_fst. cbn [map fst]. rewrite all_broken_fst. split.
    + rewrite E at 2. change (x :: refused ok l ++ pend) with ((x :: refused ok l) ++ pend). now rewrite (filter_app _ (x :: refused ok l)).
    + intros y I. left. right. rewrite E. apply in_or_app. auto.
  - destruct E as [-> ->]. rewrite users_fst, all_broken_fst, app_nil_r. split; auto; cbn; tauto.
  - destruct E as [-> ->]. rewrite users_fst, all_broken_fst, app_nil_r. split; auto; cbn; tauto.
Qed.

Definition classified (os : list qop) : Prop :=
  forall r, (In (QSend r) os -> H r = false) /\ (In (QHeartbeat r) os -> H r = true).

Lemma q_requests_cons o os : q_requests (o :: os) = op_qreq o ++ q_requests os.
Proof. destruct o; reflexivity. Qed.
Lemma q_submitted_cons o os : q_submitted (o :: os) = op_users o ++ q_submitted os.
Proof. destruct o; reflexivity. Qed.

Lemma qrun_ok os : forall c, qi c -> classified os -> NoDup (q_requests os) ->
  (forall r, In r (q_requests os) -> ~ In r (q_pending c)) -> ~ In QClose os ->
  exists c' es, qrun ok true c os = Ok (c', es) /\ qi c' /\
    map fst (completions es) ++ filter nh (q_pending c') = filter nh (q_pending c) ++ q_submitted os /\
    (forall x, In x (q_pending c') -> In x (q_pending c) \/ In x (q_requests os)).
Proof.
  induction os as [|o os IH]; intros c Q CL ND FR NC.
  - exists c, []. cbn. rewrite app_nil_r. auto.
  - assert (HS : forall r, o = QSend r -> H r = false) by (intros r ->; apply (CL r); left; auto).
    assert (HH : forall r, o = QHeartbeat r -> H r = true) by (intros r ->; apply (CL r); left; auto).
    rewrite q_requests_cons in *. apply NoDup_app_parts in ND as (N1 & N2 & N3).
    destruct (qstep_ok c o Q) as (c1 & e1 & E1 & Q1 & EF); auto.
    { intros ->. apply NC. left; auto. }
    { intros r I. apply FR. apply in_or_app; auto. }
    destruct (qeffect_conserve _ _ _ _ EF HS HH) as (CV & PS).
    destruct (IH c1 Q1) as (c2 & e2 & E2 & Q2 & CV2 & PS2); auto.
    { intro r. destruct (CL r). split; intro; [apply H0|apply H1]; right; auto. }
    { intros r I J. apply PS in J as [J|J]; [|eapply N3; eauto]. eapply FR; [|exact J]. apply in_or_app; auto. }
    { intro; apply NC; right; auto. }
    exists c2, (e1 ++ e2). cbn [qrun]. rewrite E1. cbn [obind]. rewrite E2. cbn [obind]. split; [reflexivity|]. split; [auto|].
    split.
    + rewrite completions_app, map_app, <- app_assoc, CV2, app_assoc, CV, q_submitted_cons, app_assoc. reflexivity.
    + intros x I. rewrite in_app_iff. destruct (PS2 x I) as [J|J]; auto. destruct (PS x J); auto.
Qed.
End Q.

(** After CloseClientChannel nothing is ever delivered. *)
Lemma hr_nodel hb r res hb' e : handle_response hb false r res = (hb', e) -> completions [e] = [].
Proof. unfold handle_response. destruct (oeqb hb r); intro E; inv E; auto. Qed.
Lemma fail_nodel rs : forall hb hb' es, fail_all hb false rs = (hb', es) -> completions es = [].
Proof.
  induction rs as [|r rs IH]; cbn; intros hb hb' es E; [inv E; auto|].
  destruct (handle_response hb false r RBroken) as [h e] eqn:E1.
  destruct (fail_all h false rs) as [h2 es2] eqn:E2. inv E.
  change (e :: es2) with ([e] ++ es2). rewrite completions_app. erewrite hr_nodel, IH; eauto.
Qed.

Lemma loop_nodel ok w : forall hb, exists w' ing hb' es, try_loop ok true w hb false = Ok (w', ing, hb', es) /\ completions es = [].
Proof.
  induction w as [|r w IH]; intros hb; cbn; [eexists _, _, _, _; split; reflexivity|].
  destruct (ok r); [eexists _, _, _, _; split; reflexivity|].
  destruct (handle_response hb false r RBroken) as [h e] eqn:E1.
  destruct (IH h) as (w' & ing & hb' & es & E & C). rewrite E. cbn [obind].
  eexists _, _, _, _. split; [reflexivity|]. change (e :: es) with ([e] ++ es). rewrite completions_app.
  erewrite hr_nodel by eauto. auto.
Qed.
Lemma try_nodel ok c : q_del c = false -> exists c' es, try_send_next ok true c = Ok (c', es) /\ q_del c' = false /\ completions es = [].
Proof.
  intro D. unfold try_send_next. destruct (q_ing c); [eexists _, _; split; [reflexivity|]; auto|].
  rewrite D. destruct (loop_nodel ok (q_wait c) (q_hb c)) as (w' & ing & hb' & es & E & C). rewrite E. cbn [obind].
  eexists _, _. split; [reflexivity|]. cbn. auto.
Qed.
Lemma q_fail_nodel c c' es : q_fail_all c = (c', es) -> q_del c = false -> q_del c' = false /\ completions es = [].
Proof.
  unfold q_fail_all. intros E D. rewrite D in E.
  destruct (fail_all _ false _) as [hb es'] eqn:F in E. inv E. split; auto. eapply fail_nodel; eauto.
Qed.
Lemma q_close_nodel c c' es : q_close c = (c', es) -> q_del c = false -> q_del c' = false /\ completions es = [].
Proof.
  unfold q_close. intros E D. destruct (q_fail_all c) as [c1 e1] eqn:E1.
  destruct (q_fail_all _) as [c2 e2] eqn:E2 in E. inv E.
  destruct (q_fail_nodel _ _ _ E1 D) as [D1 C1]. destruct (q_fail_nodel _ _ _ E2 eq_refl) as [D2 C2].
  rewrite completions_app, C1, C2. auto.
Qed.
Lemma qstep_nodel ok c o : q_del c = false -> exists c' es, qstep ok true c o = Ok (c', es) /\ q_del c' = false /\ completions es = [].
Proof.
  intro D. destruct o as [r|r|r al|m| |]; cbn [qstep].
  - apply try_nodel; auto.
  - unfold q_heartbeat. destruct (q_hb c); [eexists _, _; split; [reflexivity|]; auto|]. apply try_nodel; auto.
  - unfold q_timeout. destruct (existsb _ _); [|eexists _, _; split; [reflexivity|]; auto].
    destruct (oeqb (q_ing c) r); [|eexists _, _; split; [reflexivity|]; auto].
    rewrite D. destruct (handle_response _ false _ _) as [hb e] eqn:E.
    destruct (q_fail_all _) as [c2 e2] eqn:E2. eexists _, _. split; [reflexivity|].
    destruct (q_fail_nodel _ _ _ E2 eq_refl) as [D2 C2]. split; auto.
    change (e :: e2) with ([e] ++ e2). rewrite completions_app, C2. erewrite hr_nodel by eauto. auto.
  - unfold q_response. destruct (q_ing c); [|eexists _, _; split; [reflexivity|]; auto].
    rewrite D. destruct (handle_response _ false _ _) as [hb e] eqn:E.
    destruct (try_nodel ok {| q_wait := q_wait c; q_ing := None; q_del := false; q_hb := hb; q_timers := q_timers c |} eq_refl) as (c' & es & E2 & D2 & C2).
    rewrite E2. cbn [obind]. eexists _, _. split; [reflexivity|]. split; auto.
    change (e :: es) with ([e] ++ es). rewrite completions_app, C2. erewrite hr_nodel by eauto. auto.
  - destruct (q_fail_all c) as [c2 e2] eqn:E2. eexists _, _. split; [reflexivity|]. eapply q_fail_nodel; eauto.
  - destruct (q_close c) as [c2 e2] eqn:E2. eexists _, _. split; [reflexivity|]. eapply q_close_nodel; eauto.
Qed.
Lemma qrun_nodel ok os : forall c, q_del c = false -> exists c' es, qrun ok true c os = Ok (c', es) /\ completions es = [].
Proof.
  induction os as [|o os IH]; intros c D; cbn [qrun]; [eexists _, _; split; reflexivity|].
  destruct (qstep_nodel ok c o D) as (c1 & e1 & E1 & D1 & C1). rewrite E1. cbn [obind].
  destruct (IH c1 D1) as (c2 & e2 & E2 & C2). rewrite E2. cbn [obind]. eexists _, _. split; [reflexivity|].
  now rewrite completions_app, C1, C2.
Qed.
Lemma qrun_app ok os1 : forall c os2, qrun ok true c (os1 ++ os2) =
  obind (qrun ok true c os1) (fun '(c1, es) => obind (qrun ok true c1 os2) (fun '(c2, es') => Ok (c2, es ++ es'))).
Proof.
  induction os1 as [|o os1 IH]; intros c os2; cbn.
  - destruct (qrun ok true c os2) as [[c2 es]| |]; reflexivity.
  - destruct (qstep ok true c o) as [[c1 e1]| |]; cbn; auto. rewrite IH.
    destruct (qrun ok true c1 os1) as [[c2 e2]| |]; cbn; auto.
    destruct (qrun ok true c2 os2) as [[c3 e3]| |]; cbn; auto. now rewrite app_assoc.
Qed.
