From Coq Require Import String.
From Verif.Model Require Import Common Mysql.
From Verif.Spec Require Import MysqlSpec.
From Verif.Proofs Require Import Tac.
Local Open Scope list_scope.
Local Open Scope nat_scope.
Local Notation length := List.length.

Definition busy (st : mst) : bool :=
  match st with SELECT_DB_START | SELECT_DB_WAIT | SELECT_DB_DONE | QUERY_START | QUERY_WAIT | QUERY_RESULT_READY | FETCH_ROW_START | FETCH_ROW_WAIT | FETCH_ROW_RESULT_READY => true | _ => false end.
Definition good (s : conn) : Prop :=
  if m_gone s then m_cur s = None /\ m_queue s = [] else (busy (m_st s) = true <-> m_cur s <> None) /\ (m_run s = true -> m_st s <> CONNECT_INIT).
Definition open (s : conn) : list nat := match m_cur s with Some (q, _) => [q_id q] | None => [] end ++ map q_id (m_queue s).
Definition asks (s : conn) (o : mop) : list nat := match o with OQuery q => if m_gone s then [] else [q_id q] | _ => [] end.

Lemma answered_app a b : answered (a ++ b) = answered a ++ answered b.
Proof. unfold answered. apply flat_map_app. Qed.
Lemma answered_queue l : answered (map (fun q => VDone (q_id q) (-1) []) l) = map q_id l.
Proof. unfold answered. induction l as [|x l IH]; [reflexivity|]. cbn [map flat_map app]. now rewrite IH. Qed.
Lemma clean_up_spec s : exists s1, clean_up s = (s1, snd (clean_up s)) /\ answered (snd (clean_up s)) = open s /\ m_cur s1 = None /\ m_queue s1 = [] /\
  m_st s1 = m_st s /\ m_gone s1 = m_gone s /\ m_run s1 = m_run s /\ m_close s1 = m_close s.
Proof.
  unfold clean_up, DoneCurrentQuery, open. destruct (m_cur s) as [[q rows]|] eqn:E; cbn [snd app]; eexists; (split; [reflexivity|]); cbn; rewrite ?answered_queue; rewrite ?E; auto 10.
Qed.
Ltac mcbn := cbn [at_ set_cur set_queue set_db set_ready set_close set_ret set_fetch m_st m_queue m_cur m_close m_db m_ready m_ret m_fetch m_errno m_run m_gone busy].
Lemma iter_good db0 s a : good s -> m_gone s = false -> m_run s = true -> exists s' e, iter db0 s a = Ok (s', e) /\ good s' /\ m_gone s' = false /\ answered e ++ open s' = open s.
Proof.
  intros G NG R. unfold good in G. rewrite NG in G. destruct G as [G1 G2]. specialize (G2 R).
  destruct s as [st qu cu cl db rd rt fe en rn gn]. cbn [m_gone m_run m_st m_cur] in *. subst.
  unfold iter, quiet_, go_next_state, failed, DoneCurrentQuery, clean_up, DoneCurrentQuery, good, open.
  destruct st; mcbn; cbn [busy] in G1; try congruence;
    try (assert (cu = None) as -> by (destruct cu; [|reflexivity]; assert (X : false = true) by (apply G1; discriminate); discriminate X));
    try (assert (X : exists q rows, cu = Some (q, rows)) by (destruct cu as [[q rows]|]; [eauto|]; exfalso; now apply (proj1 G1 eq_refl)); destruct X as (q & rows & ->));
    try (destruct (l_wait a)); try (destruct rt); try (destruct qu as [|q0 qu]); try (destruct cl); try (destruct (negb _)); try (destruct (l_ok a)); try (destruct fe as [fe|fe]); mcbn;
    repeat match goal with |- context [if ?b then _ else _] => destruct b end; mcbn;
    (eexists _, _; split; [reflexivity|]); mcbn; (split; [|split; [reflexivity|]]);
    try (split; [split; [try discriminate; try (intros _; discriminate)|try discriminate; try congruence; try reflexivity]|discriminate]); try reflexivity;
    cbn [app answered flat_map map]; rewrite ?answered_app, ?answered_queue; cbn [app answered flat_map map]; rewrite ?app_nil_r; try reflexivity.
Qed.
Lemma mstep_good db0 s o : good s -> exists s' e, mstep db0 s o = Ok (s', e) /\ good s' /\ answered e ++ open s' = open s ++ asks s o.
Proof.
  intros G. unfold mstep. destruct (m_gone s) eqn:NG.
  - exists s, []. split; [reflexivity|]. split; [exact G|]. destruct o; cbn [asks]; rewrite ?NG, ?app_nil_r; reflexivity.
  - destruct o as [|ok|q| | | |alive|a|]; cbn [asks]; rewrite ?NG, ?app_nil_r.
    + pose proof G as G'. unfold good in G'. rewrite NG in G'. destruct G' as [G1 G2]. destruct (m_st s) eqn:E; cbn [is_init]; (eexists _, _; split; [reflexivity|]); (split; [|reflexivity]); try exact G.
      unfold good. mcbn. rewrite NG. cbn [busy] in *. split; [exact G1|discriminate].
    + pose proof G as G'. unfold good in G'. rewrite NG in G'. destruct G' as [G1 G2]. destruct (m_st s) eqn:E; cbn [is_init andb]; try (eexists _, _; split; [reflexivity|]; split; [exact G|reflexivity]).
      destruct ok; (eexists _, _; split; [reflexivity|]); (split; [|reflexivity]); [|exact G]. unfold good. mcbn. rewrite NG. cbn [busy] in *. split; [exact G1|discriminate].
    + pose proof G as G'. unfold good in G'. rewrite NG in G'. destruct G' as [G1 G2]. destruct (m_cur s) as [[q0 rows]|] eqn:E.
      * eexists _, _. split; [reflexivity|]. unfold good, open. mcbn. rewrite NG, E. cbn. rewrite map_app. split; [auto|reflexivity].
      * destruct (is_idle (m_st s)) eqn:I.
        -- eexists _, _. split; [reflexivity|]. unfold good, open. mcbn. rewrite NG, E. cbn. rewrite map_app. split; [|reflexivity]. split; [split; congruence|discriminate].
        -- eexists _, _. split; [reflexivity|]. unfold good, open. mcbn. rewrite NG, E. cbn. rewrite map_app. split; [auto|reflexivity].
    + destruct (negb (m_run s) && waiting (m_st s)) eqn:E; (eexists _, _; split; [reflexivity|]); (split; [|reflexivity]); [|exact G].
      unfold good in *. mcbn. rewrite NG in *. destruct G as [G1 G2]. split; [exact G1|]. intros _ X. rewrite X in E. apply andb_prop in E. destruct E. discriminate.
    + destruct (m_run s) eqn:R; (eexists _, _; split; [reflexivity|]); (split; [|reflexivity]); [exact G|]. unfold good in *. mcbn. rewrite NG, ?R in *. exact G.
    + destruct (m_run s) eqn:R; [exists s, []; split; [reflexivity|]; split; [exact G|reflexivity]|]. destruct (clean_up_spec s) as (s1 & E & A & B & C & D & F & H & _). rewrite E.
      eexists _, _. split; [reflexivity|]. rewrite A. unfold good, open. mcbn. rewrite F, NG, B, C. cbn. rewrite app_nil_r. split; [|reflexivity]. split; [split; congruence|discriminate].
    + destruct (m_run s) eqn:R; [exists s, []; split; [reflexivity|]; split; [exact G|reflexivity]|]. destruct alive; (eexists _, _; split; [reflexivity|]); (split; [|reflexivity]); unfold good in *; mcbn; rewrite NG, ?R in *; exact G.
    + destruct (m_run s) eqn:R; [|exists s, []; split; [reflexivity|]; split; [exact G|reflexivity]]. destruct (iter_good db0 s a G NG R) as (s' & e & A & B & _ & D). exists s', e. auto.
    + destruct (m_run s) eqn:R; [exists s, []; split; [reflexivity|]; split; [exact G|reflexivity]|]. destruct (clean_up_spec s) as (s1 & E & A & B & C & D & F & H & _). rewrite E.
      eexists _, _. split; [reflexivity|]. rewrite A. unfold good, open. mcbn. cbn. rewrite app_nil_r. auto.
Qed.
Lemma mstep_gone db0 s o s' e : good s -> mstep db0 s o = Ok (s', e) -> o <> ODestroy -> m_gone s = false -> m_gone s' = false.
Proof.
  unfold mstep. intros G H N NG. rewrite NG in H. destruct o as [|ok|q| | | |alive|a|]; try congruence; unfold quiet_ in H.
  - destruct (is_init _); inv H; auto.
  - destruct (_ && _); inv H; auto.
  - destruct (m_cur s); [inv H; auto|]. destruct (is_idle _); inv H; auto.
  - destruct (_ && _); inv H; auto.
  - destruct (m_run s); inv H; auto.
  - destruct (m_run s); [inv H; auto|]. destruct (clean_up_spec s) as (s1 & E & A & B & C & D & F & _). rewrite E in H. inv H. mcbn. congruence.
  - destruct (m_run s), alive; inv H; auto.
  - destruct (m_run s) eqn:R; [|inv H; auto]. destruct (iter_good db0 s a G NG R) as (s1 & e1 & A & _ & B & _). rewrite A in H. inv H. exact B.
Qed.
Lemma mrun_good db0 os : forall s, good s -> exists s' e, mrun db0 s os = Ok (s', e) /\ good s' /\ (m_gone s = false -> Forall (fun o => o <> ODestroy) os -> m_gone s' = false /\ answered e ++ open s' = open s ++ asked os).
Proof.
  induction os as [|o os IH]; intros s G; cbn [mrun asked flat_map].
  - exists s, []. split; [reflexivity|]. split; [exact G|]. intros. rewrite app_nil_r. auto.
  - destruct (mstep_good db0 s o G) as (s1 & e1 & E1 & G1 & B1). rewrite E1. cbn [obind]. destruct (IH s1 G1) as (s2 & e2 & E2 & G2 & B2). rewrite E2. cbn [obind].
    exists s2, (e1 ++ e2). split; [reflexivity|]. split; [exact G2|]. intros NG F. inv F.
    assert (NG1 : m_gone s1 = false) by (apply (mstep_gone db0 s o s1 e1 G E1); assumption). destruct (B2 NG1 H2) as [A B]. split; [exact A|].
    rewrite answered_app, <- app_assoc, B, app_assoc, B1, <- app_assoc. f_equal. unfold asked. f_equal. destruct o; cbn [asks]; rewrite ?NG; reflexivity.
Qed.
Lemma mrun_app db0 a : forall s b s1 e1, mrun db0 s a = Ok (s1, e1) -> mrun db0 s (a ++ b) = obind (mrun db0 s1 b) (fun '(s, e) => Ok (s, e1 ++ e)).
Proof.
  induction a as [|o a IH]; intros s b s1 e1 H; cbn [mrun app] in *.
  - inv H. destruct (mrun db0 s1 b) as [[u e]| |]; reflexivity.
  - destruct (mstep db0 s o) as [[t e]| |]; cbn [obind] in *; try discriminate. destruct (mrun db0 t a) as [[t2 e2]| |] eqn:E; cbn [obind] in *; try discriminate. inv H.
    rewrite (IH _ _ _ _ E). destruct (mrun db0 s1 b) as [[u e']| |]; cbn [obind]; [now rewrite app_assoc|reflexivity|reflexivity].
Qed.
Lemma fresh_good g : good (fresh g).
Proof. unfold good, fresh. cbn. split; [split; congruence|discriminate]. Qed.

(** ** Left to itself. *)
Lemma leads_trans db0 s l s1 e1 l1 s2 e2 l2 : leads db0 s l s1 e1 l1 -> leads db0 s1 l1 s2 e2 l2 -> leads db0 s l s2 (e1 ++ e2) l2.
Proof. induction 1 as [|s l s0 e l0 s3 e' l3 A B IH]; intros H; [exact H|]. rewrite <- app_assoc. econstructor; [exact A|]. auto. Qed.
Lemma leads_one db0 s l s1 e l1 : auto db0 s l = Some (Ok (s1, e), l1) -> leads db0 s l s1 e l1.
Proof. intros H. rewrite <- (app_nil_r e). econstructor; [exact H|constructor]. Qed.
Lemma leads_quiet db0 s l s1 l1 s2 e l2 : auto db0 s l = Some (Ok (s1, []), l1) -> leads db0 s1 l1 s2 e l2 -> leads db0 s l s2 e l2.
Proof. intros A B. change e with ([] ++ e). econstructor; eassumption. Qed.

(** Pauses in the three phases of a query, and while closing. *)
Lemma pause_query db0 s q rows : m_gone s = false -> m_cur s = Some (q, rows) -> q_sql q <> ""%string -> forall ws l, pauses ws -> m_errno s = 0%Z \/ ws = [] ->
  exists st', (st' = QUERY_START \/ st' = QUERY_WAIT /\ m_errno s = 0%Z) /\ leads db0 (at_ s QUERY_START true) (ws ++ l) (at_ s st' true) [] l.
Proof.
  intros NG C Q ws l P E. destruct P as [|w ws [W1 W2] P]; [exists QUERY_START; split; [auto|constructor]|]. destruct E as [E|E]; [|discriminate].
  exists QUERY_WAIT. split; [auto|]. apply (leads_quiet db0 _ _ (at_ s QUERY_WAIT false) (ws ++ l)).
  { unfold auto, calls. mcbn. rewrite C. apply String.eqb_neq in Q. rewrite Q. cbn [negb app]. unfold iter. mcbn. rewrite C, Q, W2. unfold go_next_state. rewrite W1. reflexivity. }
  apply (leads_quiet db0 _ _ (at_ s QUERY_WAIT true) (ws ++ l)); [unfold auto; mcbn; unfold mstep; mcbn; rewrite NG; reflexivity|].
  clear W1 W2. induction P as [|w' ws [W1 W2] P IH]; [constructor|]. apply (leads_quiet db0 _ _ (at_ s QUERY_WAIT false) (ws ++ l)).
  { unfold auto, calls. mcbn. cbn [app]. unfold iter. mcbn. rewrite C, E. unfold go_next_state. rewrite W1. reflexivity. }
  apply (leads_quiet db0 _ _ (at_ s QUERY_WAIT true) (ws ++ l)); [unfold auto; mcbn; unfold mstep; mcbn; rewrite NG; reflexivity|]. exact IH.
Qed.
Lemma pause_fetch db0 s : m_gone s = false -> forall ws l, pauses ws -> exists st', (st' = FETCH_ROW_START \/ st' = FETCH_ROW_WAIT) /\ leads db0 (at_ s FETCH_ROW_START true) (ws ++ l) (at_ s st' true) [] l.
Proof.
  intros NG ws l P.
  assert (G : forall st, st = FETCH_ROW_START \/ st = FETCH_ROW_WAIT -> exists st', (st' = FETCH_ROW_START \/ st' = FETCH_ROW_WAIT) /\ leads db0 (at_ s st true) (ws ++ l) (at_ s st' true) [] l); [|apply G; auto].
  induction P as [|w ws [W1 W2] P IH]; intros st S; [exists st; split; [exact S|constructor]|].
  destruct (IH FETCH_ROW_WAIT (or_intror eq_refl)) as (st' & A & B). exists st'. split; [exact A|]. apply (leads_quiet db0 _ _ (at_ s FETCH_ROW_WAIT false) (ws ++ l)).
  { unfold auto, calls. mcbn. cbn [app]. destruct S as [->| ->]; unfold iter; mcbn; unfold go_next_state; rewrite W1; reflexivity. }
  apply (leads_quiet db0 _ _ (at_ s FETCH_ROW_WAIT true) (ws ++ l)); [unfold auto; mcbn; unfold mstep; mcbn; rewrite NG; reflexivity|]. exact B.
Qed.
Lemma pause_select db0 s q rows : m_gone s = false -> m_cur s = Some (q, rows) -> forall ws l, pauses ws -> exists st', (st' = SELECT_DB_START \/ st' = SELECT_DB_WAIT) /\ leads db0 (at_ s SELECT_DB_START true) (ws ++ l) (at_ s st' true) [] l.
Proof.
  intros NG C ws l P.
  assert (G : forall st, st = SELECT_DB_START \/ st = SELECT_DB_WAIT -> exists st', (st' = SELECT_DB_START \/ st' = SELECT_DB_WAIT) /\ leads db0 (at_ s st true) (ws ++ l) (at_ s st' true) [] l); [|apply G; auto].
  induction P as [|w ws [W1 W2] P IH]; intros st S; [exists st; split; [exact S|constructor]|].
  destruct (IH SELECT_DB_WAIT (or_intror eq_refl)) as (st' & A & B). exists st'. split; [exact A|]. apply (leads_quiet db0 _ _ (at_ s SELECT_DB_WAIT false) (ws ++ l)).
  { unfold auto, calls. mcbn. cbn [app]. destruct S as [->| ->]; unfold iter; mcbn; rewrite C, W2; unfold go_next_state; rewrite W1; reflexivity. }
  apply (leads_quiet db0 _ _ (at_ s SELECT_DB_WAIT true) (ws ++ l)); [unfold auto; mcbn; unfold mstep; mcbn; rewrite NG; reflexivity|]. exact B.
Qed.
Lemma pause_close db0 s : m_gone s = false -> forall ws l, pauses ws -> exists st', (st' = CLOSE_START \/ st' = CLOSE_WAIT) /\ leads db0 (at_ s CLOSE_START true) (ws ++ l) (at_ s st' true) [] l.
Proof.
  intros NG ws l P.
  assert (G : forall st, st = CLOSE_START \/ st = CLOSE_WAIT -> exists st', (st' = CLOSE_START \/ st' = CLOSE_WAIT) /\ leads db0 (at_ s st true) (ws ++ l) (at_ s st' true) [] l); [|apply G; auto].
  induction P as [|w ws [W1 W2] P IH]; intros st S; [exists st; split; [exact S|constructor]|].
  destruct (IH CLOSE_WAIT (or_intror eq_refl)) as (st' & A & B). exists st'. split; [exact A|]. apply (leads_quiet db0 _ _ (at_ s CLOSE_WAIT false) (ws ++ l)).
  { unfold auto, calls. mcbn. cbn [app]. destruct S as [->| ->]; unfold iter; mcbn; unfold go_next_state; rewrite W1; reflexivity. }
  apply (leads_quiet db0 _ _ (at_ s CLOSE_WAIT true) (ws ++ l)); [unfold auto; mcbn; unfold mstep; mcbn; rewrite NG; reflexivity|]. exact B.
Qed.
(** The rows. *)
Lemma rows_ok db0 l rs e : rows_script l rs e -> forall s q rows rest, m_gone s = false -> m_cur s = Some (q, rows) -> exists f,
  leads db0 (at_ s FETCH_ROW_START true) (l ++ rest) (at_ (set_cur (set_fetch s f) None) CONNECTION_IDLE true) [VDone (q_id q) e (rows ++ map (map cell_text) rs)] rest.
Proof.
  induction 1 as [ws r e P|ws x r l rs e P R IH]; intros s q rows rest NG C.
  - destruct (pause_fetch db0 s NG ws ([Lib false e false r] ++ rest) P) as (st' & A & B). rewrite <- app_assoc. exists (inr e). eapply (leads_trans db0 _ _ _ [] _ _ [_]); [exact B|].
    apply (leads_quiet db0 _ _ (at_ (set_fetch s (inr e)) FETCH_ROW_RESULT_READY true) rest).
    { unfold auto, calls. mcbn. destruct A as [->| ->]; reflexivity. }
    apply leads_one. unfold auto, calls. mcbn. unfold iter. mcbn. rewrite C. unfold DoneCurrentQuery. mcbn. rewrite C. cbn [map]. rewrite app_nil_r. reflexivity.
  - destruct (pause_fetch db0 s NG ws (Lib false x true r :: l ++ rest) P) as (st' & A & B). rewrite <- app_assoc. cbn [app].
    destruct (IH (set_cur (set_fetch s (inl r)) (Some (q, rows ++ [map cell_text r]))) q (rows ++ [map cell_text r]) rest NG eq_refl) as (f & D).
    exists f. eapply (leads_trans db0 _ _ _ [] _ _ [_]); [exact B|].
    apply (leads_quiet db0 _ _ (at_ (set_fetch s (inl r)) FETCH_ROW_RESULT_READY true) (l ++ rest)).
    { unfold auto, calls. mcbn. destruct A as [->| ->]; reflexivity. }
    eapply leads_quiet. { unfold auto, calls. mcbn. unfold iter. mcbn. rewrite C. reflexivity. }
    rewrite <- app_assoc in D. cbn [app map]. exact D.
Qed.

(** One query, from the idle connection back to it. *)
Lemma eq_negb_dec (q : query) db : (negb (q_db q =? "")%string && negb (q_db q =? db)%string) = other_db db q. Proof. reflexivity. Qed.
Lemma one_query db0 s q qs sel ws l rs e rest : m_gone s = false -> m_cur s = None -> m_queue s = q :: qs -> q_sql q <> ""%string -> m_errno s = 0%Z \/ ws = [] ->
  select_script (m_db s) q sel -> reply_script ws l rs e -> exists f,
  leads db0 (at_ s CONNECTION_IDLE true) (sel ++ l ++ rest) (at_ (set_db (set_fetch (set_queue (set_cur s None) qs) f) (db_after (m_db s) q)) CONNECTION_IDLE true)
    [VDone (q_id q) e (map (map cell_text) rs)] rest.
Proof.
  intros NG C Q SQ EN SEL R.
  set (s1 := set_cur (set_queue s qs) (Some (q, []))).
  set (s2 := set_db s1 (db_after (m_db s) q)).
  assert (Q1 : leads db0 (at_ s CONNECTION_IDLE true) (sel ++ l ++ rest) (at_ s2 QUERY_START true) [] (l ++ rest)).
  { assert (SE : set_db s1 (m_db s) = s1) by (unfold s1; destruct s; reflexivity).
    destruct SEL as [N|pws a N P A].
    - apply leads_one. unfold auto, calls. mcbn. unfold iter. mcbn. rewrite Q, C, eq_negb_dec, N. unfold s2, db_after. rewrite N, SE. reflexivity.
    - rewrite <- app_assoc. apply (leads_quiet db0 _ _ (at_ s1 SELECT_DB_START true) (pws ++ [a] ++ l ++ rest)).
      { unfold auto, calls. mcbn. unfold iter. mcbn. rewrite Q, C, eq_negb_dec, N. reflexivity. }
      destruct (pause_select db0 s1 q [] NG eq_refl pws ([a] ++ l ++ rest) P) as (st' & ST & L). eapply (leads_trans db0 _ _ _ [] _ _ []); [exact L|]. destruct A as [A1 A2]. cbn [app].
      apply (leads_quiet db0 _ _ (at_ s1 SELECT_DB_DONE true) (l ++ rest)).
      { unfold auto, calls. mcbn. destruct ST as [->| ->]; unfold iter; mcbn; unfold s1; mcbn; rewrite A2; unfold go_next_state; rewrite A1; reflexivity. }
      apply leads_one. unfold auto, calls. mcbn. unfold iter. mcbn. unfold s1 at 1. mcbn. apply String.eqb_neq in SQ. rewrite SQ. unfold s2, db_after. rewrite N. reflexivity. }
  destruct R as [a u lr rs e P A U RS].
  destruct (pause_query db0 s2 q [] NG eq_refl SQ ws (a :: u :: lr ++ rest) P EN) as (st' & ST & L).
  destruct A as [A1 A2].
  destruct (rows_ok db0 lr rs e RS s2 q [] rest NG eq_refl) as (f & LR). exists f.
  change [VDone (q_id q) e (map (map cell_text) rs)] with ([] ++ [] ++ [VDone (q_id q) e ([] ++ map (map cell_text) rs)]).
  eapply leads_trans; [exact Q1|]. rewrite <- app_assoc. eapply leads_trans; [exact L|]. cbn [app].
  apply (leads_quiet db0 _ _ (at_ s2 QUERY_RESULT_READY true) (u :: lr ++ rest)).
  { unfold auto, calls. mcbn. destruct ST as [->|[-> E0]].
    - unfold s2, s1. mcbn. pose proof SQ as SQ'. apply String.eqb_neq in SQ'. rewrite SQ'. cbn [negb]. unfold iter. mcbn. rewrite SQ', A2. unfold go_next_state. rewrite A1. reflexivity.
    - unfold iter. mcbn. unfold s2, s1. mcbn. replace (m_errno s) with 0%Z. unfold go_next_state. rewrite A1. reflexivity. }
  apply (leads_quiet db0 _ _ (at_ s2 FETCH_ROW_START true) (lr ++ rest)).
  { unfold auto, calls. mcbn. unfold iter. mcbn. unfold s2, s1. mcbn. rewrite U. reflexivity. }
  unfold s2, s1 in LR. cbn in LR. unfold s2, s1. cbn. exact LR.
Qed.
Lemma whole_talk db0 slow db qs script answers : talk slow db qs script answers -> forall s rest, m_gone s = false -> m_cur s = None -> m_queue s = qs -> m_db s = db ->
  (slow = true -> m_errno s = 0%Z) -> exists s', leads db0 (at_ s CONNECTION_IDLE true) (script ++ rest) s' (shown qs answers) rest /\
    m_st s' = CONNECTION_IDLE /\ m_run s' = true /\ m_cur s' = None /\ m_queue s' = [] /\ m_gone s' = false /\ m_close s' = m_close s /\ m_ready s' = m_ready s /\ m_errno s' = m_errno s.
Proof.
  induction 1 as [db|db q qs sel ws l rs e script answers SQ SEL W R T IH]; intros s rest NG C Q D EN.
  - exists (at_ s CONNECTION_IDLE true). split; [constructor|]. mcbn. auto 10.
  - assert (X : m_errno s = 0%Z \/ ws = []) by (destruct slow; auto). subst db.
    destruct (one_query db0 s q qs sel ws l rs e (script ++ rest) NG C Q SQ X SEL R) as (f & L).
    destruct (IH (set_db (set_fetch (set_queue (set_cur s None) qs) f) (db_after (m_db s) q)) rest NG eq_refl eq_refl eq_refl EN) as (s' & L' & A).
    exists s'. split; [|exact A]. rewrite <- !app_assoc. change (shown (q :: qs) ((e, rs) :: answers)) with ([VDone (q_id q) e (map (map cell_text) rs)] ++ shown qs answers).
    eapply leads_trans; [exact L|exact L'].
Qed.
(** Closing. *)
Lemma closing db0 s script rest : m_gone s = false -> m_cur s = None -> close_script script -> exists s',
  leads db0 (at_ s CLOSE_START true) (script ++ rest) s' (map (fun q => VDone (q_id q) (-1) []) (m_queue s) ++ [VClosed]) rest /\
  m_st s' = CONNECT_DONE /\ m_run s' = false /\ m_cur s' = None /\ m_queue s' = [] /\ m_ready s' = false /\ m_gone s' = false.
Proof.
  intros NG C [ws a P A]. rewrite <- app_assoc. cbn [app]. destruct (pause_close db0 s NG ws (a :: rest) P) as (st' & ST & L).
  eexists. split.
  - eapply (leads_trans db0 _ _ _ [] _ _ _); [exact L|]. apply (leads_quiet db0 _ _ (at_ s CLOSE_DONE true) rest).
    { unfold auto, calls. mcbn. destruct ST as [->| ->]; unfold iter; mcbn; unfold go_next_state; rewrite A; reflexivity. }
    apply leads_one. unfold auto, calls. mcbn. unfold iter. mcbn. unfold clean_up, DoneCurrentQuery. mcbn. rewrite C. reflexivity.
  - mcbn. auto 10.
Qed.
Lemma auto_stuck db0 s l s' e l' : m_run s = false -> waiting (m_st s) = false -> leads db0 s l s' e l' -> s' = s /\ e = [] /\ l' = l.
Proof. intros R W H. destruct H; [auto|]. unfold auto in H. rewrite R, W in H. discriminate. Qed.
(** clean_up with callbacks. *)
Lemma clean_gen again : forall l m r k, clean_loop k again (m ++ flat_map again l) = Some r -> clean_loop (length l + k) again (l ++ m) = Some (map q_id l ++ r).
Proof.
  induction l as [|q l IH]; intros m r k H; cbn [flat_map length map app Nat.add] in *; [now rewrite app_nil_r in H|].
  cbn [clean_loop]. rewrite <- app_assoc. erewrite IH; [reflexivity|]. rewrite <- app_assoc. exact H.
Qed.
Lemma clean_ranked again rank : (forall q x, In x (again q) -> rank x < rank q) -> forall n l, Forall (fun q => rank q < n) l -> exists k r, clean_loop k again l = Some r /\ exists more, r = map q_id l ++ more.
Proof.
  intros D. induction n as [|n IH]; intros l F.
  - destruct l as [|q l]; [exists 0, []; cbn; split; [reflexivity|exists []; reflexivity]|]. inv F. lia.
  - destruct (IH (flat_map again l)) as (k & r & E & _).
    { apply Forall_forall. intros x X. apply in_flat_map in X. destruct X as (q & Q1 & Q2). rewrite Forall_forall in F. specialize (F _ Q1). specialize (D _ _ Q2). lia. }
    exists (length l + k), (map q_id l ++ r). split; [|eauto]. rewrite <- (app_nil_r l) at 2. apply clean_gen. exact E.
Qed.
(** The client's rotation. *)
Lemma clients_nth ready i n j : ready <> [] -> (0 <= i)%Z -> (i + Z.of_nat n < 2 ^ 31)%Z -> j < n ->
  let k := ((i + Z.of_nat j + 1) mod Z.of_nat (length ready))%Z in nth j (clients n ready i) None = if nth (Z.to_nat k) ready false then Some k else None.
Proof.
  intros NE. revert i j. induction n as [|n IH]; intros i j I B J; [lia|]. cbn [clients].
  assert (G : get_client ready i = let k := ((i + 1) mod Z.of_nat (length ready))%Z in Ok (i + 1, if nth (Z.to_nat k) ready false then Some k else None)%Z).
  { unfold get_client. destruct ready as [|b ready]; [congruence|]. assert (W : wrap_int (i + 1) = (i + 1)%Z) by (unfold wrap_int; rewrite Z.mod_small; lia).
    rewrite W. rewrite (Z.mod_small (i + 1) (2 ^ 64)); [reflexivity|]. lia. }
  rewrite G. destruct j as [|j]; cbn [nth].
  - cbn zeta. replace (i + Z.of_nat 0 + 1)%Z with (i + 1)%Z by lia. reflexivity.
  - rewrite (IH (i + 1)%Z j) by lia. cbn zeta. replace (i + 1 + Z.of_nat j + 1)%Z with (i + Z.of_nat (S j) + 1)%Z by lia. reflexivity.
Qed.
(** A closed connection. *)
Definition closed (s : conn) : Prop := m_st s = CONNECT_DONE /\ m_run s = false /\ m_gone s = false.
Lemma closed_step db0 s o : closed s -> o <> ODestroy -> o <> OSyncClose -> exists s', mstep db0 s o = Ok (s', []) /\ closed s'.
Proof.
  intros (A & B & C) N1 N2. unfold mstep, closed. rewrite C. destruct o as [|ok|q| | | |alive|a|]; try congruence; rewrite ?A, ?B; cbn [is_init is_idle waiting andb negb];
    try (eexists; split; [reflexivity|]; cbn; rewrite ?A, ?B, ?C; auto; fail).
  - destruct (m_cur s); (eexists; split; [reflexivity|]); cbn; auto.
  - destruct alive; (eexists; split; [reflexivity|]); cbn; auto.
Qed.
Lemma closed_run db0 os : forall s, closed s -> Forall (fun o => o <> ODestroy /\ o <> OSyncClose) os -> exists s', mrun db0 s os = Ok (s', []) /\ closed s'.
Proof.
  induction os as [|o os IH]; intros s H F; cbn [mrun]; [exists s; auto|]. inv F. destruct H2 as [N1 N2]. destruct (closed_step db0 s o H N1 N2) as (s1 & E & C1). rewrite E. cbn [obind].
  destruct (IH s1 C1 H3) as (s2 & E2 & C2). rewrite E2. cbn [obind]. exists s2. auto.
Qed.
