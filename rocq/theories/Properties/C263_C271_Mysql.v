(** C263-C271: the asynchronous MySQL client. *)
From Coq Require Import String.
From Verif.Model Require Import Common Mysql.
From Verif.Spec Require Import MysqlSpec.
From Verif.Proofs Require Import Tac MysqlProofs.
Local Open Scope string_scope.
Local Open Scope list_scope.
Local Open Scope nat_scope.
Local Notation length := List.length.

(** *** C263: whatever the server answers and whenever events and calls come, the process is not aborted, every query is called back at most once
    and in the order asked, and once the connection is destroyed each one exactly once. *)
Theorem C263_exactly_once : forall db0 g os, Forall (fun o => o <> ODestroy) os -> exists s e, mrun db0 (fresh g) os = Ok (s, e) /\
  (exists rest, asked os = answered e ++ rest) /\
  (m_run s = false -> exists s' e', mrun db0 (fresh g) (os ++ [ODestroy]) = Ok (s', e') /\ answered e' = asked os).
Proof.
  intros db0 g os F. destruct (mrun_good db0 os (fresh g) (fresh_good g)) as (s & e & E & G & B). destruct (B eq_refl F) as [NG B1]. cbn [open fresh m_cur m_queue map app] in B1.
  exists s, e. split; [exact E|]. split; [now exists (open s)|]. intros R.
  rewrite (mrun_app db0 os (fresh g) [ODestroy] s e E). cbn [mrun]. unfold mstep. rewrite NG, R. destruct (clean_up_spec s) as (s1 & C & A & _). rewrite C. cbn [obind].
  eexists _, _. split; [reflexivity|]. rewrite !answered_app, A. cbn [answered flat_map]. rewrite app_nil_r. exact B1.
Qed.
Definition q1 := Query 1 "" "select 1".
Definition q2 := Query 2 "other" "select 2".
Definition fine := Lib false 0 true [].
Definition hold := Lib true 0 true [].
Definition no_more := Lib false 0 false [].
Definition row1 := Lib false 0 true [Some "a"; None].
Example C263_example : exists s e, mrun "db" (fresh 0) [OConnect; ORound hold; OFire; ORound fine; OQuery q1; ORound fine; OQuery q2; ORound fine; ORound hold; OFire; ORound fine;
   ORound fine; ORound row1; ORound fine; ORound no_more; ORound fine; ORound fine; ORound hold; OClose; OFire; ORound hold; ODestroy; OFire] = Ok (s, e) /\
  e = [VReady; VDone 1 0 [["a"; "NULL"]]; VDone 2 (-1) []] /\ m_gone s = true.
Proof. eexists _, _. split; [vm_compute; reflexivity|split; reflexivity]. Qed.

(** *** C264: a conversation of any number of queries, with any pauses: each query is called back with the server's code and rows, in order, and the
    connection is idle afterwards. *)
Definition C264_statement : Prop := forall db0 s qs script answers rest, m_gone s = false -> m_st s = CONNECTION_IDLE -> m_run s = true -> m_cur s = None -> m_queue s = qs ->
  talk true (m_db s) qs script answers -> exists s', leads db0 s (script ++ rest) s' (shown qs answers) rest /\ m_st s' = CONNECTION_IDLE /\ m_queue s' = [] /\ m_cur s' = None.
Definition busy1 (g : Z) : conn := Conn CONNECTION_IDLE [q1] None false "db" true true (inr 0%Z) g true false.
(** Following a conversation step by step. *)
Lemma leads_inv db0 s l s' e l' : leads db0 s l s' e l' -> (e = [] /\ l' = l) \/ exists s1 e1 l1 e2, auto db0 s l = Some (Ok (s1, e1), l1) /\ leads db0 s1 l1 s' e2 l' /\ e = e1 ++ e2.
Proof. intros []; [auto|right; eauto 10]. Qed.
Ltac lstep := match goal with L : leads _ _ _ _ _ _ |- _ => apply leads_inv in L; destruct L as [[? ?]|(? & ? & ? & ? & LA & ? & ?)]; [|vm_compute in LA; first [discriminate LA|inversion LA; clear LA; subst; cbn [app] in *]] end.
Theorem C264_statement_refuted : ~ C264_statement.
Proof.
  intros H. destruct (H "db" (busy1 7) [q1] ([] ++ ([hold] ++ fine :: fine :: [] ++ [no_more]) ++ []) [(0%Z, [])] [row1] eq_refl eq_refl eq_refl eq_refl eq_refl) as (s' & L & _).
  { apply (talk_query true "db" q1 [] [] [hold] ([hold] ++ fine :: fine :: [] ++ [no_more]) [] 0%Z [] []); [discriminate|constructor; reflexivity|discriminate| |constructor].
    apply reply; [repeat constructor|split; reflexivity|reflexivity|]. apply (rs_end [] []). constructor. }
  cbn [app] in L. change (shown [q1] [(0%Z, [])]) with [VDone 1 0 []] in L.
  (* the query is called back when the pause ends, before its result was asked for; what is left over is more than [row1] *)
  clear H. repeat (lstep; [discriminate|]). lstep. discriminate.
Qed.
(** Where err_no_, which is never set, happens to be 0, or the server never keeps a new query waiting. *)
Theorem C264_rows_partial : forall db0 s slow qs script answers rest, m_gone s = false -> m_st s = CONNECTION_IDLE -> m_run s = true -> m_cur s = None -> m_queue s = qs ->
  m_errno s = 0%Z \/ slow = false -> talk slow (m_db s) qs script answers ->
  exists s', leads db0 s (script ++ rest) s' (shown qs answers) rest /\ m_st s' = CONNECTION_IDLE /\ m_queue s' = [] /\ m_cur s' = None /\ m_ready s' = m_ready s.
Proof.
  intros db0 s slow qs script answers rest NG I R C Q EN T.
  destruct (whole_talk db0 slow (m_db s) qs script answers T s rest NG C Q eq_refl) as (s' & L & A1 & A2 & A3 & A4 & A5 & A6 & A7 & A8).
  { intros ->. destruct EN as [EN|EN]; [exact EN|discriminate]. }
  exists s'. replace s with (at_ s CONNECTION_IDLE true) at 1 by (destruct s; cbn in *; subst; reflexivity). auto.
Qed.
Example C264_example : talk true "db" [q1; q2] ([] ++ ([hold; hold] ++ fine :: fine :: [hold] ++ row1 :: [] ++ [no_more]) ++ ([hold] ++ [fine]) ++ ([] ++ fine :: fine :: [] ++ [Lib false 2013 false []]) ++ [])
  [(0%Z, [[Some "a"; None]]); (2013%Z, [])] /\ shown [q1; q2] [(0%Z, [[Some "a"; None]]); (2013%Z, [])] = [VDone 1 0 [["a"; "NULL"]]; VDone 2 2013 []].
Proof.
  split; [|reflexivity]. apply talk_query with (ws := [hold; hold]); [discriminate|constructor; reflexivity|discriminate| |].
  - apply reply; [repeat constructor|split; reflexivity|reflexivity|]. apply (rs_row [hold] 0 [Some "a"; None]); [repeat constructor|]. apply (rs_end [] []). constructor.
  - apply talk_query with (ws := []); [discriminate| |discriminate| |constructor].
    + apply (select_yes "db" q2 [hold] fine); [reflexivity|repeat constructor|split; reflexivity].
    + apply reply; [constructor|split; reflexivity|reflexivity|]. apply (rs_end [] []). constructor.
Qed.
(** With garbage in err_no_ a query that has to wait ends with code 0 and no rows. *)
Theorem C264_garbage : forall db0 s q rows a, m_gone s = false -> m_run s = true -> m_st s = QUERY_WAIT -> m_cur s = Some (q, rows) -> m_errno s <> 0%Z -> succeeds a ->
  exists s', mstep db0 s (ORound a) = Ok (s', [VDone (q_id q) 0 rows]) /\ m_st s' = CONNECTION_IDLE.
Proof.
  intros db0 s q rows a NG R ST C E [A1 A2]. unfold mstep. rewrite NG, R. unfold iter. rewrite ST, C. apply Z.eqb_neq in E. rewrite E. cbn [negb]. rewrite A2. unfold failed, DoneCurrentQuery. rewrite C.
  eexists. split; reflexivity.
Qed.

(** *** C265: the rows shown to the user determine the server's rows. *)
Definition C265_statement : Prop := forall qs a b, length a = length qs -> length b = length qs -> shown qs a = shown qs b -> a = b.
Theorem C265_statement_refuted : ~ C265_statement.
Proof. intros H. specialize (H [q1] [(0%Z, [[None]])] [(0%Z, [[Some "NULL"]])] eq_refl eq_refl eq_refl). discriminate. Qed.
Definition no_null_text (a : list (Z * list (list cell))) : Prop := Forall (fun '(_, rs) => Forall (Forall (fun c => c <> Some "NULL")) rs) a.
Lemma cell_text_inj a b : a <> Some "NULL" -> b <> Some "NULL" -> cell_text a = cell_text b -> a = b.
Proof. destruct a, b; cbn; congruence. Qed.
Lemma map_inj_on {A B} (f : A -> B) (P : A -> Prop) : (forall x y, P x -> P y -> f x = f y -> x = y) -> forall a b, Forall P a -> Forall P b -> map f a = map f b -> a = b.
Proof. intros I. induction a as [|x a IH]; intros [|y b] FA FB H; try discriminate; [reflexivity|]. inv FA. inv FB. cbn in H. inv H. f_equal; auto. Qed.
(** Where no column is the text NULL. *)
Theorem C265_rows_determined_partial : forall qs a b, length a = length qs -> length b = length qs -> no_null_text a -> no_null_text b -> shown qs a = shown qs b -> a = b.
Proof.
  induction qs as [|q qs IH]; intros [|[e rs] a] [|[e' rs'] b] LA LB NA NB H; cbn in LA, LB; try discriminate; [reflexivity|].
  inv NA. inv NB. cbn in H. inv H. f_equal; [f_equal|].
  - apply (map_inj_on (map cell_text) (Forall (fun c => c <> Some "NULL"))); [|assumption|assumption|assumption]. intros x y X Y E. apply (map_inj_on cell_text (fun c => c <> Some "NULL")); try assumption. apply cell_text_inj.
  - apply IH; auto.
Qed.
Example C265_example : shown [q1] [(0%Z, [[None; Some ""]; [Some "x"]])] = [VDone 1 0 [["NULL"; ""]; ["x"]]] /\ no_null_text [(0%Z, [[None; Some ""]; [Some "x"]])].
Proof. split; [reflexivity|]. repeat constructor; discriminate. Qed.

(** *** C266: Close() on an idle connection closes it. *)
Definition C266_statement : Prop := forall db0 s script, m_gone s = false -> m_run s = false -> m_st s = CONNECTION_IDLE -> m_cur s = None -> m_queue s = [] -> close_script script ->
  exists s1 s2 e rest, mstep db0 s OClose = Ok (s1, []) /\ leads db0 s1 script s2 e rest /\ In VClosed e.
Definition idle0 : conn := Conn CONNECTION_IDLE [] None false "db" true true (inr 0%Z) 0 false false.
Theorem C266_statement_refuted : ~ C266_statement.
Proof.
  intros H. destruct (H "db" idle0 [fine] eq_refl eq_refl eq_refl eq_refl eq_refl) as (s1 & s2 & e & rest & A & L & I); [apply (closes [] fine); [constructor|reflexivity]|].
  vm_compute in A. inv A. apply auto_stuck in L; [|reflexivity|reflexivity]. destruct L as (_ & -> & _). destruct I.
Qed.
(** It does nothing by itself, whatever the server does; the connection closes after the next query and those queued with it. *)
Theorem C266_close_partial : forall db0 s q slow script answers cs rest, m_gone s = false -> m_run s = false -> m_st s = CONNECTION_IDLE -> m_cur s = None -> m_queue s = [] ->
  m_errno s = 0%Z \/ slow = false -> talk slow (m_db s) [q] script answers -> close_script cs ->
  exists s1, mrun db0 s [OClose] = Ok (s1, []) /\ (forall l s2 e l2, leads db0 s1 l s2 e l2 -> s2 = s1 /\ e = [] /\ l2 = l) /\
    exists s2 s3, mrun db0 s1 [OQuery q] = Ok (s2, []) /\ leads db0 s2 (script ++ cs ++ rest) s3 (shown [q] answers ++ [VClosed]) rest /\ m_ready s3 = false /\ m_queue s3 = [] /\ m_cur s3 = None.
Proof.
  intros db0 s q slow script answers cs rest NG R I C Q EN T CS.
  exists (set_close s true). split; [cbn [mrun]; unfold mstep; rewrite NG, R; reflexivity|]. split.
  { intros l s2 e l2 L. apply (auto_stuck db0); [exact R|unfold waiting; cbn; rewrite I; reflexivity|exact L]. }
  set (s2 := at_ (set_queue (set_close s true) [q]) CONNECTION_IDLE true).
  destruct (whole_talk db0 slow (m_db s) [q] script answers T (set_queue (set_close s true) [q]) (cs ++ rest)) as (s' & L & A1 & A2 & A3 & A4 & A5 & A6 & A7 & A8); try assumption; try reflexivity.
  { intros ->. destruct EN as [EN|EN]; [exact EN|discriminate]. }
  destruct (closing db0 s' cs rest A5 A3 CS) as (s3 & L3 & B1 & B2 & B3 & B4 & B5 & B6). rewrite A4 in L3. cbn [map app] in L3.
  exists s2, s3. split.
  { cbn [mrun]. unfold mstep. cbn [set_close m_gone]. rewrite NG. cbn [set_close m_cur m_st m_queue]. rewrite C, I, Q. reflexivity. }
  split; [|auto]. eapply leads_trans; [exact L|]. eapply leads_quiet; [|exact L3]. unfold auto, calls. rewrite A2, A1. unfold iter. rewrite A1, A4, A6. reflexivity.
Qed.
Example C266_example : talk true (m_db idle0) [q1] ([] ++ ([hold] ++ fine :: fine :: [] ++ [no_more]) ++ []) [(0%Z, [])] /\ close_script ([hold] ++ [fine]).
Proof.
  split; [|apply closes; [repeat constructor|reflexivity]]. apply talk_query with (ws := [hold]); [discriminate|constructor; reflexivity|discriminate| |constructor].
  apply reply; [repeat constructor|split; reflexivity|reflexivity|]. apply (rs_end [] []). constructor.
Qed.

(** *** C267: an error that means the connection is lost closes it. *)
Definition lost (s : conn) (a : lib) : Prop :=
  match m_st s with
  | SELECT_DB_START | SELECT_DB_WAIT | QUERY_START | FETCH_ROW_START | FETCH_ROW_WAIT => l_wait a = false /\ l_ok a = false | QUERY_RESULT_READY => l_ok a = false | _ => False
  end /\ In (l_err a) [2000; 2006; 2008; 2013]%Z.
Definition C267_statement : Prop := forall db0 s q rows a cs rest, m_gone s = false -> m_run s = true -> m_cur s = Some (q, rows) -> q_sql q <> "" -> lost s a -> close_script cs ->
  exists s' e, leads db0 s (a :: cs ++ rest) s' e rest /\ In VClosed e /\ m_ready s' = false.
Definition fetching : conn := Conn FETCH_ROW_START [] (Some (q1, [])) false "db" true true (inr 0%Z) 0 true false.
Theorem C267_statement_refuted : ~ C267_statement.
Proof.
  intros H. destruct (H "db" fetching q1 [] (Lib false 2013 false []) [fine] [] eq_refl eq_refl eq_refl) as (s' & e & L & V & R); [discriminate|split; [split; reflexivity|cbn; auto]|apply (closes [] fine); [constructor|reflexivity]|].
  cbn [app] in L. clear H. repeat (lstep; [now subst|]). lstep. discriminate.
Qed.
(** Everywhere but while rows are read: the query gets the error, those queued get -1, the connection closes. *)
Theorem C267_lost_partial : forall db0 s q rows a cs rest, m_gone s = false -> m_run s = true -> m_cur s = Some (q, rows) -> q_sql q <> "" -> lost s a -> close_script cs ->
  In (m_st s) [SELECT_DB_START; SELECT_DB_WAIT; QUERY_START; QUERY_RESULT_READY] ->
  exists s', leads db0 s (a :: cs ++ rest) s' (VDone (q_id q) (l_err a) rows :: map (fun q => VDone (q_id q) (-1) []) (m_queue s) ++ [VClosed]) rest /\ m_ready s' = false /\ m_queue s' = [] /\ m_cur s' = None.
Proof.
  intros db0 s q rows a cs rest NG R C SQ [LO ER] CS IN.
  destruct (closing db0 (set_cur s None) cs rest NG eq_refl CS) as (s' & L & B1 & B2 & B3 & B4 & B5 & B6). cbn [set_cur m_queue] in L. exists s'. split; [|auto].
  assert (F : IsFatalError (l_err a) = true) by (unfold IsFatalError; cbn in ER; destruct ER as [<-|[<-|[<-|[<-|[]]]]]; reflexivity).
  assert (NZ : negb (l_err a =? 0)%Z = true) by (cbn in ER; destruct ER as [<-|[<-|[<-|[<-|[]]]]]; reflexivity).
  change (VDone (q_id q) (l_err a) rows :: map (fun q => VDone (q_id q) (-1) []) (m_queue s) ++ [VClosed]) with ([VDone (q_id q) (l_err a) rows] ++ map (fun q => VDone (q_id q) (-1) []) (m_queue s) ++ [VClosed]).
  eapply leads_step; [|exact L]. apply String.eqb_neq in SQ. unfold auto, calls. rewrite R. unfold iter.
  cbn [In] in IN. destruct IN as [E|[E|[E|[E|[]]]]]; rewrite <- E in *; rewrite C, ?SQ; cbn [negb]; rewrite ?NZ; try rewrite LO; unfold failed, DoneCurrentQuery; rewrite C, F; reflexivity.
Qed.
Example C267_example : lost (Conn QUERY_START [q2] (Some (q1, [])) false "db" true true (inr 0%Z) 0 true false) (Lib false 2006 false []) /\ close_script ([] ++ [fine]).
Proof. split; [split; [split; reflexivity|cbn; auto]|apply closes; [constructor|reflexivity]]. Qed.
(** While rows are read the query ends with the error, and the connection goes on as ready and idle. *)
Theorem C267_fetch : forall db0 s q rows a, m_gone s = false -> m_run s = true -> m_cur s = Some (q, rows) -> In (m_st s) [FETCH_ROW_START; FETCH_ROW_WAIT] -> lost s a ->
  exists s', leads db0 s [a] s' [VDone (q_id q) (l_err a) rows] [] /\ m_st s' = CONNECTION_IDLE /\ m_ready s' = m_ready s /\ m_queue s' = m_queue s.
Proof.
  intros db0 s q rows a NG R C IN [LO ER]. destruct a as [w er ok row]. cbn [l_err] in *.
  assert (LO' : w = false /\ ok = false) by (cbn [In] in IN; destruct IN as [E|[E|[]]]; rewrite <- E in LO; exact LO). destruct LO' as [-> ->].
  destruct (rows_ok db0 ([] ++ [Lib false er false row]) [] er (rs_end [] row er ltac:(constructor)) s q rows [] NG C) as (f & L). cbn [map app] in L. rewrite app_nil_r in L.
  cbn [In] in IN. destruct IN as [E|[E|[]]].
  - eexists. split; [replace s with (at_ s FETCH_ROW_START true) at 1 by (destruct s; cbn in *; subst; reflexivity); exact L|]. cbn. auto.
  - eexists. split; [|]. 
    { eapply leads_quiet; [unfold auto, calls; rewrite R, <- E; unfold iter; rewrite <- E; reflexivity|]. apply leads_one. unfold auto, calls, go_next_state. cbn. unfold iter. cbn. rewrite C. unfold DoneCurrentQuery. cbn. rewrite C. reflexivity. }
    cbn. auto.
Qed.

(** *** C268: a query given to a connection that has closed is answered. *)
Definition C268_statement : Prop := forall db0 g os s e q, mrun db0 (fresh g) os = Ok (s, e) -> In VClosed e -> m_gone s = false -> m_run s = false ->
  exists more s' e', Forall (fun o => o <> ODestroy /\ o <> OSyncClose) more /\ mrun db0 s (OQuery q :: more) = Ok (s', e') /\ In (q_id q) (answered e').
Theorem C268_statement_refuted : ~ C268_statement.
Proof.
  intros H. destruct (H "db" 0%Z [OConnect; ORound no_more; ORound fine; ORound fine; ORound fine] (Conn CONNECT_DONE [] None false "" false false (inr 0%Z) 0 false false) [VClosed] q1) as (more & s' & e' & F & R & I);
    [vm_compute; reflexivity|cbn; auto|reflexivity|reflexivity|].
  destruct (closed_run "db" (OQuery q1 :: more) (Conn CONNECT_DONE [] None false "" false false (inr 0%Z) 0 false false)) as (s2 & E & _); [repeat split|constructor; [split; discriminate|exact F]|].
  rewrite E in R. inv R. destruct I.
Qed.
(** Nothing is called back, whatever happens, until the connection is closed for good or destroyed; then all with -1. *)
Theorem C268_silent_partial : forall db0 s os, m_st s = CONNECT_DONE -> m_run s = false -> m_gone s = false -> m_cur s = None -> Forall (fun o => o <> ODestroy /\ o <> OSyncClose) os ->
  exists s', mrun db0 s os = Ok (s', []) /\
  exists s'' e, mrun db0 s' [ODestroy] = Ok (s'', e) /\ e = map (fun i => VDone i (-1) []) (map q_id (m_queue s) ++ asked os).
Proof.
  intros db0 s os ST R NG C F. destruct (closed_run db0 os s (conj ST (conj R NG)) F) as (s' & E & ST' & R' & NG'). exists s'. split; [exact E|].
  assert (G : good s) by (unfold good; rewrite NG, ST, R; cbn; split; [split; congruence|congruence]).
  assert (F' : Forall (fun o => o <> ODestroy) os) by (eapply Forall_impl; [|exact F]; intros o [A _]; exact A).
  destruct (mrun_good db0 os s G) as (s2 & e2 & E2 & G2 & B). rewrite E in E2. inv E2. destruct (B NG F') as [_ B1]. cbn [answered flat_map app] in B1.
  assert (C' : m_cur s2 = None) by (unfold good in G2; rewrite NG', ST' in G2; cbn in G2; destruct (m_cur s2); [exfalso; destruct G2 as [G2 _]; assert (X : false = true) by (apply G2; discriminate); discriminate|reflexivity]).
  unfold open in B1. rewrite C, C' in B1. cbn [app] in B1.
  cbn [mrun]. unfold mstep. rewrite NG', R'. unfold clean_up, DoneCurrentQuery. rewrite C'. cbn [obind]. eexists _, _. split; [reflexivity|]. rewrite <- B1, map_map. cbn [app]. rewrite app_nil_r. reflexivity.
Qed.
Example C268_example : exists s e, mrun "db" (fresh 5) [OConnect; OQuery q2; ORound hold; OFire; ORound no_more; ORound fine; ORound fine; ORound fine; OQuery q1; OFire; OClose] = Ok (s, e) /\
  e = [VDone 2 (-1) []; VClosed] /\ m_st s = CONNECT_DONE /\ m_run s = false /\ m_queue s = [q1].
Proof. eexists _, _. split; [vm_compute; reflexivity|auto]. Qed.

(** *** C269: closing ends, with callbacks that ask again. *)
Definition C269_statement : Prop := forall again l, exists fuel r, clean_loop fuel again l = Some r.
Theorem C269_statement_refuted : ~ C269_statement.
Proof.
  intros H. destruct (H (fun q => [q]) [q1]) as (fuel & r & E). revert r E. induction fuel as [|fuel IH]; intros r E; [discriminate|]. cbn [clean_loop app] in E.
  destruct (clean_loop fuel (fun q => [q]) [q1]) as [r'|] eqn:E'; [|discriminate]. exact (IH _ eq_refl).
Qed.
(** It ends where the retries of every query run out (for instance where nothing is asked again): all those queued are answered first, in order. *)
Theorem C269_closing_ends_partial : forall again (rank : query -> nat), (forall q x, In x (again q) -> rank x < rank q) -> forall l, exists fuel more, clean_loop fuel again l = Some (map q_id l ++ more).
Proof.
  intros again rank D l. assert (F : exists n, Forall (fun q => rank q < n) l).
  { induction l as [|q l [n IH]]; [exists 0; constructor|]. exists (S (max n (rank q))). constructor; [lia|]. eapply Forall_impl; [|exact IH]. cbn. intros; lia. }
  destruct F as [n F]. destruct (clean_ranked again rank D n l F) as (k & r & E & more & ->). eauto.
Qed.
Theorem C269_no_retry : forall l, clean_loop (length l) (fun _ => []) l = Some (map q_id l).
Proof. induction l as [|q l IH]; [reflexivity|]. cbn [clean_loop length map]. rewrite app_nil_r, IH. reflexivity. Qed.
Definition twice (q : query) : list query := match q_id q with O => [] | S n => [Query n "" ""; Query n "" ""] end.
Example C269_example : (forall q x, In x (twice q) -> q_id x < q_id q) /\ clean_loop 9 twice [Query 2 "" ""; Query 0 "" ""] = Some [2; 0; 1; 1; 0; 0; 0; 0].
Proof. split; [|reflexivity]. intros [i d t] x. unfold twice. cbn. destruct i; cbn; [intros []|]. intros [<-|[<-|[] ] ]; cbn; lia. Qed.

(** *** C270: a callback set for a session, also from its own callback, runs when its query ends; and no callback runs twice. *)
Definition C270_statement : Prop := forall c sets d, sets c = Some d -> snd (OnQueryDone (Some c) sets) = Some d.
Theorem C270_statement_refuted : ~ C270_statement.
Proof. intros H. specialize (H 0 (fun _ => Some 1) 1 eq_refl). discriminate. Qed.
Theorem C270_once_partial : forall cb sets, fst (OnQueryDone cb sets) = (match cb with Some c => [c] | None => [] end) /\ fst (OnQueryDone (snd (OnQueryDone cb sets)) sets) = [].
Proof. intros [c|] sets; split; reflexivity. Qed.
Example C270_example : fst (OnQueryDone (Some 4) (fun _ => Some 5)) = [4].
Proof. reflexivity. Qed.

(** *** C271: the client uses a connection that is ready where there is one. *)
Definition C271_statement : Prop := forall ready i, In true ready -> exists i' k, get_client ready i = Ok (i', Some k) /\ nth (Z.to_nat k) ready false = true.
Theorem C271_statement_refuted : ~ C271_statement.
Proof. intros H. destruct (H [true; false] 0%Z) as (i' & k & E & _); [cbn; auto|]. vm_compute in E. discriminate. Qed.
(** What it gives is ready; it tries the connections in turn: n successive requests reach each of n connections (below 2^31 requests). *)
Theorem C271_rotation_partial : forall ready i, ready <> [] -> (0 <= i)%Z -> (i + Z.of_nat (length ready) < 2 ^ 31)%Z ->
  (forall i' k, get_client ready i = Ok (i', Some k) -> nth (Z.to_nat k) ready false = true) /\
  (forall k, k < length ready -> nth k ready false = true -> In (Some (Z.of_nat k)) (clients (length ready) ready i)).
Proof.
  intros ready i NE I B. assert (N : (0 < Z.of_nat (length ready))%Z) by (destruct ready; [congruence|cbn [List.length]; lia]). split.
  - intros i' k H. unfold get_client in H. destruct ready as [|b ready]; [congruence|]. destruct (nth _ _ _) eqn:E in H; [|discriminate]. inv H. exact E.
  - intros k K R. set (n := Z.of_nat (length ready)) in *. set (j := ((Z.of_nat k - i - 1) mod n)%Z).
    assert (J : (0 <= j < n)%Z) by (apply Z.mod_pos_bound; lia).
    assert (E : ((i + j + 1) mod n)%Z = Z.of_nat k).
    { unfold j. rewrite <- Z.add_assoc, (Z.add_comm i), <- Z.add_assoc, Z.add_mod_idemp_l by lia. replace (Z.of_nat k - i - 1 + (1 + i))%Z with (Z.of_nat k) by lia. apply Z.mod_small. lia. }
    pose proof (clients_nth ready i (length ready) (Z.to_nat j) NE I B ltac:(lia)) as P. cbn zeta in P. rewrite Z2Nat.id in P by lia. fold n in P. rewrite E, Nat2Z.id, R in P. rewrite <- P.
    apply nth_In. clear P E. assert (L : forall m i, length (clients m ready i) = m).
    { clear -NE. induction m as [|m IH]; intros i; [reflexivity|]. cbn [clients]. unfold get_client. destruct ready as [|b ready]; [congruence|]. cbn [List.length]. now rewrite IH. }
    rewrite L. lia.
Qed.
Theorem C271_no_connections : forall i, get_client [] i = UB.
Proof. reflexivity. Qed.
Example C271_example : clients 3 [true; false; true] 7 = [Some 2%Z; Some 0%Z; None].
Proof. reflexivity. Qed.

Print Assumptions C263_exactly_once.
Print Assumptions C264_statement_refuted.
Print Assumptions C264_rows_partial.
Print Assumptions C264_garbage.
Print Assumptions C265_statement_refuted.
Print Assumptions C265_rows_determined_partial.
Print Assumptions C266_statement_refuted.
Print Assumptions C266_close_partial.
Print Assumptions C267_statement_refuted.
Print Assumptions C267_lost_partial.
Print Assumptions C267_fetch.
Print Assumptions C268_statement_refuted.
Print Assumptions C268_silent_partial.
Print Assumptions C269_statement_refuted.
Print Assumptions C269_closing_ends_partial.
Print Assumptions C269_no_retry.
Print Assumptions C270_statement_refuted.
Print Assumptions C270_once_partial.
Print Assumptions C271_statement_refuted.
Print Assumptions C271_rotation_partial.
Print Assumptions C271_no_connections.
