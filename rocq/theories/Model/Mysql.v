(** integration/async_mysql: one connection's state machine, the query sessions and the client's choice of a connection. (The directory is not
    part of the default build.) *)
From Coq Require Import String.
From Verif.Model Require Import Common.
Local Open Scope string_scope.
Local Open Scope list_scope.
Local Open Scope nat_scope.

(** mysql_async_con.h:29-52; STATE_NONE is left out. *)
Inductive mst := CONNECT_INIT | CONNECT_START | CONNECT_WAIT | CONNECT_DONE | CONNECTION_IDLE | SELECT_DB_START | SELECT_DB_WAIT | SELECT_DB_DONE
  | QUERY_START | QUERY_WAIT | QUERY_RESULT_READY | FETCH_ROW_START | FETCH_ROW_WAIT | FETCH_ROW_RESULT_READY | CLOSE_START | CLOSE_WAIT | CLOSE_DONE.
(** query_session.h:53-57: what the user put in. *)
Record query := Query { q_id : nat; q_db : string; q_sql : string }.
(** A column of a row as the library gives it: a null pointer or a string. *)
Definition cell := option string.
(** What one call of the MySQL library answers: it has to wait (status <> 0), or it is done; its error (the out parameter, or mysql_errno after a
    null result); whether the pointer it gives (connection, result, row) is not null; the row. *)
Record lib := Lib { l_wait : bool; l_err : Z; l_ok : bool; l_row : list cell }.
(** mysql_async_con.h:108-133. [m_cur]: in_process_ with its rows so far; [m_fetch]: result_row_, or mysql_errno where it is null; [m_errno]: err_no_,
    which nothing initialises; [m_run]: HandleState's loop is running; [m_gone]: destroyed. *)
Record conn := Conn { m_st : mst; m_queue : list query; m_cur : option (query * list (list string)); m_close : bool; m_db : string; m_ready : bool;
  m_ret : bool; m_fetch : list cell + Z; m_errno : Z; m_run : bool; m_gone : bool }.
(** What is observed: a session's callback with its code and rows, the client's notifications. *)
Inductive mev := VDone (id : nat) (code : Z) (rows : list (list string)) | VReady | VClosed.

Definition at_ (s : conn) (st : mst) (run : bool) : conn :=
  Conn st (m_queue s) (m_cur s) (m_close s) (m_db s) (m_ready s) (m_ret s) (m_fetch s) (m_errno s) run (m_gone s).
Definition set_cur (s : conn) (c : option (query * list (list string))) : conn :=
  Conn (m_st s) (m_queue s) c (m_close s) (m_db s) (m_ready s) (m_ret s) (m_fetch s) (m_errno s) (m_run s) (m_gone s).
Definition set_queue (s : conn) (l : list query) : conn :=
  Conn (m_st s) l (m_cur s) (m_close s) (m_db s) (m_ready s) (m_ret s) (m_fetch s) (m_errno s) (m_run s) (m_gone s).
Definition set_db (s : conn) (d : string) : conn :=
  Conn (m_st s) (m_queue s) (m_cur s) (m_close s) d (m_ready s) (m_ret s) (m_fetch s) (m_errno s) (m_run s) (m_gone s).
Definition set_ready (s : conn) (b : bool) : conn :=
  Conn (m_st s) (m_queue s) (m_cur s) (m_close s) (m_db s) b (m_ret s) (m_fetch s) (m_errno s) (m_run s) (m_gone s).
Definition set_close (s : conn) (b : bool) : conn :=
  Conn (m_st s) (m_queue s) (m_cur s) b (m_db s) (m_ready s) (m_ret s) (m_fetch s) (m_errno s) (m_run s) (m_gone s).
Definition set_ret (s : conn) (b : bool) : conn :=
  Conn (m_st s) (m_queue s) (m_cur s) (m_close s) (m_db s) (m_ready s) b (m_fetch s) (m_errno s) (m_run s) (m_gone s).
Definition set_fetch (s : conn) (f : list cell + Z) : conn :=
  Conn (m_st s) (m_queue s) (m_cur s) (m_close s) (m_db s) (m_ready s) (m_ret s) f (m_errno s) (m_run s) (m_gone s).

(** mysql_async_con.cc:222-234 IsFatalError: CR_UNKNOWN_ERROR 2000, CR_SERVER_GONE_ERROR 2006, CR_OUT_OF_MEMORY 2008, CR_SERVER_LOST 2013. *)
Definition IsFatalError (c : Z) : bool := ((c =? 2013) || (c =? 2000) || (c =? 2008) || (c =? 2006))%Z.
(** mysql_async_con.cc:380-390 DoneCurrentQuery; query_session.cc:43-48: the callback runs (here always one is set). *)
Definition DoneCurrentQuery (s : conn) (code : Z) : conn * list mev :=
  match m_cur s with None => (s, []) | Some (q, rows) => (set_cur s None, [VDone (q_id q) code rows]) end.
(** mysql_async_con.cc:505-526 clean_up, and the destructor 15-26: everything open is answered with -1. Callbacks that add queries meanwhile are in [clean_loop]. *)
Definition clean_up (s : conn) : conn * list mev :=
  let '(s1, e) := DoneCurrentQuery s (-1) in (set_queue s1 [], e ++ map (fun q => VDone (q_id q) (-1) []) (m_queue s)).
(** mysql_async_con.cc:344-352: the strings of a row. *)
Definition cell_text (c : cell) : string := match c with Some t => t | None => "NULL" end.
(** mysql_async_con.cc:70-89 go_next_state. *)
Definition go_next_state (s : conn) (a : lib) (wait_st next_st : mst) : conn := if l_wait a then at_ s wait_st false else at_ s next_st true.
(** 101-105, 111-115, 278-282, 292-296, 304-309: after an error the query is done and the connection closes or idles. *)
Definition failed (s : conn) (code : Z) : conn * list mev :=
  let '(s1, e) := DoneCurrentQuery s code in (at_ s1 (if IsFatalError code then CLOSE_START else CONNECTION_IDLE) true, e).
Definition quiet_ (s : conn) : outcome (conn * list mev) := Ok (s, []).

(** One round of HandleState's loop, mysql_async_con.cc:236-365 with 91-220; [a] answers the library call of the round, if there is one.
    [db0] is option_.dbname. *)
Definition iter (db0 : string) (s : conn) (a : lib) : outcome (conn * list mev) :=
  match m_st s with
  | CONNECT_INIT => CheckFail
  | CONNECT_START | CONNECT_WAIT => quiet_ (go_next_state (if l_wait a then s else set_ret s (l_ok a)) a CONNECT_WAIT CONNECT_DONE)
  | CONNECT_DONE =>
      if m_ret s then Ok (set_db (set_ready (at_ s CONNECTION_IDLE true) true) db0, [VReady])
      else quiet_ (set_ready (at_ s CLOSE_START true) false)
  | CLOSE_START | CLOSE_WAIT => quiet_ (go_next_state s a CLOSE_WAIT CLOSE_DONE)
  | CLOSE_DONE => let '(s1, e) := clean_up (set_ready s false) in Ok (at_ s1 CONNECT_DONE false, e ++ [VClosed])
  | CONNECTION_IDLE =>
      match m_queue s with
      | [] => quiet_ (if m_close s then at_ s CLOSE_START true else at_ s CONNECTION_IDLE false)
      | q :: qs =>
          match m_cur s with
          | Some _ => CheckFail
          | None => let s1 := set_cur (set_queue s qs) (Some (q, [])) in
              quiet_ (at_ s1 (if negb (q_db q =? "")%string && negb (q_db q =? m_db s)%string then SELECT_DB_START else QUERY_START) true)
          end
      end
  | SELECT_DB_START | SELECT_DB_WAIT =>
      match m_cur s with
      | None => CheckFail
      | Some _ => if negb (l_err a =? 0)%Z then Ok (failed s (l_err a)) else quiet_ (go_next_state s a SELECT_DB_WAIT SELECT_DB_DONE)
      end
  | SELECT_DB_DONE =>
      match m_cur s with
      | None => CheckFail
      | Some (q, _) =>
          let s1 := set_db s (q_db q) in
          if (q_sql q =? "")%string then let '(s2, e) := DoneCurrentQuery s1 0 in Ok (at_ s2 CONNECTION_IDLE true, e) else quiet_ (at_ s1 QUERY_START true)
      end
  | QUERY_START =>
      match m_cur s with
      | None => CheckFail
      | Some (q, _) =>
          if (q_sql q =? "")%string then let '(s2, e) := DoneCurrentQuery s (-9999) in Ok (at_ s2 CONNECTION_IDLE true, e)
          else if negb (l_err a =? 0)%Z then Ok (failed s (l_err a)) else quiet_ (go_next_state s a QUERY_WAIT QUERY_RESULT_READY)
      end
  | QUERY_WAIT =>
      match m_cur s with
      | None => CheckFail
      | Some _ => if negb (m_errno s =? 0)%Z then Ok (failed s (l_err a)) else quiet_ (go_next_state s a QUERY_WAIT QUERY_RESULT_READY)
      end
  | QUERY_RESULT_READY =>
      match m_cur s with
      | None => CheckFail
      | Some _ => if l_ok a then quiet_ (at_ s FETCH_ROW_START true) else Ok (failed s (l_err a))
      end
  | FETCH_ROW_START | FETCH_ROW_WAIT =>
      quiet_ (go_next_state (if l_wait a then s else set_fetch s (if l_ok a then inl (l_row a) else inr (l_err a))) a FETCH_ROW_WAIT FETCH_ROW_RESULT_READY)
  | FETCH_ROW_RESULT_READY =>
      match m_cur s with
      | None => CheckFail
      | Some (q, rows) =>
          match m_fetch s with
          | inr code => let '(s1, e) := DoneCurrentQuery s code in Ok (at_ s1 CONNECTION_IDLE true, e)
          | inl r => quiet_ (at_ (set_cur s (Some (q, rows ++ [map cell_text r]))) FETCH_ROW_START true)
          end
      end
  end.

(** Everything that can happen to a connection. The loop's rounds come one by one; between them only callbacks act, by adding queries. *)
Inductive mop := OConnect | OSyncConnect (ok : bool) | OQuery (q : query) | OFire | OClose | OSyncClose | OCheck (alive : bool) | ORound (a : lib) | ODestroy.
Definition waiting (st : mst) : bool := match st with CONNECT_WAIT | SELECT_DB_WAIT | QUERY_WAIT | FETCH_ROW_WAIT | CLOSE_WAIT => true | _ => false end.
Definition is_idle (st : mst) : bool := match st with CONNECTION_IDLE => true | _ => false end.
Definition is_init (st : mst) : bool := match st with CONNECT_INIT => true | _ => false end.
(** An operation that cannot happen in the state does nothing: connecting twice; events while nothing waits (fd_event_ is disabled,
    reset_wait_event 422-429, or removed); the user's other calls while the loop of the same thread runs. *)
Definition mstep (db0 : string) (s : conn) (o : mop) : outcome (conn * list mev) :=
  if m_gone s then quiet_ s
  else match o with
  | OConnect => if is_init (m_st s) then quiet_ (at_ s CONNECT_START true) else quiet_ s                             (* 528-532 *)
  | OSyncConnect ok => if is_init (m_st s) && ok then quiet_ (set_ready (at_ (set_ret s true) CONNECTION_IDLE false) true) else quiet_ s   (* 534-548 *)
  | OQuery q => let s1 := set_queue s (m_queue s ++ [q]) in                                                          (* 465-472 *)
      quiet_ (match m_cur s with None => if is_idle (m_st s) then at_ s1 CONNECTION_IDLE true else s1 | Some _ => s1 end)
  | OFire => if negb (m_run s) && waiting (m_st s) then quiet_ (at_ s (m_st s) true) else quiet_ s                  (* 392-411 *)
  | OClose => if m_run s then quiet_ s else quiet_ (set_close s true)                                                (* 550-557; in QUERY_START the loop runs *)
  | OSyncClose => if m_run s then quiet_ s else let '(s1, e) := clean_up s in Ok (set_ready (at_ s1 CLOSE_DONE false) false, e)   (* 559-567 *)
  | OCheck alive => if m_run s then quiet_ s else quiet_ (let s1 := set_ready s alive in if alive then s1 else set_close s1 true)   (* 494-503 *)
  | ORound a => if m_run s then iter db0 s a else quiet_ s
  | ODestroy => if m_run s then quiet_ s
      else let '(s1, e) := clean_up s in Ok (Conn (m_st s1) [] None (m_close s1) (m_db s1) false (m_ret s1) (m_fetch s1) (m_errno s1) false true, e)   (* 15-39 *)
  end.
Fixpoint mrun (db0 : string) (s : conn) (os : list mop) : outcome (conn * list mev) :=
  match os with
  | [] => quiet_ s
  | o :: os => obind (mstep db0 s o) (fun '(s, e) => obind (mrun db0 s os) (fun '(s, e') => Ok (s, e ++ e')))
  end.
(** 474-492 InitConnection of a fresh object; [g] is what the memory of err_no_ held. *)
Definition fresh (g : Z) : conn := Conn CONNECT_INIT [] None false "" false false (inr 0%Z) g false false.

(** A connection left to itself with a server: rounds take the server's answers where they call the library, events come when the loop waits. *)
Definition calls (s : conn) : bool :=
  match m_st s with
  | CONNECT_START | CONNECT_WAIT | SELECT_DB_START | SELECT_DB_WAIT | QUERY_WAIT | QUERY_RESULT_READY | FETCH_ROW_START | FETCH_ROW_WAIT | CLOSE_START | CLOSE_WAIT => true
  | QUERY_START => match m_cur s with Some (q, _) => negb (q_sql q =? "")%string | None => false end
  | _ => false
  end.
Definition auto (db0 : string) (s : conn) (script : list lib) : option (outcome (conn * list mev) * list lib) :=
  if m_run s then
    if calls s then match script with a :: script => Some (iter db0 s a, script) | [] => None end
    else Some (iter db0 s (Lib false 0 false []), script)
  else if waiting (m_st s) then Some (mstep db0 s OFire, script) else None.
Inductive leads (db0 : string) : conn -> list lib -> conn -> list mev -> list lib -> Prop :=
| leads_refl : forall s l, leads db0 s l s [] l
| leads_step : forall s l s1 e l1 s2 e' l2, auto db0 s l = Some (Ok (s1, e), l1) -> leads db0 s1 l1 s2 e' l2 -> leads db0 s l s2 (e ++ e') l2.

(** clean_up's loop over query_list_ (521-524) when callbacks add queries to the list: [again] gives the queries a callback adds; None: not finished
    within [fuel] rounds. *)
Fixpoint clean_loop (fuel : nat) (again : query -> list query) (l : list query) : option (list nat) :=
  match fuel, l with
  | _, [] => Some []
  | O, _ => None
  | S fuel, q :: l => match clean_loop fuel again (l ++ again q) with Some r => Some (q_id q :: r) | None => None end
  end.

(** query_session.cc:43-48 OnQueryDone: [cb] is finish_callback_; running a callback may set another one for the session ([sets]),
    but finish_callback_ is emptied after it. Gives the callbacks that ran and the one left in the session. *)
Definition OnQueryDone (cb : option nat) (sets : nat -> option nat) : list nat * option nat :=
  match cb with
  | Some c => let _left := match sets c with Some d => Some d | None => Some c end in ([c], None)
  | None => ([], None)
  end.

(** mysql_client_impl.cc:44-56 get_client over the connections' readiness; [i] is use_index_, an int that wraps and is converted to size_t for the
    remainder. Gives the index of the connection. *)
Definition wrap_int (x : Z) : Z := ((x + 2 ^ 31) mod 2 ^ 32 - 2 ^ 31)%Z.
Definition get_client (ready : list bool) (i : Z) : outcome (Z * option Z) :=
  match ready with
  | [] => UB
  | _ => let i := wrap_int (i + 1) in let k := ((i mod 2 ^ 64) mod Z.of_nat (List.length ready))%Z in
      Ok (i, if nth (Z.to_nat k) ready false then Some k else None)   (* con is not null, so that the loop ends *)
  end.
