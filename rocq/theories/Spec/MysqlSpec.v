(** The server's side of a conversation, and what users ask and get, for Model/Mysql.v. *)
From Coq Require Import String.
From Verif.Model Require Import Common Mysql.
Local Open Scope list_scope.

(** The queries a history asks for, and those that were called back, in order. *)
Definition asked (os : list mop) : list nat := flat_map (fun o => match o with OQuery q => [q_id q] | _ => [] end) os.
Definition answered (e : list mev) : list nat := flat_map (fun v => match v with VDone id _ _ => [id] | _ => [] end) e.
(** Calls that have to wait, any number of them. *)
Definition pauses (ws : list lib) : Prop := Forall (fun a => l_wait a = true /\ l_err a = 0%Z) ws.
(** A call that succeeds. *)
Definition succeeds (a : lib) : Prop := l_wait a = false /\ l_err a = 0%Z.
(** The rows of a result one after the other, then the end, with an error or without (0). *)
Inductive rows_script : list lib -> list (list cell) -> Z -> Prop :=
| rs_end : forall ws r e, pauses ws -> rows_script (ws ++ [Lib false e false r]) [] e
| rs_row : forall ws x r l rs e, pauses ws -> rows_script l rs e -> rows_script (ws ++ Lib false x true r :: l) (r :: rs) e.
(** A query answered by the server: it is accepted after [ws] pauses, has a result, and the rows. *)
Inductive reply_script (ws : list lib) : list lib -> list (list cell) -> Z -> Prop :=
| reply : forall a u l rs e, pauses ws -> succeeds a -> l_ok u = true -> rows_script l rs e -> reply_script ws (ws ++ a :: u :: l) rs e.

(** Closing the connection takes pauses and then succeeds. *)
Inductive close_script : list lib -> Prop := closes : forall ws a, pauses ws -> l_wait a = false -> close_script (ws ++ [a]).
(** A query's conversation on a connection whose database is [db]: the database is chosen first where the query names another one. *)
Definition other_db (db : string) (q : query) : bool := negb (String.eqb (q_db q) "") && negb (String.eqb (q_db q) db).
Inductive select_script (db : string) (q : query) : list lib -> Prop :=
| select_no : other_db db q = false -> select_script db q []
| select_yes : forall ws a, other_db db q = true -> pauses ws -> succeeds a -> select_script db q (ws ++ [a]).
Definition db_after (db : string) (q : query) : string := if other_db db q then q_db q else db.
(** [talk slow db qs script answers]: the server's side of a whole conversation; with [slow] the server may keep the client waiting when it gets a query. *)
Inductive talk (slow : bool) : string -> list query -> list lib -> list (Z * list (list cell)) -> Prop :=
| talk_end : forall db, talk slow db [] [] []
| talk_query : forall db q qs sel ws l rs e script answers, q_sql q <> ""%string -> select_script db q sel -> (slow = false -> ws = []) -> reply_script ws l rs e ->
    talk slow (db_after db q) qs script answers -> talk slow db (q :: qs) (sel ++ l ++ script) ((e, rs) :: answers).
(** What the user is to see of it. *)
Definition shown (qs : list query) (answers : list (Z * list (list cell))) : list mev :=
  map (fun '(q, (e, rs)) => VDone (q_id q) e (map (map cell_text) rs)) (combine qs answers).
(** The client asked for a connection again and again. *)
Fixpoint clients (n : nat) (ready : list bool) (i : Z) : list (option Z) :=
  match n with
  | O => []
  | S n => match get_client ready i with Ok (i, c) => c :: clients n ready i | _ => [] end
  end.
