(** What a user of a redis URL with a password and a database expects of the start of a connection. *)
From Verif.Model Require Import Common Resp RedisInit.
From Verif.Spec Require Import RespSpec.
Open Scope Z_scope.

(** The commands the server must get first: AUTH password and SELECT db, each only if given, as RESP arrays of bulk
    strings ("AUTH" is 65 85 84 72, "SELECT" 83 69 76 69 67 84). *)
Definition init_commands (passwd db : list Z) : list rval :=
  (if list_eq_dec Z.eq_dec passwd [] then [] else [RArray [RBulk [65; 85; 84; 72]; RBulk passwd]]) ++
  (if list_eq_dec Z.eq_dec db [] then [] else [RArray [RBulk [83; 69; 76; 69; 67; 84]; RBulk db]]).

(** The server accepts a command by a simple string that begins with OK. *)
Definition accepted (v : rval) : Prop := exists rest, v = RString (79 :: 75 :: rest).
