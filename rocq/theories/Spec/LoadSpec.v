(** Independent vocabulary for tables loaded from files. *)
From Verif.Model Require Import Common Decimal SourceLoad.
From Verif.Spec Require Import StrSpec.
Local Open Scope Z_scope.

(** A text file: every line is followed by a newline. *)
Definition file_of (lines : list (list Z)) : list Z := concat (map (fun l => l ++ [10]) lines).
(** What a column's text means. *)
Definition reads (json_ok : list Z -> bool) (k : kind) (text : list Z) (v : value) : Prop :=
  match k with
  | KInt => exists n, - 2 ^ 31 <= n < 2 ^ 31 /\ text = sdec n /\ v = VInt n
  | KDouble => v = VDouble text
  | KString => v = VString text
  | KBool => (text = s_true /\ v = VBool true) \/ (text = [102; 97; 108; 115; 101] /\ v = VBool false)
  | KJson => json_ok text = true /\ v = VJson text
  end.
(** A row that can be written: as many texts as columns, readable ones in the known columns, none with the delimiter in it. *)
Definition row_ok (json_ok : list Z -> bool) (cf : config) (d : Z) (row : list (list Z)) : Prop :=
  length row = length (header cf) /\ Forall (fun t => ~ In d t) row /\
  forall i h c t, nth_error (header cf) i = Some h -> find_column (schemes cf) h = Some c -> nth_error row i = Some t -> exists v, reads json_ok (c_kind c) t v.
(** The record has exactly the known columns, with what their texts mean. *)
Definition describes (json_ok : list Z -> bool) (cf : config) (row : list (list Z)) (r : record) : Prop :=
  (forall i h c t, nth_error (header cf) i = Some h -> find_column (schemes cf) h = Some c -> nth_error row i = Some t ->
     exists v, member r h = Some v /\ reads json_ok (c_kind c) t v) /\
  (forall h, ~ In h (header cf) \/ find_column (schemes cf) h = None -> member r h = None).
(** The last row whose column [p] is [k]. *)
Definition last_with (p : nat) (k : list Z) (rows : list (list (list Z))) : option (list (list Z)) :=
  find (fun row => StrUtil.beq (nth p row []) k) (rev rows).
