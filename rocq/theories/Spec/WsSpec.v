(** Specification vocabulary for websocket streams. *)
From Verif.Model Require Import Common Websocket.
Open Scope Z_scope.

(** A received buffer lives in user space and does not wrap around the address space. *)
Definition addr_ok (c : Z * list Z) : Prop := 0 <= fst c /\ fst c + Z.of_nat (length (snd c)) < 2 ^ 63.

(** RFC 6455 5.2: the most significant bit of a 64-bit length must be 0. *)
Definition length_sane (e : ws_ev) : Prop := match e with EHeader _ n => n < 2 ^ 63 | _ => True end.

(** The frames in a sequence of parser callbacks: flags, announced length and payload of every finished
    frame, and the frame still being received. *)
Definition collect_step (s : list (Z * Z * list Z) * option (Z * Z * list Z)) (e : ws_ev) :=
  let '(fs, cur) := s in
  match e with
  | EHeader f n => (fs, Some (f, n, []))
  | EBody d => (fs, match cur with Some (f, n, b) => Some (f, n, b ++ d) | None => None end)
  | EEnd _ => (match cur with Some x => fs ++ [x] | None => fs end, None)
  end.
Definition collect (es : list ws_ev) := fold_left collect_step es ([], None).

(** A frame as the sender describes it. *)
Record frame := mkframe { f_fin : bool; f_op : Z; f_mask : option (list Z); f_data : list Z }.
Definition frame_ok (x : frame) : Prop :=
  0 <= f_op x < 16 /\ Forall is_byte (f_data x) /\ Z.of_nat (length (f_data x)) < 2 ^ 31 - 14 /\
  match f_mask x with Some m => length m = 4%nat /\ Forall is_byte m | None => True end.
Definition frame_flags (x : frame) : Z :=
  f_op x + (if f_fin x then 16 else 0) + (match f_mask x with Some _ => 32 | None => 0 end).
Definition frame_bytes (x : frame) : list Z :=
  ws_build_frame (f_data x) (match f_mask x with Some m => m | None => [0;0;0;0] end)
                 (match f_mask x with Some _ => true | None => false end) (f_op x) (f_fin x).

(** ** Messages as fragment sequences *)

(** A message: opcode and its fragments (mask, payload piece); the first fragment is given separately. *)
Record message := mkmsg { g_op : Z; g_first : option (list Z) * list Z; g_rest : list (option (list Z) * list Z) }.
Definition g_payload (g : message) : list Z := snd (g_first g) ++ concat (map snd (g_rest g)).

Fixpoint conts (ps : list (option (list Z) * list Z)) : list frame :=
  match ps with
  | [] => []
  | (m, d) :: ps' => mkframe (match ps' with [] => true | _ => false end) 0 m d :: conts ps'
  end.
(** RFC 6455 5.4: opcode on the first frame, continuation opcode on the others, FIN on the last only. *)
Definition msg_frames (g : message) : list frame :=
  mkframe (match g_rest g with [] => true | _ => false end) (g_op g) (fst (g_first g)) (snd (g_first g)) :: conts (g_rest g).

Definition is_control (x : frame) : bool := 8 <=? f_op x.
Definition is_data_op (op : Z) : Prop := op = 1 \/ op = 2.

(** The data messages an application received. *)
Fixpoint data_deliveries (acts : list ws_act) : list (Z * list Z) :=
  match acts with
  | WDeliver op d :: l => if op <? 8 then (op, d) :: data_deliveries l else data_deliveries l
  | _ :: l => data_deliveries l
  | [] => []
  end.
