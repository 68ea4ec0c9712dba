(** Independent vocabulary for the TLS channel, TLS contexts and protocol selection. *)
From Verif.Model Require Import Common TlsChannel TlsCtx.
Local Open Scope nat_scope.

Definition prefix_of (p l : list Z) : Prop := exists r, l = p ++ r.
(** What the application passed to Send while the connection was alive. *)
Fixpoint sent (moving : bool) (c : tls) (os : list op) : list Z :=
  match os with
  | [] => []
  | o :: os => (if t_dead c then [] else match o with OSend d _ _ _ _ => d | _ => [] end) ++ sent moving (do_op moving c o) os
  end.
(** The plaintext OpenSSL hands over in one HandleRead: all chunks up to the first answer that is neither data nor EINTR. *)
Fixpoint plaintext (ks : list ranswer) : list Z :=
  match ks with
  | [] => []
  | RAns _ (RData b bs) :: ks => (b :: bs) ++ plaintext ks
  | RAns _ (RFail (ASyscall EIntr)) :: ks => plaintext ks
  | _ => []
  end.
(** The answer that ends the reading; a finished script stands for "try again when readable". *)
Fixpoint ending (ks : list ranswer) : ares :=
  match ks with
  | [] => AWantRead
  | RAns _ (RData _ _) :: ks | RAns _ (RFail (ASyscall EIntr)) :: ks => ending ks
  | RAns _ (RFail r) :: _ => r
  end.
(** Answers that ask for patience only: done, wait for the socket, interrupted. *)
Definition mild (r : ares) : Prop := match r with ADone | AWantRead | AWantWrite | ASyscall EAgain | ASyscall EIntr => True | _ => False end.
Definition mild_r (r : rres) : Prop := match r with RData _ _ => True | RFail ADone => False | RFail r => mild r end.
Definition mild_op (o : op) : Prop :=
  match o with
  | OSend _ _ _ e ks | OWrite e ks => e <> EOther /\ (forall x, In x ks -> mild (a_res x))
  | ORead e ks => forall x, In x ks -> mild_r (r_res x)
  end.
(** The socket never refuses to take data: no "would block" while writing. *)
Definition unblocked (o : op) : Prop :=
  match o with
  | OSend _ _ _ _ ks | OWrite _ ks => forall x, In x ks -> a_res x = ADone \/ a_res x = AWantRead
  | ORead _ _ => True
  end.
(** Socket events: reading and writing, no Send. *)
Definition events_only (o : op) : Prop := match o with OSend _ _ _ _ _ => False | _ => True end.
(** Received plaintext of a whole history. *)
Fixpoint received (moving : bool) (c : tls) (os : list op) : list Z :=
  match os with
  | [] => []
  | o :: os => (if t_dead c then [] else match o with ORead _ ks => plaintext ks | _ => [] end) ++ received moving (do_op moving c o) os
  end.

(** ALPN lists: each name preceded by its length. *)
Definition good_name (n : list Z) : Prop := 0 < length n <= 255.
Definition encode (names : list (list Z)) : list Z := concat (map (fun n => Z.of_nat (length n) :: n) names).
(** "h2", "h2-16", "h2-14". *)
Definition h2 : list Z := [104; 50]%Z.
Definition h2_16 : list Z := [104; 50; 45; 49; 54]%Z.
Definition h2_14 : list Z := [104; 50; 45; 49; 52]%Z.
(** The selected name: [l] bytes of the list from [off] on. *)
Definition name_at (inp : list Z) (r : nat * Z) : list Z := firstn (Z.to_nat (snd r)) (skipn (fst r) inp).
