(** Reading a socket. *)
From Verif.Model Require Import Common IOBuffer TcpChannel.

(** The bytes a sequence of read() results offers before the first result other than data or EINTR. *)
Fixpoint got_of (ks : list kread) : list Z :=
  match ks with
  | KGot b bs :: ks' => (b :: bs) ++ got_of ks'
  | KRFail EIntr :: ks' => got_of ks'
  | _ => []
  end.
