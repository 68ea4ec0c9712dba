(** C03, C04: the line codec. *)
From Verif.Model Require Import Common IOBuffer LineCodec.
From Verif.Spec Require Import LineSpec.
From Verif.Proofs Require LineProofs.

(** Whatever the fragmentation: the delivered lines re-joined with CRLF, followed by the unconsumed input,
    are exactly the received bytes, and every delivered line ends at the first CRLF after its start. *)
Theorem C03_line_lossless : forall chunks,
  exists lines b, line_run new_buf chunks = Ok (lines, b) /\
    concat chunks = frames lines (as_string b) /\ Forall is_line lines.
Proof. exact LineProofs.line_lossless. Qed.
Print Assumptions C03_line_lossless.

(** If the peer's stream is the lines [sent] plus an unfinished tail, the lines delivered are an initial
    segment of [sent], and the rest is still waiting unharmed in the buffer. *)
Theorem C03_line_in_order : forall chunks sent tail,
  concat chunks = frames sent tail -> Forall is_line sent -> has_crlf tail = false ->
  exists lines b more, line_run new_buf chunks = Ok (lines, b) /\ sent = lines ++ more /\
    as_string b = frames more tail.
Proof. exact LineProofs.line_prefix. Qed.
Print Assumptions C03_line_in_order.

(** End to end: bodies without CR LF, each sent with SendMessage, in any fragmentation: the receiver delivers an
    initial segment of them and the rest waits unharmed, still one frame each. *)
Theorem C03_sent_lines_arrive : forall chunks bodies,
  concat chunks = concat (map line_encode bodies) -> Forall (fun m => has_crlf m = false) bodies ->
  exists lines b more, line_run new_buf chunks = Ok (lines, b) /\ bodies = lines ++ more /\
    as_string b = concat (map line_encode more).
Proof.
  assert (NL : forall m, has_crlf m = false -> is_line m).
  { unfold is_line. induction m as [|a m IH]; [reflexivity|]. cbn [has_crlf app]. intro H. apply orb_false_iff in H as [H1 H2].
    rewrite (IH H2). destruct m as [|c m]; cbn [app]; [|now rewrite H1]. destruct (a =? 13)%Z; reflexivity. }
  assert (FR : forall ms, frames ms [] = concat (map line_encode ms)) by (intro ms; unfold frames; now rewrite app_nil_r).
  intros chunks bodies E F. destruct (C03_line_in_order chunks bodies []) as (ls & b & more & A & B & C).
  - now rewrite FR.
  - eapply Forall_impl; [|exact F]. exact NL.
  - reflexivity.
  - exists ls, b, more. now rewrite <- FR.
Qed.
Print Assumptions C03_sent_lines_arrive.

(** Encoding of the lines "ab" and "" as the peer's SendMessage does, received in three fragments that cut a CRLF. *)
Example C03_nonvacuous :
  let sent := [[97; 98]; []]%Z in
  concat [[97; 98; 13]; [10; 13]; [10; 99]]%Z = frames sent [99]%Z /\ Forall is_line sent /\
  concat (map line_encode sent) = frames sent [].
Proof. cbn. repeat split; repeat constructor. Qed.

(** C04 (full statement): after every read event no complete line is left in the buffer.
    Refuted: two lines arriving in one segment; only one is delivered per read event. *)
Definition C04_prompt_statement : Prop := forall chunks lines b,
  line_run new_buf chunks = Ok (lines, b) -> has_crlf (as_string b) = false.
Theorem C04_line_prompt_refuted : ~ C04_prompt_statement.
Proof. exact LineProofs.prompt_refuted. Qed.
Print Assumptions C04_line_prompt_refuted.

(** What holds: when each read event completes at most one line (every chunk's new CRLFs are at most one,
    i.e. the number of lines received never exceeds the number of events so far), nothing waits. *)
Theorem C04_line_prompt_partial : forall chunks lines b,
  (forall k, count_crlf (concat (firstn (S k) chunks)) <= S (count_crlf (concat (firstn k chunks)))) ->
  line_run new_buf chunks = Ok (lines, b) ->
  has_crlf (as_string b) = false /\ length lines = count_crlf (concat chunks).
Proof. exact LineProofs.prompt_partial. Qed.
Print Assumptions C04_line_prompt_partial.

Example C04_nonvacuous : forall k, let chunks := [[97; 13]; [10; 98]; [13]; [10; 13]]%Z in
  count_crlf (concat (firstn (S k) chunks)) <= S (count_crlf (concat (firstn k chunks))).
Proof. intro k. do 5 (destruct k as [|k]; [cbn; lia|]). cbn. lia. Qed.
