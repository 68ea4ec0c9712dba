(** C75: what the HTTP codec adds to a message on its own. *)
From Coq Require Import String.
From Verif.Model Require Import Common Decimal Http.
From Verif.Spec Require Import RespSpec HttpSpec.
From Verif.Proofs Require Import Tac HttpHeaders HttpParse DecimalProofs HttpWire HttpSend HttpDefaults.
From Verif.Properties Require Import C59_C64_Http.
Open Scope Z_scope.
Notation length := List.length.

(** A request always carries Host, Connection and Accept-Encoding - the application's if it set them, otherwise the remote's
    name, the connection's mode and what the client can decode - and its url is never empty. *)
Theorem C75_request_defaults : forall gzip host m us rest,
  let m' := before_send_request gzip host m in
  built_with m us -> good_value host -> no_value us (bs "Content-Length") ->
  Forall (fun c => c <> 13) (m_method m) -> Forall (fun c => c <> 13) (m_url m) -> 0 <= m_minor m <= 9 ->
  Z.of_nat (length (m_body m')) < 2 ^ 64 -> (forall z, gzip (m_body m) = Some z -> Z.of_nat (length z) < 2 ^ 64) ->
  exists start hs, reads (request_to_buffer m' ++ rest) start hs (m_body m') rest /\ carries us hs /\
    (m_url m = [] -> request_line (m_method m) (bs "/") (m_minor m) start) /\
    (m_url m <> [] -> request_line (m_method m) (m_url m) (m_minor m) start) /\
    (no_value us (bs "Host") -> first_value hs (bs "Host") host) /\
    (no_value us (bs "Connection") -> first_value hs (bs "Connection") (bs (if m_alive m then "keep-alive" else "Close"))) /\
    (no_value us (bs "Accept-Encoding") -> first_value hs (bs "Accept-Encoding") (bs "deflate,gzip")).
Proof.
  intros gzip host m us rest m' [Hm Hu] Hh Hf Hme Hur Hmi Hl Hz.
  pose proof (before_request gzip (fun _ => None) host us m Hu Hm Hh (or_introl Hf) Hz) as X. cbv zeta in X. fold m' in X.
  destruct X as (e & G & Em & Ef & (S1 & S2 & S3 & _ & S5) & _).
  pose proof Hme as Hme'. pose proof Hur as Hur'. rewrite <- S1 in Hme'. rewrite <- S2 in Hur'. assert (Hmi' : 0 <= m_minor m') by (rewrite S3; lia).
  destruct (request_reads (us ++ e) m' rest G Em Ef Hl Hme' Hur' Hmi') as [R Ca].
  eexists _, (req_headers m'). split; [exact R|]. split; [eapply carries_prefix; eauto|].
  assert (GR : goodh (req_headers m')).
  { apply req_headers_good. rewrite Em. apply hins_good; [exact G|constructor|constructor]. }
  assert (L : lowered (m_headers m')) by (rewrite Em; apply hins_good; [exact G|constructor|constructor]).
  assert (RL : forall u, request_url m' = u -> request_line (m_method m) u (m_minor m) (m_method m' ++ bs " " ++ request_url m' ++ bs " HTTP/1." ++ udec (m_minor m'))).
  { intros u <-. rewrite S1, S3. exists (udec (m_minor m)). split; [apply udec_decimal; lia|reflexivity]. }
  split; [|split; [|split; [|split]]].
  - intro E. apply RL. unfold request_url. rewrite S2, E. reflexivity.
  - intro E. apply RL. unfold request_url. rewrite S2. destruct (m_url m); congruence.
  - intro N. apply first_value_assoc; [exact GR|apply good_name_nz, gn_host|]. unfold req_headers.
    rewrite assoc_app, assoc_find by exact L. unfold m'. rewrite (request_host gzip host us m Hu Hm N). reflexivity.
  - intro N. rewrite <- S5. apply (conn_header m' (ae_default m' ++ cl_default m' ++ ct_default m') L GR). apply (request_kept gzip host us m); auto using gn_conn.
  - intro N. apply (ae_header m' L GR). apply (request_kept gzip host us m); auto using gn_ae.
Qed.
Print Assumptions C75_request_defaults.

(** A response announces keep-alive exactly when the request it answers was on a connection kept alive (unless the
    application set Connection), and is compressed only with a coding the client offered, only if it is longer than 8096
    bytes and the application did not set a coding itself. *)
Theorem C75_response_defaults : forall gzip deflate reqmsg m us rest,
  let reqh := m_headers reqmsg in
  let m' := before_send_response gzip deflate reqh m in
  m_alive m = m_alive (new_response reqmsg) ->
  built_with m us -> no_value us (bs "Content-Length") -> In (m_code m) known_codes -> 0 <= m_minor m <= 1 ->
  Z.of_nat (length (m_body m')) < 2 ^ 64 ->
  exists w start hs, response_to_buffer m' = Ok w /\ reads (w ++ rest) start hs (m_body m') rest /\ carries us hs /\
    (no_value us (bs "Connection") -> first_value hs (bs "Connection") (bs (if m_alive reqmsg then "keep-alive" else "Close"))) /\
    (no_value us (bs "Content-Encoding") -> forall v, first_value hs (bs "Content-Encoding") v ->
       8096 < Z.of_nat (length (m_body m)) /\
       ((v = bs "gzip" /\ gzip (m_body m) = Some (m_body m') /\ occurs (bs "gzip") (get_header reqh (bs "Accept-Encoding"))) \/
        (v = bs "deflate" /\ deflate (m_body m) = Some (m_body m') /\ occurs (bs "deflate") (get_header reqh (bs "Accept-Encoding"))))) /\
    (m_body m' <> m_body m -> no_value us (bs "Content-Encoding") /\ exists v, first_value hs (bs "Content-Encoding") v).
Proof.
  intros gzip deflate reqmsg m us rest reqh m' Hal [Hm Hu] Hf Hc Hmi Hl. change (m_alive (new_response reqmsg)) with (m_alive reqmsg) in Hal.
  pose proof (before_response gzip deflate reqh us m Hu Hm (or_introl Hf)) as X. cbv zeta in X. fold m' in X.
  destruct X as (e & G & Em & Ef & (_ & _ & S1 & S2 & S5) & Co).
  destruct (head_line_known (m_code m) (m_minor m) Hc Hmi) as (start & A & B & C). rewrite <- S1, <- S2 in A.
  destruct (response_reads (us ++ e) m' start rest G Em Ef Hl C A) as (w & E & R & Ca).
  exists w, start, (resp_headers m'). split; [exact E|]. split; [exact R|]. split; [eapply carries_prefix; eauto|].
  assert (L : lowered (m_headers m')) by (rewrite Em; apply hins_good; [exact G|constructor|constructor]).
  assert (GR : goodh (resp_headers m')).
  { apply resp_headers_good. rewrite Em. apply hins_good; [exact G|constructor|constructor]. }
  split; [|split].
  - intro N. rewrite <- Hal, <- S5. apply (conn_header m' (cl_default m' ++ ct_default m') L GR).
    apply (response_kept gzip deflate reqh us m); auto using gn_conn.
  - intros N v Hv. apply (response_coding gzip deflate reqh us m v Hu Hm N). apply resp_ce; assumption.
  - intro D. destruct Co as [[X _]|(N & _ & [[_ F]|[_ F]])]; [congruence|..]; (split; [exact N|]); eexists; apply Ca; try exact F; apply good_name_nz, gn_ce.
Qed.
Print Assumptions C75_response_defaults.

(** The hypotheses are met by the message of C64's example. *)
Example C75_example : exists us, built_with ex_msg us /\ no_value us (bs "Connection") /\ no_value us (bs "Content-Encoding") /\
  no_value us (bs "Content-Length") /\ m_alive ex_msg = m_alive (new_response (mkmsg 1 1 true [] [] 0 [] [])).
Proof.
  exists [(bs "X-Id", bs "7")]. destruct C64_example as (_ & A & B & C & _). split; [exact A|].
  split; [constructor; [|constructor]; intro X; apply ci_len in X; vm_compute in X; discriminate|]. auto.
Qed.
