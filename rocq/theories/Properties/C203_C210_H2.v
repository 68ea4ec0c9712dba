(** C203-C210: HTTP/2 server connections (net_io/codec/http/h2/h2_codec_service.cc). *)
From Coq Require Import String.
From Verif.Model Require Import Common Http StrUtil H2Token H2Conn.
From Verif.Spec Require Import H2Spec.
From Verif.Proofs Require Import Tac H2Proofs H2Proofs2 H2Proofs3 H2Proofs4.
Local Open Scope Z_scope.

(** A server under test: answers with the length of the body, in ASCII, and echoes the body. *)
Definition echo (q : request) : response := Resp 200 [(bs "server"%string, bs "ltio"%string)] (48 + Z.of_nat (List.length (q_body q)) :: q_body q).
Definition get_fields : list (list Z * list Z) :=
  [(bs ":method"%string, bs "GET"%string); (bs ":scheme"%string, bs "https"%string); (bs ":path"%string, bs "/a"%string); (bs ":authority"%string, bs "h"%string);
   (bs "accept"%string, bs "*/*"%string)].
Definition post_fields : list (list Z * list Z) := (bs ":method"%string, bs "POST"%string) :: tl get_fields.
(** Two requests interleaved on streams 1 and 3. *)
Definition two : list event :=
  [EBegin 1; EHeader 1 (bs ":method"%string) (bs "POST"%string); EBegin 3; EHeader 3 (bs ":path"%string) (bs "/b"%string);
   EHeaders 1 false 100; EChunk 1 [1; 2]; EHeaders 3 true 100; EChunk 1 [3]; EData 1 true 100; EClose 1; EClose 3].

(** * C203: the handler sees each request exactly once, with all its fields and its whole body. *)
Definition C203_statement : Prop := forall handler sid es fields frames last lim lim' c, Forall (fun f => lower_case (fst f)) fields ->
  on_stream sid es = with_body sid fields lim frames last lim' -> run handler new_h2 es = Ok c -> h_dead c = false ->
  exists q, requests sid c = [q] /\ describes q fields (body_of frames ++ concat last).
Theorem C203_statement_refuted : ~ C203_statement.
Proof.
  intros S. destruct (run echo new_h2 (with_body 1 post_fields 100 [] [[7; 8]] 100)) as [c| |] eqn:R; try (vm_compute in R; discriminate).
  destruct (S echo 1 (with_body 1 post_fields 100 [] [[7; 8]] 100) post_fields [] [[7; 8]] 100%nat 100%nat c) as (q & Q & _).
  - repeat constructor; discriminate.
  - reflexivity.
  - exact R.
  - vm_compute in R. injection R as <-. reflexivity.
  - vm_compute in R. injection R as <-. discriminate Q.
Qed.
(** Without a body: exactly once, complete, whatever happens on other streams meanwhile. *)
Theorem C203_no_body_partial : forall handler sid es fields lim c, Forall (fun f => lower_case (fst f)) fields ->
  on_stream sid es = no_body sid fields lim -> run handler new_h2 es = Ok c -> h_dead c = false ->
  exists q, requests sid c = [q] /\ describes q fields [].
Proof.
  intros handler sid es fields lim c L O R D.
  assert (NP : forall e, In e (on_stream sid es) -> pushes e = false).
  { rewrite O. unfold no_body, head. intros e [<-|I]; [reflexivity|]. apply in_app_or in I as [I|[<-|[]]]; [|reflexivity].
    apply in_map_iff in I as (f & <- & _). reflexivity. }
  destruct (run_look handler sid es NP _ _ R settled_new D) as [_ K]. rewrite O, look_new in K. unfold no_body in K. rewrite fold_head in K.
  exists (fill fields new_request). split; [exact (f_equal v_reqs K)|]. apply fill_describes; [exact L|]. rewrite chunk_nil. reflexivity.
Qed.
(** With a body: exactly twice; first without the body, when the header block is complete. *)
Theorem C203_with_body_partial : forall handler sid es fields frames last lim lim' c, Forall (fun f => lower_case (fst f)) fields ->
  on_stream sid es = with_body sid fields lim frames last lim' -> run handler new_h2 es = Ok c -> h_dead c = false ->
  exists q q', requests sid c = [q; q'] /\ describes q fields [] /\ describes q' fields (body_of frames ++ concat last).
Proof.
  intros handler sid es fields frames last lim lim' c L O R D.
  assert (NP : forall e, In e (on_stream sid es) -> pushes e = false).
  { rewrite O. unfold with_body, head, data_frame. intros e I. repeat (apply in_app_or in I as [I|I]).
    - destruct I as [<-|I]; [reflexivity|]. apply in_app_or in I as [I|[<-|[]]]; [|reflexivity]. apply in_map_iff in I as (f & <- & _). reflexivity.
    - apply in_concat in I as (l & I & J). apply in_map_iff in I as (f & <- & _). apply in_app_or in J as [J|[<-|[]]]; [|reflexivity].
      apply in_map_iff in J as (b & <- & _). reflexivity.
    - apply in_map_iff in I as (b & <- & _). reflexivity.
    - destruct I as [<-|[]]. reflexivity. }
  destruct (run_look handler sid es NP _ _ R settled_new D) as [_ K]. rewrite O, look_new, fold_with_body in K.
  exists (fill fields new_request), (on_chunk (body_of frames ++ concat last) (fill fields new_request)). split; [exact (f_equal v_reqs K)|].
  split; (apply fill_describes; [exact L|]); [rewrite chunk_nil|]; reflexivity.
Qed.
(** With trailers: once, and never with its body. *)
Theorem C203_trailers_partial : forall handler sid es fields frames lim c, Forall (fun f => lower_case (fst f)) fields ->
  on_stream sid es = with_trailers sid fields lim frames -> run handler new_h2 es = Ok c -> h_dead c = false ->
  exists q, requests sid c = [q] /\ describes q fields [].
Proof.
  intros handler sid es fields frames lim c L O R D.
  assert (NP : forall e, In e (on_stream sid es) -> pushes e = false).
  { rewrite O. unfold with_trailers, head, data_frame. intros e I. repeat (apply in_app_or in I as [I|I]).
    - destruct I as [<-|I]; [reflexivity|]. apply in_app_or in I as [I|[<-|[]]]; [|reflexivity]. apply in_map_iff in I as (f & <- & _). reflexivity.
    - apply in_concat in I as (l & I & J). apply in_map_iff in I as (f & <- & _). apply in_app_or in J as [J|[<-|[]]]; [|reflexivity].
      apply in_map_iff in J as (b & <- & _). reflexivity.
    - destruct I as [<-|[]]. reflexivity. }
  destruct (run_look handler sid es NP _ _ R settled_new D) as [_ K]. rewrite O, look_new in K. destruct (fold_trailers handler sid fields lim frames) as [st F]. rewrite F in K.
  exists (fill fields new_request). split; [exact (f_equal v_reqs K)|]. apply fill_describes; [exact L|]. rewrite chunk_nil. reflexivity.
Qed.
Example C203_case : exists c, run echo new_h2 two = Ok c /\ h_dead c = false /\
  map q_url (requests 3 c) = [bs "/b"%string] /\ map q_body (requests 1 c) = [[]; [1; 2; 3]] /\ map q_method (requests 1 c) = [bs "POST"%string; bs "POST"%string].
Proof. vm_compute. eexists. repeat split. Qed.
Example C203_fields_case : exists c, run echo new_h2 (no_body 1 get_fields 100) = Ok c /\ h_dead c = false /\ Forall (fun f => lower_case (fst f)) get_fields.
Proof. eexists. split; [vm_compute; reflexivity|]. split; [reflexivity|]. repeat constructor; discriminate. Qed.

(** * C204: every header name the server knows, and no other, is recognised. *)
Theorem C204_lookup_token : forall name t, lookup_token name = Some t <-> exists s, In (s, t) token_names /\ name = bs s.
Proof.
  intros name t. split; intros H.
  - apply lookup_sound in H. unfold names in H. apply in_map_iff in H as ((s & t') & E & I). injection E as <- <-. eauto.
  - destruct H as (s & I & ->). apply lookup_complete. unfold names. apply in_map_iff. exists (s, t). split; [reflexivity|exact I].
Qed.
Example C204_case : lookup_token (bs "content-type"%string) = Some HD_CONTENT_TYPE /\ lookup_token (bs "content-typo"%string) = None /\ lookup_token [] = None.
Proof. vm_compute. tauto. Qed.

(** * C205: streams do not disturb each other: what the handler sees and what the client gets on a stream is determined by
      the events of that stream alone, as long as the connection lives. *)
Theorem C205_streams_independent : forall handler sid es es' c c', (forall e, In e (on_stream sid es) -> pushes e = false) ->
  on_stream sid es = on_stream sid es' -> run handler new_h2 es = Ok c -> run handler new_h2 es' = Ok c' -> h_dead c = false -> h_dead c' = false ->
  requests sid c = requests sid c' /\ answer sid c = answer sid c'.
Proof.
  intros handler sid es es' c c' NP O R R' D D'.
  destruct (run_look handler sid es NP _ _ R settled_new D) as [_ K]. rewrite O in NP. destruct (run_look handler sid es' NP _ _ R' settled_new D') as [_ K'].
  rewrite O in K. rewrite <- K' in K. split; [exact (f_equal v_reqs K)|exact (f_equal v_ans K)].
Qed.
(** The requests of a stream come from events of that stream: a stream without events is never seen. *)
Theorem C205_no_phantom : forall handler sid es c, on_stream sid es = [] -> run handler new_h2 es = Ok c -> h_dead c = false -> requests sid c = [] /\ answer sid c = [].
Proof.
  intros handler sid es c O R D. destruct (run_look handler sid es ltac:(rewrite O; intros e []) _ _ R settled_new D) as [_ K]. rewrite O in K.
  split; [exact (f_equal v_reqs K)|exact (f_equal v_ans K)].
Qed.
Example C205_case : let alone := on_stream 3 two in alone <> two /\ exists c c', run echo new_h2 two = Ok c /\ run echo new_h2 alone = Ok c' /\
  answer 3 c = answer 3 c' /\ answer 3 c = [FHeaders 3 200 [(bs "server"%string, bs "ltio"%string)] false; FData 3 [48] true].
Proof. split; [discriminate|]. vm_compute. eexists. eexists. repeat split. Qed.

(** * C206: the client gets the response to the request it made. *)
Definition C206_statement : Prop := forall handler sid es fields frames last lim lim' c,
  Forall (fun f => lower_case (fst f)) fields -> (forall q, plain (handler q)) ->
  on_stream sid es = with_body sid fields lim frames last lim' -> run handler new_h2 es = Ok c -> h_dead c = false ->
  exists q, describes q fields (body_of frames ++ concat last) /\ answer sid c = carries sid (handler q) (h2_fields (r_headers (handler q))).
Lemma echo_plain : forall q, plain (echo q).
Proof.
  intros q f [<-|[]]. cbn [fst]. split; intros l L; destruct l; try congruence; split; intros X; apply (f_equal (fun x => hd 0 x)) in X; vm_compute in X; discriminate.
Qed.
Theorem C206_statement_refuted : ~ C206_statement.
Proof.
  intros S. destruct (run echo new_h2 (with_body 1 post_fields 100 [] [[7; 8]] 100)) as [c| |] eqn:R; try (vm_compute in R; discriminate).
  destruct (S echo 1 (with_body 1 post_fields 100 [] [[7; 8]] 100) post_fields [] [[7; 8]] 100%nat 100%nat c) as (q & B & Q).
  - repeat constructor; discriminate.
  - exact echo_plain.
  - reflexivity.
  - exact R.
  - vm_compute in R. injection R as <-. reflexivity.
  - assert (C : answer 1 c = [FHeaders 1 200 [(bs "server"%string, bs "ltio"%string)] false; FData 1 [48] true; FRst 1]).
    { vm_compute in R. injection R as <-. reflexivity. }
    rewrite C in Q. discriminate Q.
Qed.
Theorem C206_no_body_partial : forall handler sid es fields lim c, Forall (fun f => lower_case (fst f)) fields -> (forall q, plain (handler q)) ->
  on_stream sid es = no_body sid fields lim -> run handler new_h2 es = Ok c -> h_dead c = false ->
  exists q, describes q fields [] /\ requests sid c = [q] /\ answer sid c = carries sid (handler q) (h2_fields (r_headers (handler q))).
Proof.
  intros handler sid es fields lim c L P O R D.
  assert (NP : forall e, In e (on_stream sid es) -> pushes e = false).
  { rewrite O. unfold no_body, head. intros e [<-|I]; [reflexivity|]. apply in_app_or in I as [I|[<-|[]]]; [|reflexivity].
    apply in_map_iff in I as (f & <- & _). reflexivity. }
  destruct (run_look handler sid es NP _ _ R settled_new D) as [_ K]. rewrite O, look_new in K. unfold no_body in K. rewrite fold_head in K.
  exists (fill fields new_request). split; [apply fill_describes; [exact L|]; rewrite chunk_nil; reflexivity|]. split; [exact (f_equal v_reqs K)|].
  apply (f_equal v_ans) in K. unfold answer_to, fields_of in K. rewrite nvs_plain in K by apply P. exact K.
Qed.
(** With a body: the response to the request without its body, and then the stream is reset. *)
Theorem C206_with_body_partial : forall handler sid es fields frames last lim lim' c, Forall (fun f => lower_case (fst f)) fields -> (forall q, plain (handler q)) ->
  on_stream sid es = with_body sid fields lim frames last lim' -> run handler new_h2 es = Ok c -> h_dead c = false ->
  exists q, describes q fields [] /\ answer sid c = carries sid (handler q) (h2_fields (r_headers (handler q))) ++ [FRst sid].
Proof.
  intros handler sid es fields frames last lim lim' c L P O R D.
  assert (NP : forall e, In e (on_stream sid es) -> pushes e = false).
  { rewrite O. unfold with_body, head, data_frame. intros e I. repeat (apply in_app_or in I as [I|I]).
    - destruct I as [<-|I]; [reflexivity|]. apply in_app_or in I as [I|[<-|[]]]; [|reflexivity]. apply in_map_iff in I as (f & <- & _). reflexivity.
    - apply in_concat in I as (l & I & J). apply in_map_iff in I as (f & <- & _). apply in_app_or in J as [J|[<-|[]]]; [|reflexivity].
      apply in_map_iff in J as (b & <- & _). reflexivity.
    - apply in_map_iff in I as (b & <- & _). reflexivity.
    - destruct I as [<-|[]]. reflexivity. }
  destruct (run_look handler sid es NP _ _ R settled_new D) as [_ K]. rewrite O, look_new, fold_with_body in K.
  exists (fill fields new_request). split; [apply fill_describes; [exact L|]; rewrite chunk_nil; reflexivity|].
  apply (f_equal v_ans) in K. unfold answer_to, fields_of in K. rewrite nvs_plain in K by apply P. exact K.
Qed.
Example C206_case : exists c, run echo new_h2 (no_body 5 get_fields 100) = Ok c /\ h_dead c = false /\
  answer 5 c = [FHeaders 5 200 [(bs "server"%string, bs "ltio"%string)] false; FData 5 [48] true].
Proof. vm_compute. eexists. repeat split. Qed.

(** * C207: the response's header fields reach the client, except "connection" and "content-length". *)
Definition C207_statement : Prop := forall hs, nvs hs = Ok (h2_fields hs).
Theorem C207_statement_refuted : ~ C207_statement.
Proof. intros S. assert (H := S [(bs "content"%string, [1])]). vm_compute in H. discriminate H. Qed.
(** A field whose name begins with "connection" makes the comparison read past the end of a string literal. *)
Theorem C207_overread_partial : forall n v hs, n <> [] -> nvs ((s_connection ++ n, v) :: hs) = UB /\ nvs ((s_content_length ++ n, v) :: hs) = UB.
Proof.
  intros [|a n] v hs N; [congruence|]. split.
  - vm_compute. reflexivity.
  - vm_compute. reflexivity.
Qed.
(** A field whose name is a beginning of one of the two is dropped. *)
Theorem C207_prefix_dropped_partial : forall n n' v hs, n ++ n' = s_connection -> nvs ((n, v) :: hs) = nvs hs.
Proof.
  intros n n' v hs E. cbn [nvs]. assert (I : IgnoreCaseEquals n s_connection = Ok true); [|rewrite I; reflexivity].
  rewrite <- E. clear E. induction n as [|a n IH]; [reflexivity|]. cbn. rewrite Z.eqb_refl. exact IH.
Qed.
Theorem C207_plain_partial : forall r, plain r -> nvs (r_headers r) = Ok (h2_fields (r_headers r)).
Proof. exact nvs_plain. Qed.
Example C207_case : nvs [(bs "content-type"%string, [1]); (bs "Content-Length"%string, [50]); (bs "x"%string, [2]); (bs "CONNECTION"%string, [3])] =
  Ok [(bs "content-type"%string, [1]); (bs "x"%string, [2])].
Proof. vm_compute. reflexivity. Qed.
Example C207_prefix_case : exists n n', n ++ n' = s_connection /\ n <> [] /\ n' <> []. Proof. exists [99], (tl s_connection). split; [reflexivity|]. split; discriminate. Qed.

(** * C208: a connection is not closed because of the size of a response. *)
Definition C208_statement : Prop := forall handler es c, run handler new_h2 es = Ok c -> h_dead c = false.
Definition big (q : request) : response := Resp 200 [] (repeat 7 (Nat.pow 2 14 + 1)).
Theorem C208_statement_refuted : ~ C208_statement.
Proof.
  intros S. assert (X : match run big new_h2 (no_body 1 get_fields (Nat.pow 2 14)) with Ok c => h_dead c | _ => false end = true) by (vm_compute; reflexivity).
  destruct (run big new_h2 (no_body 1 get_fields (Nat.pow 2 14))) as [c| |] eqn:R; try discriminate. rewrite (S _ _ c R) in X. discriminate.
Qed.
Theorem C208_small_partial : forall handler es c, (forall e lim q, In e es -> room e = Some lim -> List.length (r_body (handler q)) <= lim)%nat ->
  run handler new_h2 es = Ok c -> h_dead c = false.
Proof. intros handler es c R H. exact (run_small handler es R new_h2 c H eq_refl). Qed.
(** Every response larger than what the client takes in one go closes the connection; the client gets the header block only. *)
Theorem C208_large_partial : forall handler sid es fields lim lim0 c, on_stream sid es = EBegin sid :: map (fun f => EHeader sid (fst f) (snd f)) fields ->
  run handler new_h2 es = Ok c -> h_dead c = false -> (forall q, plain (handler q)) -> (forall q, lim < List.length (r_body (handler q)))%nat ->
  exists c' q, run handler new_h2 (es ++ [EHeaders sid lim0 lim]) = Ok c' /\ h_dead c' = true /\
    answer sid c' = [FHeaders sid (r_code (handler q)) (h2_fields (r_headers (handler q))) false].
Proof.
  intros handler sid es fields lim fin c O R D P L.
  assert (NP : forall e, In e (on_stream sid es) -> pushes e = false).
  { rewrite O. intros e [<-|I]; [reflexivity|]. apply in_map_iff in I as (f & <- & _). reflexivity. }
  destruct (run_look handler sid es NP _ _ R settled_new D) as [_ K]. rewrite O, look_new in K. cbn [fold_left] in K.
  change (vstep handler sid fresh (EBegin sid)) with (View (Some (Stream new_request None false)) false [] []) in K. rewrite fold_fields in K.
  assert (K1 := f_equal v_st K). assert (K2 := f_equal v_shut K). assert (K3 := f_equal v_ans K). cbn [look v_st v_shut v_ans] in K1, K2, K3.
  destruct (dispatch_large handler c sid lim _ _ K1 eq_refl K2 (nvs_plain _ (P _)) (L _)) as (c' & E & D' & A).
  exists c'. eexists. split; [|split; [exact D'|rewrite A, K3; reflexivity]].
  assert (RA : forall es c0, run handler c0 es = Ok c -> run handler c0 (es ++ [EHeaders sid fin lim]) = Ok c').
  { clear - E D. induction es as [|e es IH]; intros c0 H.
    - injection H as ->. cbn [app run]. unfold step. rewrite D, E. reflexivity.
    - cbn [app run] in *. destruct (step handler c0 e); cbn in *; try discriminate. apply IH. exact H. }
  apply RA. exact R.
Qed.
Example C208_large_case : (forall q, plain (big q)) /\ (forall q, 5 < List.length (r_body (big q)))%nat /\
  match run big new_h2 [EBegin 1; EHeader 1 (bs ":path"%string) [47]] with Ok c => h_dead c = false | _ => False end.
Proof. split; [intros q f []|]. split; [|reflexivity]. intros q. unfold big. cbn [r_body]. rewrite repeat_length. vm_compute. lia. Qed.
Example C208_case : exists c, run echo new_h2 two = Ok c /\ forallb (fun e => match room e with Some l => Nat.leb 100 l | None => true end) two = true /\ h_dead c = false.
Proof. vm_compute. eexists. repeat split. Qed.

(** * C209: a request sent by a client over HTTP/2 is transmitted. *)
Definition C209_statement : Prop := forall q, snd (SendRequest q) = true -> fst (SendRequest q) <> [].
Theorem C209_statement_refuted : ~ C209_statement.
Proof. intros S. apply (S new_request); reflexivity. Qed.
Theorem C209_nothing_sent_partial : forall q, SendRequest q = ([], true).
Proof. reflexivity. Qed.

(** * C210: a push is answered exactly once with its fate, and a pushed response arrives on its own stream. *)
Theorem C210_push_partial : forall handler c sid pid m p r lim c', plain r -> h_dead c = false -> existsb (Z.eqb (match pid with Some i => i | None => 0 end)) (shut_wr c) = false ->
  step handler c (EPush sid pid m p r lim) = Ok c' ->
  exists n, pushed c' = pushed c ++ [n] /\ h_dead c' = false /\
    (n = -1 <-> find sid (ctxs c) = None) /\
    (n = -2 <-> find sid (ctxs c) <> None /\ pid = None) /\
    (n = -3 <-> exists i, find sid (ctxs c) <> None /\ pid = Some i /\ (lim < List.length (r_body r))%nat) /\
    (n = -1 \/ n = -2 -> outp c' = outp c) /\
    (forall i, pid = Some i -> n = 0 -> outp c' = outp c ++ FPush sid i m p :: carries i r (h2_fields (r_headers r))) /\
    (n = 0 \/ n = -1 \/ n = -2 \/ n = -3).
Proof.
  intros handler c sid pid m p r lim c' P D Sh H. unfold step in H. rewrite D in H. unfold PushPromise in H.
  destruct (find sid (ctxs c)) as [s|] eqn:F.
  2:{ injection H as <-. exists (-1). cbn. split; [reflexivity|]. split; [exact D|]. split; [tauto|]. split; [split; [discriminate|tauto]|].
      split; [split; [discriminate|intros (i & A & _); tauto]|]. split; [reflexivity|]. split; [discriminate|tauto]. }
  destruct pid as [pid|].
  2:{ injection H as <-. exists (-2). cbn. split; [reflexivity|]. split; [exact D|]. split; [split; discriminate|]. split; [split; [intros _; split; [discriminate|reflexivity]|reflexivity]|].
      split; [split; [discriminate|intros (i & _ & A & _); discriminate]|]. split; [reflexivity|]. split; [discriminate|tauto]. }
  destruct (find pid (ctxs c)) eqn:Fp; [discriminate|].
  unfold SendResponse in H. rewrite (nvs_plain r P) in H. cbn [obind] in H. cbn [shut_wr set_ctxs emit] in H. rewrite Sh in H.
  unfold carries. destruct (r_body r) as [|b l] eqn:B.
  - cbn [obind] in H. injection H as <-. exists 0. cbn [pushed notify shut emit set_ctxs h_dead outp]. split; [reflexivity|]. split; [exact D|]. split; [split; discriminate|].
    split; [split; [discriminate|intros [_ A]; discriminate]|]. split; [split; [discriminate|intros (i & _ & _ & A); cbn in A; lia]|].
    split; [intros [A|A]; discriminate|]. split; [|tauto]. intros i E _. injection E as <-. rewrite <- app_assoc. reflexivity.
  - cbn [ctxs emit set_ctxs outp] in H. rewrite find_add, Fp, Z.eqb_refl in H. unfold provider_len, payload in H. cbn [x_sent x_resp] in H. rewrite B in H.
    destruct (Nat.ltb lim (List.length (b :: l))) eqn:Q; cbn [obind] in H; injection H as <-.
    + apply Nat.ltb_lt in Q. exists (-3). cbn [pushed notify shut emit set_ctxs h_dead outp]. split; [reflexivity|]. split; [exact D|]. split; [split; discriminate|].
      split; [split; [discriminate|intros [_ A]; discriminate]|]. split; [split; [intros _; exists pid; split; [discriminate|]; split; [reflexivity|exact Q]|reflexivity]|].
      split; [intros [A|A]; discriminate|]. split; [discriminate|tauto].
    + apply Nat.ltb_ge in Q. exists 0. cbn [pushed notify shut emit set_ctxs h_dead outp]. split; [reflexivity|]. split; [exact D|]. split; [split; discriminate|].
      split; [split; [discriminate|intros [_ A]; discriminate]|]. split; [split; [discriminate|intros (i & _ & _ & A); lia]|].
      split; [intros [A|A]; discriminate|]. split; [|tauto]. intros i E _. injection E as <-. rewrite <- !app_assoc. reflexivity.
Qed.
(** Once a stream is closed nothing more can be pushed on it. *)
Theorem C210_closed_partial : forall handler c sid pid m p r lim, h_dead c = false ->
  exists c', run handler c [EClose sid; EPush sid pid m p r lim] = Ok c' /\ pushed c' = pushed c ++ [-1] /\ outp c' = outp c.
Proof.
  intros handler c sid pid m p r lim D. cbn [run]. unfold step at 1. rewrite D. cbn [obind]. unfold step. cbn [h_dead set_ctxs]. rewrite D. unfold PushPromise.
  cbn [ctxs set_ctxs]. rewrite find_del, Z.eqb_refl. cbn [obind]. eexists. split; [reflexivity|]. split; reflexivity.
Qed.
Example C210_case : exists c, run echo new_h2 (no_body 1 get_fields 100 ++ [EPush 1 (Some 2) (bs "GET"%string) (bs "/style.css"%string) (Resp 200 [] [9]) 100]) = Ok c /\
  pushed c = [0] /\ answer 2 c = [FHeaders 2 200 [] false; FData 2 [9] true] /\ requests 2 c = [].
Proof. vm_compute. eexists. repeat split. Qed.

Print Assumptions C203_statement_refuted.
Print Assumptions C203_no_body_partial.
Print Assumptions C203_with_body_partial.
Print Assumptions C203_trailers_partial.
Print Assumptions C204_lookup_token.
Print Assumptions C205_streams_independent.
Print Assumptions C205_no_phantom.
Print Assumptions C206_statement_refuted.
Print Assumptions C206_no_body_partial.
Print Assumptions C206_with_body_partial.
Print Assumptions C207_statement_refuted.
Print Assumptions C207_overread_partial.
Print Assumptions C207_prefix_dropped_partial.
Print Assumptions C207_plain_partial.
Print Assumptions C208_statement_refuted.
Print Assumptions C208_small_partial.
Print Assumptions C208_large_partial.
Print Assumptions C209_statement_refuted.
Print Assumptions C209_nothing_sent_partial.
Print Assumptions C210_push_partial.
Print Assumptions C210_closed_partial.
