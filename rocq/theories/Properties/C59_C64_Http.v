(** C59-C64: HTTP/1.x codec. *)
From Coq Require Import String.
From Verif.Model Require Import Common Decimal Http.
From Verif.Spec Require Import RespSpec HttpSpec.
From Verif.Proofs Require Import Tac HttpHeaders HttpParse DecimalProofs HttpWire HttpSend.
Open Scope Z_scope.
Notation length := List.length.

(** ** C59: what the application receives does not depend on how the bytes were cut. *)

Definition names_ok (hs : list (list Z * list Z)) : Prop := Forall (fun kv => fst kv <> [] /\ ~ In 0 (fst kv)) hs.

(** Any number of messages on one connection, however llhttp's reports are cut: as long as every body can be decoded,
    each message is delivered once, in order, with its own url, headers and (decoded) body. *)
Theorem C59_messages_delivered : forall req gunzip inflate ws ess,
  Forall2 reports ws ess ->
  Forall (fun w => w_trailers w = [] /\ names_ok (w_headers w) /\ (req = false -> w_url w = []) /\
                   exists b, decodes gunzip inflate w b) ws ->
  exists s, on_events req gunzip inflate pst0 (concat ess) = Ok s /\ p_err s = false /\
            Forall2 (delivers req gunzip inflate) ws (p_out s).
Proof.
  intros req gunzip inflate ws ess H0 H1.
  destruct (deliver_all req gunzip inflate ws ess H0 H1 pst0 eq_refl eq_refl) as (s' & outs & A & B & _ & C & D).
  exists s'. split; [exact A|]. split; [exact B|]. cbn [p_out pst0 app] in C. rewrite C. exact D.
Qed.
Print Assumptions C59_messages_delivered.

(** A message whose body cannot be decoded stops the parser: everything before it is delivered, it and everything after
    it is not. *)
Theorem C59_undecodable_stops : forall req gunzip inflate ws ess w es more,
  Forall2 reports ws ess ->
  Forall (fun w => w_trailers w = [] /\ names_ok (w_headers w) /\ (req = false -> w_url w = []) /\
                   exists b, decodes gunzip inflate w b) ws ->
  reports w es -> w_trailers w = [] -> names_ok (w_headers w) -> (req = false -> w_url w = []) ->
  (forall b, ~ decodes gunzip inflate w b) ->
  exists s, on_events req gunzip inflate pst0 (concat ess ++ es ++ more) = Ok s /\ p_err s = true /\
            Forall2 (delivers req gunzip inflate) ws (p_out s).
Proof.
  intros req gunzip inflate ws ess w es more H0 H1 Hr Ht Hn Hq Hd.
  assert (G : exists s, on_events req gunzip inflate pst0 (concat ess) = Ok s /\ p_err s = false /\ p_value s = [] /\
            Forall2 (delivers req gunzip inflate) ws (p_out s)).
  { destruct (deliver_all req gunzip inflate ws ess H0 H1 pst0 eq_refl eq_refl) as (s' & outs & A & B & V & C & D).
    exists s'. cbn [p_out pst0 app] in C. rewrite C. auto. }
  destruct G as (s & A & B & V & C). rewrite (run_app_ok _ _ _ _ _ _ _ A).
  destruct (run_msg req gunzip inflate w es s Hr (namedok_ne _ Hn) Hq B) as (fl & f & R).
  pose proof (parsed_spec req gunzip inflate w Hn) as P. rewrite V in R.
  assert (EB : built [] w = built [] (plain w)) by (unfold built, plain; rewrite Ht; reflexivity).
  rewrite EB in R. destruct (on_message_parsed req gunzip inflate (built [] (plain w)) (w_info w)) as [M|] eqn:EP.
  - exfalso. destruct P as (_ & _ & _ & _ & P & _). apply (Hd _ P).
  - rewrite (run_app_ok _ _ _ _ _ _ _ R). rewrite run_err by reflexivity. eexists. split; [reflexivity|]. split; [reflexivity|exact C].
Qed.
Print Assumptions C59_undecodable_stops.

(** Header lookup as the application sees it: names differing in ASCII case are one name, the first value inserted
    for a name stays, removing a name removes exactly that name. *)
Theorem C59_header_map : forall us n, Forall (fun kv => fst kv <> [] /\ ~ In 0 (fst kv)) us -> ~ In 0 n ->
  let h := fold_left (fun h kv => insert_header (fst kv) (snd kv) h) us [] in
  (forall v, first_value us n v -> has_header h n = true /\ get_header h n = v) /\
  (no_value us n -> has_header h n = false /\ get_header h n = []) /\
  has_header (remove_header h n) n = false /\
  (forall n', ~ In 0 n' -> ~ ci_eq n' n -> has_header (remove_header h n) n' = has_header h n' /\
                                          get_header (remove_header h n) n' = get_header h n').
Proof.
  intros us n Hu Hn h. change (fold_left (fun h kv => insert_header (fst kv) (snd kv) h) us []) with (hins us []) in h.
  assert (S : sorted h) by (apply hins_sorted, sorted_nil).
  assert (F : map_find (to_lower n) h = assoc_ci n us).
  { unfold h. rewrite hins_find; [reflexivity|apply sorted_nil|apply namedok_ne; exact Hu]. }
  split; [|split; [|split]].
  - intros v Hv. apply assoc_first in Hv; [|assumption|assumption]. unfold has_header, get_header. rewrite F, Hv. auto.
  - intros Hv. apply assoc_none in Hv; [|assumption|assumption]. unfold has_header, get_header. rewrite F, Hv. auto.
  - unfold has_header, remove_header. rewrite map_find_erase_same by assumption. reflexivity.
  - intros n' Hn' Hne. unfold has_header, get_header, remove_header. rewrite map_find_erase; [auto|assumption|].
    intro C. apply Hne. apply ci_eq_lower; assumption.
Qed.
Print Assumptions C59_header_map.

Definition gz0 (b : list Z) : option (list Z) := Some (rev b).
Definition info0 : info := mkinfo 1 1 (bs "POST") 0 true.
Definition wex : wmsg := mkw info0 (bs "/a") [(bs "Host", bs "h"); (bs "HOST", bs "x"); (bs "Content-Encoding", bs "gzip")] (bs "olleh") [].
(** Two cuts of the same message, both delivered. *)
Example C59_example : exists ess, Forall2 reports [wex; wex] ess /\
  Forall (fun w => w_trailers w = [] /\ names_ok (w_headers w) /\ (true = false -> w_url w = []) /\
                   exists b, decodes gz0 gz0 w b) [wex; wex] /\
  match on_events true gz0 gz0 pst0 (concat ess) with
  | Ok s => map (fun m => (m_url m, get_header (m_headers m) (bs "hOsT"), m_body m)) (p_out s) =
            [(bs "/a", bs "h", bs "hello"); (bs "/a", bs "h", bs "hello")]
  | _ => False end.
Proof.
  exists [[EBegin; EUrl (bs "/a"); EField (bs "Host"); EValue (bs "h"); EField (bs "HOST"); EValue (bs "x");
           EField (bs "Content-Encoding"); EValue (bs "gzip"); EHeadersDone; EBody (bs "olleh"); EComplete info0];
          [EBegin; EUrl (bs "/"); EUrl (bs "a"); EField (bs "H"); EField (bs "ost"); EValue (bs ""); EValue (bs "h");
           EField (bs "HO"); EField (bs "ST"); EValue (bs "x");
           EField (bs "Content-Encoding"); EValue (bs "gz"); EValue (bs "ip"); EHeadersDone; EBody (bs "ol"); EBody (bs "leh");
           EComplete info0]].
  split; [|split].
  - constructor; [|constructor; [|constructor]].
    + exists [bs "/a"], [([bs "Host"], [bs "h"]); ([bs "HOST"], [bs "x"]); ([bs "Content-Encoding"], [bs "gzip"])], [bs "olleh"], [].
      split; [reflexivity|]. split; [reflexivity|]. split; [discriminate|]. split; [|split; [reflexivity|constructor]].
      repeat constructor; discriminate.
    + exists [bs "/"; bs "a"], [([bs "H"; bs "ost"], [bs ""; bs "h"]); ([bs "HO"; bs "ST"], [bs "x"]); ([bs "Content-Encoding"], [bs "gz"; bs "ip"])], [bs "ol"; bs "leh"], [].
      split; [reflexivity|]. split; [reflexivity|]. split; [discriminate|]. split; [|split; [reflexivity|constructor]].
      repeat constructor; discriminate.
  - assert (X : w_trailers wex = [] /\ names_ok (w_headers wex) /\ (true = false -> w_url wex = []) /\ exists b, decodes gz0 gz0 wex b).
    { split; [reflexivity|]. split; [|split; [discriminate|]].
      - repeat constructor; try discriminate; vm_compute; intro H; repeat (destruct H as [H|H]; [discriminate|]); destruct H.
      - exists (bs "hello"). left. exists (bs "gzip"). split; [|split; [exists [], []; reflexivity|reflexivity]].
        exists [(bs "Host", bs "h"); (bs "HOST", bs "x")], (bs "Content-Encoding"), []. split; [reflexivity|].
        split; [apply ci_eq_refl|]. constructor; [|constructor; [|constructor]]; intro C; apply ci_len in C; vm_compute in C; discriminate. }
    constructor; [exact X|constructor; [exact X|constructor]].
  - vm_compute. reflexivity.
Qed.

(** ** C60: a message depends on nothing received before it. *)
Definition C60_statement : Prop := forall req gunzip inflate ws ess,
  Forall2 reports ws ess ->
  Forall (fun w => names_ok (w_headers w) /\ names_ok (w_trailers w) /\ (req = false -> w_url w = []) /\
                   exists b, decodes gunzip inflate w b) ws ->
  exists s, on_events req gunzip inflate pst0 (concat ess) = Ok s /\
    Forall2 (fun w m => forall n v, ~ In 0 n -> first_value (w_headers w) n v -> get_header (m_headers m) n = v) ws (p_out s).

Definition wchunk : wmsg := mkw info0 (bs "/") [(bs "Transfer-Encoding", bs "chunked")] (bs "x") [(bs "X-Sum", bs "evil.")].
Definition wnext : wmsg := mkw info0 (bs "/") [(bs "Host", bs "example.org")] [] [].
(** A chunked message with a trailer leaves the trailer's value behind; the first header of the next message gets it
    prepended. *)
Theorem C60_statement_refuted : ~ C60_statement.
Proof.
  intro H.
  specialize (H true gz0 gz0 [wchunk; wnext]
    [[EBegin; EUrl (bs "/"); EField (bs "Transfer-Encoding"); EValue (bs "chunked"); EHeadersDone; EBody (bs "x");
      EField (bs "X-Sum"); EValue (bs "evil."); EComplete info0];
     [EBegin; EUrl (bs "/"); EField (bs "Host"); EValue (bs "example.org"); EHeadersDone; EComplete info0]]).
  destruct H as (s & R & F).
  - constructor; [|constructor; [|constructor]].
    + exists [bs "/"], [([bs "Transfer-Encoding"], [bs "chunked"])], [bs "x"], [([bs "X-Sum"], [bs "evil."])].
      split; [reflexivity|]. split; [reflexivity|]. split; [discriminate|]. split; [|split; [reflexivity|]];
      repeat constructor; discriminate.
    + exists [bs "/"], [([bs "Host"], [bs "example.org"])], [], [].
      split; [reflexivity|]. split; [reflexivity|]. split; [discriminate|]. split; [|split; [reflexivity|constructor]].
      repeat constructor; discriminate.
  - assert (N : forall hs, forallb (fun kv => match fst kv with [] => false | _ => true end && forallb (fun c => negb (c =? 0)) (fst kv)) hs = true -> names_ok hs).
    { intros hs Hb. apply Forall_forall. intros kv Hin. rewrite forallb_forall in Hb. specialize (Hb kv Hin).
      apply andb_true_iff in Hb as [B1 B2]. split; [destruct (fst kv); congruence|]. intro C. rewrite forallb_forall in B2.
      specialize (B2 0 C). discriminate. }
    assert (D : forall w, no_value (w_headers w) (bs "Content-Encoding") -> exists b, decodes gz0 gz0 w b).
    { intros w Hn. exists (w_body w). right; right. split; [|reflexivity]. intros v Hv. destruct (no_value_first _ _ _ Hn Hv). }
    constructor; [|constructor; [|constructor]]; (split; [apply N; reflexivity|]); (split; [apply N; reflexivity|]);
      (split; [discriminate|]); apply D; constructor; try constructor; cbn [fst]; intro C; apply ci_len in C; vm_compute in C; discriminate.
  - vm_compute in R. injection R as <-. cbn [p_out] in F. inversion F as [|? ? ? ? _ F2]; subst.
    inversion F2 as [|? ? ? ? F3 _]; subst. specialize (F3 (bs "Host") (bs "example.org")).
    assert (E : get_header [([104; 111; 115; 116], [101; 118; 105; 108; 46; 101; 120; 97; 109; 112; 108; 101; 46; 111; 114; 103])] (bs "Host") = bs "example.org").
    { apply F3.
      - intro C. vm_compute in C. repeat (destruct C as [C|C]; [discriminate|]). destruct C.
      - exists [], (bs "Host"), []. split; [reflexivity|]. split; [apply ci_eq_refl|constructor]. }
    vm_compute in E. discriminate.
Qed.
Print Assumptions C60_statement_refuted.

(** Exactly what is delivered when messages may carry trailers: the value of the last trailer of the previous message is
    prepended to the first header's value, and all trailers but the last are added to the headers. Without trailers
    nothing leaks. *)
Fixpoint expected_headers (left_over : list Z) (ws : list wmsg) : list (list (list Z * list Z)) :=
  match ws with
  | [] => []
  | w :: ws =>
      (match w_headers w with [] => [] | (k, v) :: hs => (k, left_over ++ v) :: hs end ++ removelast (w_trailers w))
      :: expected_headers (snd (last (w_trailers w) ([], []))) ws
  end.
Theorem C60_leak_partial : forall req gunzip inflate ws ess s,
  Forall2 reports ws ess ->
  Forall (fun w => names_ok (w_headers w) /\ names_ok (w_trailers w) /\ (req = false -> w_url w = [])) ws ->
  on_events req gunzip inflate pst0 (concat ess) = Ok s -> p_err s = false ->
  Forall2 (fun hs m => forall n v, n <> [] -> ~ In 0 n -> (req = true \/ ~ ci_eq n (bs "Content-Encoding")) ->
                       first_value hs n v -> get_header (m_headers m) n = v)
          (expected_headers [] ws) (p_out s).
Proof.
  intros req gunzip inflate ws ess s H0 H1 R E.
  assert (G : forall s0 s, p_err s0 = false -> on_events req gunzip inflate s0 (concat ess) = Ok s -> p_err s = false ->
     exists outs, p_out s = p_out s0 ++ outs /\
     Forall2 (fun hs m => forall n v, n <> [] -> ~ In 0 n -> (req = true \/ ~ ci_eq n (bs "Content-Encoding")) ->
                       first_value hs n v -> get_header (m_headers m) n = v) (expected_headers (p_value s0) ws) outs).
  2:{ destruct (G pst0 s eq_refl R E) as (outs & A & B). cbn [pst0 p_out app] in A. rewrite A. exact B. }
  clear s R E. revert H1. induction H0 as [|w es ws ess Hr H0 IH]; intros H1 s0 s E0 R E.
  - cbn in R. injection R as <-. exists []. rewrite app_nil_r. split; [reflexivity|constructor].
  - inversion H1 as [|? ? (Hn & Ht & Hq) H1']; subst. cbn [concat] in R.
    destruct (run_msg req gunzip inflate w es s0 Hr (namedok_ne _ Hn) Hq E0) as (fl & f & Rm).
    destruct (on_message_parsed req gunzip inflate (built (p_value s0) w) (w_info w)) as [M|] eqn:EP.
    2:{ rewrite (run_app_ok _ _ _ _ _ _ _ Rm) in R. rewrite run_err in R by reflexivity. injection R as <-. discriminate. }
    rewrite (run_app_ok _ _ _ _ _ _ _ Rm) in R.
    destruct (IH H1' (mkpst None fl f (carry (w_trailers w)) false (p_out s0 ++ [M])) s eq_refl R E) as (outs & A & B). cbn [p_out p_value] in A, B.
    exists (M :: outs). split; [rewrite A, <- app_assoc; reflexivity|]. cbn [expected_headers]. constructor; [|exact B].
    set (hs := match w_headers w with [] => [] | (k, v) :: hs => (k, p_value s0 ++ v) :: hs end ++ removelast (w_trailers w)).
    assert (Hok : namedok hs).
    { unfold hs. apply Forall_app. split.
      - unfold names_ok in Hn. destruct (w_headers w) as [|[k v] l]; [constructor|]. inversion Hn; subst. constructor; assumption.
      - apply Forall_forall. intros kv Hin. unfold names_ok in Ht. rewrite Forall_forall in Ht. apply Ht.
        destruct (w_trailers w) as [|t ts]; [destruct Hin|]. rewrite (app_removelast_last ([], []) (l := t :: ts)) by discriminate.
        apply in_or_app. left. exact Hin. }
    intros n v N1 N2 N3 Fv.
    pose proof (parsed_spec req gunzip inflate (mkw (w_info w) (w_url w) hs (w_body w) []) Hok) as P.
    assert (EB : built [] (plain (mkw (w_info w) (w_url w) hs (w_body w) [])) = built (p_value s0) w).
    { unfold built, plain. cbn [w_info w_url w_headers w_body w_trailers removelast]. rewrite app_nil_r. f_equal. f_equal.
      unfold hs, prefixed. destruct (w_headers w) as [|[k x] l]; [|reflexivity].
      cbn [app]. destruct (removelast (w_trailers w)) as [|[k x] l]; reflexivity. }
    rewrite EB in P. cbn [w_info] in P. rewrite EP in P. destruct P as (_ & _ & _ & _ & _ & P).
    destruct (P n N1 N2 N3) as [P1 _]. apply P1. exact Fv.
Qed.
Print Assumptions C60_leak_partial.

(** ** C61: a peer reads back the response the application built. *)
Definition readable_response (m : msg) (us : list (list Z * list Z)) (w rest : list Z) : Prop :=
  exists start hs, reads (w ++ rest) start hs (m_body m) rest /\ status_line (m_code m) (m_minor m) start /\ carries us hs.

Definition C61_statement : Prop := forall m us rest,
  built_with m us -> no_value us (bs "Content-Length") -> 100 <= m_code m <= 599 -> 0 <= m_minor m <= 1 ->
  Z.of_nat (length (m_body m)) < 2 ^ 64 ->
  exists w, response_to_buffer m = Ok w /\ readable_response m us w rest.

Theorem C61_statement_refuted : ~ C61_statement.
Proof.
  intro H. specialize (H (mkmsg 1 1 true [] [] 429 [] []) [] []).
  destruct H as (w & E & start & hs & (r & len & n & T & _) & (c & d & reason & Hc & Hd & _ & _ & S) & _).
  - split; [reflexivity|constructor].
  - constructor.
  - cbn. lia.
  - cbn. lia.
  - cbn. lia.
  - vm_compute in E. injection E as <-. rewrite app_nil_r in T. vm_compute in T. injection T as T _. rewrite S in T. discriminate.
Qed.
Print Assumptions C61_statement_refuted.

(** It holds for the forty status codes of the table. *)
Theorem C61_response_readable_partial : forall m us rest,
  built_with m us -> no_value us (bs "Content-Length") -> In (m_code m) known_codes -> 0 <= m_minor m <= 1 ->
  Z.of_nat (length (m_body m)) < 2 ^ 64 ->
  exists w, response_to_buffer m = Ok w /\ readable_response m us w rest.
Proof.
  intros m us rest [Hm Hu] Hn Hc Hmi Hl. destruct (head_line_known (m_code m) (m_minor m) Hc Hmi) as (start & A & B & C).
  destruct (response_reads us m start rest Hu Hm (or_introl Hn) Hl C A) as (w & E & R & Ca).
  exists w. split; [exact E|]. exists start, (resp_headers m). auto.
Qed.
Print Assumptions C61_response_readable_partial.

(** Codes the table does not list get no status line at all (in range) or the line of 500 (out of range); a
    minor version above 1 reads outside the tables. *)
Theorem C61_unlisted_codes_partial : forall code minor, 0 <= minor ->
  (minor <= 1 -> 100 <= code <= 511 -> ~ In code known_codes -> resp_head_line code minor = Ok []) /\
  (minor <= 1 -> (code < 100 \/ 511 < code) -> resp_head_line code minor = resp_head_line 500 minor) /\
  (1 < minor -> resp_head_line code minor = UB).
Proof.
  intros code minor Hm. unfold resp_head_line. split; [|split].
  - intros H1 H2 H3. destruct (Z.leb_spec 100 code); [|lia]. destruct (Z.leb_spec code 511); [|lia].
    destruct (Z.leb_spec minor 1); [|lia]. cbn [andb]. unfold resp_hl.
    assert (E : forall t, ~ In code (map fst t) -> table_get code t = None).
    { induction t as [|[k d] t IH]; intro N; [reflexivity|]. cbn [table_get]. destruct (Z.eqb_spec k code).
      - exfalso. apply N. left. assumption.
      - apply IH. intro C. apply N. right. exact C. }
    rewrite E; [reflexivity|]. exact H3.
  - intros H1 H2. destruct (Z.leb_spec minor 1); [|lia]. rewrite andb_true_r. 
    destruct ((100 <=? code) && (code <=? 511)) eqn:C; [b2p; lia|reflexivity].
  - intros H1. destruct (Z.leb_spec minor 1); [lia|]. rewrite andb_false_r. reflexivity.
Qed.
Print Assumptions C61_unlisted_codes_partial.

Example C61_example : exists w, response_to_buffer (mkmsg 1 1 true [] [] 200 (insert_header (bs "X-A") (bs "1") []) (bs "hi")) = Ok w /\
  w = (bs "HTTP/1.1 200 OK" ++ [13; 10] ++ bs "x-a: 1" ++ [13; 10] ++ bs "Connection: keep-alive" ++ [13; 10] ++ bs "Content-Length: 2" ++ [13; 10] ++
   bs "Content-Type: text/plain" ++ [13; 10; 13; 10] ++ bs "hi")%list.
Proof. eexists. split; vm_compute; reflexivity. Qed.

(** ** C62: the announced length is the length of what is sent. *)
Definition length_ok (us : list (list Z * list Z)) (body : list Z) : Prop :=
  no_value us (bs "Content-Length") \/
  exists len, first_value us (bs "Content-Length") len /\ decimal (Z.of_nat (length body)) len.

Definition C62_statement : Prop := forall gzip deflate reqh m us rest w,
  built_with m us -> length_ok us (m_body m) -> In (m_code m) known_codes -> 0 <= m_minor m <= 1 ->
  Z.of_nat (length (m_body (before_send_response gzip deflate reqh m))) < 2 ^ 64 ->
  response_to_buffer (before_send_response gzip deflate reqh m) = Ok w ->
  exists start hs, reads (w ++ rest) start hs (m_body (before_send_response gzip deflate reqh m)) rest.

Definition big : list Z := repeat 97 (Z.to_nat 9000).
Definition big_msg : msg := mkmsg 1 1 true [] [] 200 (insert_header (bs "Content-Length") (bs "9000") []) big.
Definition gz1 (b : list Z) : option (list Z) := Some [31; 139].
(** The application announces the right length; compression then changes the body and leaves the header. *)
Theorem C62_statement_refuted : ~ C62_statement.
Proof.
  intro H. specialize (H gz1 gz1 (insert_header (bs "Accept-Encoding") (bs "gzip") []) big_msg [(bs "Content-Length", bs "9000")] []).
  assert (B : before_send_response gz1 gz1 (insert_header (bs "Accept-Encoding") (bs "gzip") []) big_msg =
    mkmsg 1 1 true [] [] 200 (insert_header (bs "Content-Encoding") (bs "gzip") (insert_header (bs "Content-Length") (bs "9000") [])) [31; 139]).
  { unfold before_send_response. assert (L : (8096 <? Z.of_nat (length (m_body big_msg))) = true) by (vm_compute; reflexivity).
    rewrite L. reflexivity. }
  rewrite B in H.
  destruct (response_to_buffer (mkmsg 1 1 true [] [] 200 (insert_header (bs "Content-Encoding") (bs "gzip") (insert_header (bs "Content-Length") (bs "9000") [])) [31; 139])) as [w| |] eqn:E;
    [|vm_compute in E; discriminate|vm_compute in E; discriminate].
  destruct (H w) as (start & hs & r & len & n & T & Th & _ & D & Hn & F).
  - split; [reflexivity|]. constructor; [|constructor]. split; [apply gn_cl|]. split; [|split].
    + repeat constructor; discriminate.
    + intros c l X. injection X as <- _. split; discriminate.
    + intros c l X. change (bs "9000") with ([57; 48; 48] ++ [48]) in X. apply app_inj_tail in X as [_ <-]. split; discriminate.
  - right. exists (bs "9000"). split; [exists [], (bs "Content-Length"), []; split; [reflexivity|]; split; [apply ci_eq_refl|constructor]|].
    replace (Z.of_nat (length (m_body big_msg))) with 9000 by (vm_compute; reflexivity). apply (udec_decimal 9000). lia.
  - vm_compute. tauto.
  - cbn. lia.
  - vm_compute. reflexivity.
  - reflexivity.
  - cbn [m_body] in *. vm_compute in E. injection E as <-. rewrite app_nil_r in T. vm_compute in T. injection T as <- <-.
    vm_compute in Th. injection Th as <-.
    specialize (F [99; 111; 110; 116; 101; 110; 116; 45; 108; 101; 110; 103; 116; 104] [57; 48; 48; 48]).
    assert (E : [57; 48; 48; 48] = len).
    { apply F; [right; left; reflexivity|].
      apply ci_eq_lower; [vm_compute; intro C; repeat (destruct C as [C|C]; [discriminate|]); destruct C|apply good_nonul, gn_cl|reflexivity]. }
    assert (N9 : n = 9000) by (apply (decimal_inj len); [exact D|]; rewrite <- E; apply (udec_decimal 9000); lia).
    rewrite N9 in Hn. cbn in Hn. lia.
Qed.
Print Assumptions C62_statement_refuted.

(** It holds when the application leaves Content-Length to the library, or sets it right on a body that is not
    compressed (at most 8096 bytes). *)
Theorem C62_response_length_partial : forall gzip deflate reqh m us rest,
  let m' := before_send_response gzip deflate reqh m in
  built_with m us ->
  no_value us (bs "Content-Length") \/ (Z.of_nat (length (m_body m)) <= 8096 /\ length_ok us (m_body m)) ->
  In (m_code m) known_codes -> 0 <= m_minor m <= 1 -> Z.of_nat (length (m_body m')) < 2 ^ 64 ->
  exists w start hs, response_to_buffer m' = Ok w /\ reads (w ++ rest) start hs (m_body m') rest /\ carries us hs.
Proof.
  intros gzip deflate reqh m us rest m' [Hm Hu] Hf Hc Hmi Hl.
  pose proof (before_response gzip deflate reqh us m Hu Hm Hf) as X. cbv zeta in X. fold m' in X. destruct X as (e & G & Em & Ef & (_ & _ & S1 & S2 & _) & _).
  destruct (head_line_known (m_code m) (m_minor m) Hc Hmi) as (start & A & B & C). rewrite <- S1, <- S2 in A.
  destruct (response_reads (us ++ e) m' start rest G Em Ef Hl C A) as (w & E & R & Ca).
  exists w, start, (resp_headers m'). split; [exact E|]. split; [exact R|]. eapply carries_prefix; eauto.
Qed.
Print Assumptions C62_response_length_partial.

Theorem C62_request_length_partial : forall gzip host m us rest,
  let m' := before_send_request gzip host m in
  built_with m us -> good_value host ->
  no_value us (bs "Content-Length") \/ (Z.of_nat (length (m_body m)) <= 8096 /\ length_ok us (m_body m)) ->
  Forall (fun c => c <> 13) (m_method m) -> Forall (fun c => c <> 13) (m_url m) -> 0 <= m_minor m ->
  Z.of_nat (length (m_body m')) < 2 ^ 64 -> (forall z, gzip (m_body m) = Some z -> Z.of_nat (length z) < 2 ^ 64) ->
  exists start hs, reads (request_to_buffer m' ++ rest) start hs (m_body m') rest /\ carries us hs.
Proof.
  intros gzip host m us rest m' [Hm Hu] Hh Hf Hme Hur Hmi Hl Hz.
  pose proof (before_request gzip (fun _ => None) host us m Hu Hm Hh Hf Hz) as X. cbv zeta in X. fold m' in X. destruct X as (e & G & Em & Ef & (S1 & S2 & S3 & _ & _) & _).
  rewrite <- S1 in Hme. rewrite <- S2 in Hur. rewrite <- S3 in Hmi.
  destruct (request_reads (us ++ e) m' rest G Em Ef Hl Hme Hur Hmi) as [R Ca].
  eexists _, (req_headers m'). split; [exact R|]. eapply carries_prefix; eauto.
Qed.
Print Assumptions C62_request_length_partial.

(** ** C63: the server's handler receives the request the client built. *)
(** [rest]: whatever follows on the connection. llhttp is assumed to report the message that [reads] finds. *)
Theorem C63_request_end_to_end : forall gzip gunzip inflate host m us rest,
  let m' := before_send_request gzip host m in
  (forall b z, gzip b = Some z -> gunzip z = Some b) ->
  built_with m us -> good_value host -> no_value us (bs "Content-Length") -> no_value us (bs "Content-Encoding") ->
  Forall (fun c => c <> 13) (m_method m) -> Forall (fun c => c <> 13) (m_url m) -> 0 <= m_minor m <= 9 ->
  Z.of_nat (length (m_body m')) < 2 ^ 64 -> (forall z, gzip (m_body m) = Some z -> Z.of_nat (length z) < 2 ^ 64) ->
  exists start hs body,
    reads (request_to_buffer m' ++ rest) start hs body rest /\
    request_line (m_method m) (request_url m) (m_minor m) start /\
    forall i es, reports (mkw i (request_url m) hs body []) es ->
      exists s M, on_events true gunzip inflate pst0 es = Ok s /\ p_err s = false /\ p_out s = [M] /\
        m_method M = i_method i /\ m_url M = request_url m /\ m_body M = m_body m /\
        (forall n v, ~ In 0 n -> first_value us n v -> get_header (m_headers M) n = v).
Proof.
  intros gzip gunzip inflate host m us rest m' Hgz [Hm Hu] Hh Hcl Hce Hme Hur Hmi Hl Hz.
  pose proof (before_request gzip (fun _ => None) host us m Hu Hm Hh (or_introl Hcl) Hz) as X. cbv zeta in X. fold m' in X. destruct X as (e & G & Em & Ef & (S1 & S2 & S3 & _ & _) & Ec).
  rewrite <- S1 in Hme. rewrite <- S2 in Hur. assert (Hmi' : 0 <= m_minor m') by lia.
  destruct (request_reads (us ++ e) m' rest G Em Ef Hl Hme Hur Hmi') as [R Ca].
  exists (m_method m' ++ bs " " ++ request_url m' ++ bs " HTTP/1." ++ udec (m_minor m')), (req_headers m'), (m_body m').
  assert (EU : request_url m' = request_url m) by (unfold request_url; rewrite S2; reflexivity).
  split; [exact R|]. split.
  - exists (udec (m_minor m)). split; [apply udec_decimal; lia|]. rewrite S1, S3, EU. reflexivity.
  - intros i es Hr.
    assert (GH : goodh (req_headers m')) by (apply req_headers_good; rewrite Em; apply hins_good; [exact G|constructor|constructor]).
    assert (Hd : decodes gunzip inflate (mkw i (request_url m) (req_headers m') (m_body m') []) (m_body m)).
    { eapply (coded_decodes gzip (fun _ => None)); [exact Hgz|discriminate|exact Ec|exact Hce|exact Ca|].
      intro Hn. apply (req_noce (us ++ e) m' G Em Hn). }
    destruct (deliver_one true gunzip inflate _ es _ Hr eq_refl (goodh_namedok _ GH) ltac:(discriminate) Hd) as (s & M & A & B & C & D).
    exists s, M. split; [exact A|]. split; [exact B|]. split; [exact C|].
    destruct D as (_ & _ & _ & [D1 D2] & D3 & D4). cbn [w_info w_url w_headers] in *. split; [exact D1|]. split; [exact D2|].
    split; [eapply decodes_fun; [|exact D3|exact Hd]; apply goodh_namedok; exact GH|].
    intros n v Hn Hv. apply (carries_prefix _ _ _ Ca n v Hn) in Hv as Hv'.
    assert (NE : n <> []).
    { destruct Hv' as (pre & k & post & X & Y & _). intro; subst n. inversion Y; subst.
      unfold goodh in GH. rewrite X in GH. apply Forall_app in GH as [_ GH]. inversion GH as [|? ? [[Q _] _] _]; subst. apply Q. reflexivity. }
    destruct (D4 n NE Hn (or_introl eq_refl)) as [D5 _]. apply D5. exact Hv'.
Qed.
Print Assumptions C63_request_end_to_end.

(** ** C64: the client receives the response the handler built. *)
Theorem C64_response_end_to_end : forall gzip deflate gunzip inflate reqh m us rest,
  let m' := before_send_response gzip deflate reqh m in
  (forall b z, gzip b = Some z -> gunzip z = Some b) -> (forall b z, deflate b = Some z -> inflate z = Some b) ->
  built_with m us -> no_value us (bs "Content-Length") -> no_value us (bs "Content-Encoding") ->
  In (m_code m) known_codes -> 0 <= m_minor m <= 1 -> Z.of_nat (length (m_body m')) < 2 ^ 64 ->
  exists w start hs body,
    response_to_buffer m' = Ok w /\ reads (w ++ rest) start hs body rest /\
    status_line (m_code m) (m_minor m) start /\
    forall i es, i_code i = m_code m -> reports (mkw i [] hs body []) es ->
      exists s M, on_events false gunzip inflate pst0 es = Ok s /\ p_err s = false /\ p_out s = [M] /\
        m_code M = m_code m /\ m_body M = m_body m /\
        (forall n v, ~ In 0 n -> first_value us n v -> get_header (m_headers M) n = v).
Proof.
  intros gzip deflate gunzip inflate reqh m us rest m' Hgz Hdf [Hm Hu] Hcl Hce Hco Hmi Hl.
  pose proof (before_response gzip deflate reqh us m Hu Hm (or_introl Hcl)) as X. cbv zeta in X. fold m' in X. destruct X as (e & G & Em & Ef & (S1 & S2 & S3 & S4 & _) & Ec).
  destruct (head_line_known (m_code m) (m_minor m) Hco Hmi) as (start & A0 & B0 & C0). rewrite <- S3, <- S4 in A0.
  destruct (response_reads (us ++ e) m' start rest G Em Ef Hl C0 A0) as (w & Ew & R & Ca).
  exists w, start, (resp_headers m'), (m_body m'). split; [exact Ew|]. split; [exact R|]. split; [exact B0|].
  intros i es Hi Hr.
  assert (GH : goodh (resp_headers m')) by (apply resp_headers_good; rewrite Em; apply hins_good; [exact G|constructor|constructor]).
  assert (Hd : decodes gunzip inflate (mkw i [] (resp_headers m') (m_body m') []) (m_body m)).
  { eapply coded_decodes; [exact Hgz|exact Hdf|exact Ec|exact Hce|exact Ca|]. intro Hn. apply (resp_noce (us ++ e) m' G Em Hn). }
  destruct (deliver_one false gunzip inflate _ es _ Hr eq_refl (goodh_namedok _ GH) ltac:(reflexivity) Hd) as (s & M & A & B & C & D).
  exists s, M. split; [exact A|]. split; [exact B|]. split; [exact C|].
  destruct D as (_ & _ & _ & D1 & D3 & D4). cbn [w_info w_url w_headers] in *. split; [congruence|].
  split; [eapply decodes_fun; [|exact D3|exact Hd]; apply goodh_namedok; exact GH|].
  intros n v Hn Hv. apply (carries_prefix _ _ _ Ca n v Hn) in Hv as Hv'.
  assert (NE : n <> []).
  { destruct Hv' as (pre & k & post & X & Y & _). intro; subst n. inversion Y; subst.
    unfold goodh in GH. rewrite X in GH. apply Forall_app in GH as [_ GH]. inversion GH as [|? ? [[Q _] _] _]; subst. apply Q. reflexivity. }
  assert (NC : ~ ci_eq n (bs "Content-Encoding")).
  { intro Y. destruct Hv as (pre & k & post & X & Y' & _). subst us. unfold no_value in Hce. apply Forall_app in Hce as [_ Hce].
    inversion Hce; subst. cbn [fst] in *. apply H1. eapply ci_eq_trans; eauto. }
  destruct (D4 n NE Hn (or_intror NC)) as [D5 _]. apply D5. exact Hv'.
Qed.
Print Assumptions C64_response_end_to_end.

(** A large compressed response: hypotheses met, and the bytes really are compressed. *)
Definition gzr (b : list Z) : option (list Z) := Some (rev b).
Definition ex_msg : msg := mkmsg 1 1 true [] [] 200 (insert_header (bs "X-Id") (bs "7") []) big.
Example C64_example :
  (forall b z, gzr b = Some z -> gzr z = Some b) /\ built_with ex_msg [(bs "X-Id", bs "7")] /\
  no_value [(bs "X-Id", bs "7")] (bs "Content-Length") /\ no_value [(bs "X-Id", bs "7")] (bs "Content-Encoding") /\
  get_header (m_headers (before_send_response gzr gzr (insert_header (bs "Accept-Encoding") (bs "deflate,gzip") []) ex_msg)) (bs "content-encoding") = bs "gzip".
Proof.
  split; [intros b z H; injection H as <-; unfold gzr; rewrite rev_involutive; reflexivity|]. split.
  - split; [reflexivity|]. constructor; [|constructor]. split.
    + split; [discriminate|]. repeat constructor; discriminate.
    + split; [repeat constructor; discriminate|]. split; intros c l X.
      * injection X as <- _. split; discriminate.
      * change (bs "7") with ([] ++ [55]) in X. apply app_inj_tail in X as [_ <-]. split; discriminate.
  - split; [constructor; [|constructor]; intro C; apply ci_len in C; vm_compute in C; discriminate|].
    split; [constructor; [|constructor]; intro C; apply ci_len in C; vm_compute in C; discriminate|].
    vm_compute. reflexivity.
Qed.
