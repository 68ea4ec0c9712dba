(** Framing of sent messages. *)
From Coq Require Import String.
From Verif.Model Require Import Common Decimal Http.
From Verif.Spec Require Import RespSpec HttpSpec.
From Verif.Proofs Require Import Tac HttpHeaders HttpParse DecimalProofs HttpWire.
Open Scope Z_scope.
Notation length := List.length.

Notation CL := (bs "Content-Length").
Lemma gn_conn : good_name (bs "Connection"). Proof. apply good_const_name. auto. Qed.
Lemma gn_ae : good_name (bs "Accept-Encoding"). Proof. apply good_const_name. auto. Qed.
Lemma gn_cl : good_name CL. Proof. apply good_const_name. auto. Qed.
Lemma gn_ct : good_name (bs "Content-Type"). Proof. apply good_const_name. auto. Qed.
Lemma gn_ce : good_name (bs "Content-Encoding"). Proof. apply good_const_name. tauto. Qed.
Lemma gn_host : good_name (bs "Host"). Proof. apply good_const_name. tauto. Qed.

Lemma header_lines_length hs : (length hs <= length (header_lines hs))%nat.
Proof.
  induction hs as [|[k v] hs IH]; [cbn; lia|]. unfold header_lines in *. cbn [map concat fst snd length].
  rewrite app_length. assert (1 <= length (header_line k v))%nat by (unfold header_line; rewrite !app_length; cbn [length]; lia). lia.
Qed.

Lemma block_reads start hs body rest len : nocr start -> goodh hs -> first_value hs CL len ->
  decimal (Z.of_nat (length body)) len -> (forall k v, In (k, v) hs -> ci_eq k CL -> v = len) ->
  reads ((start ++ 13 :: 10 :: header_lines hs ++ 13 :: 10 :: body) ++ rest) start hs body rest.
Proof.
  intros Hs Hg Hf Hd Hu. exists (header_lines hs ++ 13 :: 10 :: body ++ rest), len, (Z.of_nat (length body)).
  split; [|split; [|auto]].
  - rewrite <- app_assoc. cbn [app]. rewrite <- app_assoc. cbn [app]. apply take_line_app. assumption.
  - apply take_headers_lines; [assumption|]. rewrite app_length. cbn [length]. pose proof (header_lines_length hs). lia.
Qed.

(** Content-Length either absent or right *)
Definition framing_ok (us : list (list Z * list Z)) (body : list Z) : Prop :=
  no_value us CL \/ exists len, first_value us CL len /\ decimal (Z.of_nat (length body)) len.

Lemma map_unique us n k v len : goodh us -> good_name n -> In (k, v) (hins us []) -> ci_eq k n ->
  first_value us n len -> v = len.
Proof.
  intros Hu Hn Hin Hc Hf. destruct (hins_good us [] Hu ltac:(constructor) ltac:(constructor)) as [G L].
  assert (S : sorted (hins us [])) by (apply hins_sorted, sorted_nil).
  apply map_find_In in Hin as Hk; [|assumption].
  unfold lowered in L. rewrite Forall_forall in L. specialize (L _ Hin). cbn [fst] in L.
  unfold goodh in G. rewrite Forall_forall in G. destruct (G _ Hin) as [Gk _]. cbn [fst] in Gk.
  apply ci_eq_lower in Hc; [|apply good_nonul; assumption|apply good_nonul; assumption]. rewrite L in Hc. subst k.
  rewrite hins_find in Hk; [|apply sorted_nil|apply namedok_ne, goodh_namedok; assumption]. cbn [map_find] in Hk.
  apply assoc_first in Hk; [|apply goodh_namedok; assumption|apply good_nonul; assumption].
  eapply first_value_fun; [apply goodh_namedok; eassumption| |exact Hk|exact Hf]. apply good_nonul. assumption.
Qed.
Lemma map_absent us n k v : goodh us -> good_name n -> no_value us n -> In (k, v) (hins us []) -> ~ ci_eq k n.
Proof.
  intros Hu Hn Hno Hin Hc. destruct (hins_good us [] Hu ltac:(constructor) ltac:(constructor)) as [G L].
  assert (S : sorted (hins us [])) by (apply hins_sorted, sorted_nil).
  apply map_find_In in Hin as Hk; [|assumption].
  unfold lowered in L. rewrite Forall_forall in L. specialize (L _ Hin). cbn [fst] in L.
  unfold goodh in G. rewrite Forall_forall in G. destruct (G _ Hin) as [Gk _]. cbn [fst] in Gk.
  apply ci_eq_lower in Hc; [|apply good_nonul; assumption|apply good_nonul; assumption]. rewrite L in Hc. subst k.
  rewrite hins_find in Hk; [|apply sorted_nil|apply namedok_ne, goodh_namedok; assumption]. cbn [map_find] in Hk.
  apply assoc_none in Hno; [congruence|apply goodh_namedok; assumption|apply good_nonul; assumption].
Qed.
Lemma hins_has us n : goodh us -> good_name n ->
  has_header (hins us []) n = match assoc_ci n us with Some _ => true | None => false end.
Proof.
  intros Hu Hn. unfold has_header. rewrite hins_find; [|apply sorted_nil|apply namedok_ne, goodh_namedok; assumption]. reflexivity.
Qed.
Lemma hins_get us n : goodh us ->
  get_header (hins us []) n = match assoc_ci n us with Some v => v | None => [] end.
Proof.
  intros Hu. unfold get_header. rewrite hins_find; [|apply sorted_nil|apply namedok_ne, goodh_namedok; assumption]. reflexivity.
Qed.
Lemma no_value_has us n : goodh us -> good_name n -> (no_value us n <-> has_header (hins us []) n = false).
Proof.
  intros Hu Hn. rewrite hins_has by assumption. rewrite <- (assoc_none n us); [|apply goodh_namedok; assumption|apply good_nonul; assumption].
  destruct (assoc_ci n us); split; congruence.
Qed.

Lemma ci_const_neq a b : good_name a -> good_name b -> beqb (to_lower a) (to_lower b) = false -> ~ ci_eq a b.
Proof.
  intros Ha Hb E C. apply ci_eq_lower in C; [|apply good_nonul; assumption|apply good_nonul; assumption].
  apply beqb_neq in E. contradiction.
Qed.
Lemma n_conn : ~ ci_eq (bs "Connection") CL. Proof. apply ci_const_neq; [apply gn_conn|apply gn_cl|reflexivity]. Qed.
Lemma n_ae : ~ ci_eq (bs "Accept-Encoding") CL. Proof. apply ci_const_neq; [apply gn_ae|apply gn_cl|reflexivity]. Qed.
Lemma n_ct : ~ ci_eq (bs "Content-Type") CL. Proof. apply ci_const_neq; [apply gn_ct|apply gn_cl|reflexivity]. Qed.

(** A default header block [D1 ++ cl_default ++ D2]. *)
Lemma framed us m D1 D2 : goodh us -> m_headers m = hins us [] -> framing_ok us (m_body m) ->
  Z.of_nat (length (m_body m)) < 2 ^ 64 -> goodh D1 -> goodh D2 ->
  no_value D1 CL -> no_value D2 CL ->
  exists len, first_value (m_headers m ++ D1 ++ cl_default m ++ D2) CL len /\
    decimal (Z.of_nat (length (m_body m))) len /\
    (forall k v, In (k, v) (m_headers m ++ D1 ++ cl_default m ++ D2) -> ci_eq k CL -> v = len).
Proof.
  intros Hu Hm Hf Hlen G1 G2 N1 N2.
  destruct (hins_good us [] Hu ltac:(constructor) ltac:(constructor)) as [G L].
  assert (GA : goodh (m_headers m ++ D1 ++ cl_default m ++ D2)).
  { rewrite Hm. repeat apply goodh_app; auto using cl_good. }
  destruct Hf as [Hno|(len & Hfv & Hd)].
  - exists (udec (Z.of_nat (length (m_body m)))).
    assert (HC : cl_default m = [(CL, udec (Z.of_nat (length (m_body m))))]).
    { unfold cl_default. rewrite Hm. apply no_value_has in Hno; [|assumption|apply gn_cl]. rewrite Hno. reflexivity. }
    rewrite HC in *. split; [|split].
    + exists (m_headers m ++ D1), CL, D2. split; [rewrite <- app_assoc; reflexivity|]. split; [apply ci_eq_refl|].
      apply Forall_app. split; [|exact N1]. rewrite Hm. apply Forall_forall. intros [k v] Hin. cbn [fst].
      eapply (map_absent us); [exact Hu|apply gn_cl|exact Hno|exact Hin].
    + apply udec_decimal. change (10 ^ 20) with 100000000000000000000. change (2 ^ 64) with 18446744073709551616 in Hlen. lia.
    + intros k v Hin Hc. rewrite !in_app_iff in Hin. destruct Hin as [Hin|[Hin|[Hin|Hin]]].
      * exfalso. rewrite Hm in Hin. apply (map_absent us CL k v Hu gn_cl Hno Hin Hc).
      * exfalso. unfold no_value in N1. rewrite Forall_forall in N1. apply (N1 _ Hin). exact Hc.
      * destruct Hin as [Hin|[]]. inv Hin. reflexivity.
      * exfalso. unfold no_value in N2. rewrite Forall_forall in N2. apply (N2 _ Hin). exact Hc.
  - exists len.
    assert (HC : cl_default m = []).
    { unfold cl_default. rewrite Hm, hins_has; [|assumption|apply gn_cl].
      apply first_value_assoc in Hfv; [|assumption|apply good_nonul, gn_cl]. rewrite Hfv. reflexivity. }
    rewrite HC in *. cbn [app] in *. split; [|split].
    + apply (app_carries us (m_headers m) (D1 ++ D2) Hu Hm GA); [apply good_nonul, gn_cl|exact Hfv].
    + exact Hd.
    + intros k v Hin Hc. rewrite !in_app_iff in Hin. destruct Hin as [Hin|[Hin|Hin]].
      * rewrite Hm in Hin. apply (map_unique us CL k v len Hu gn_cl Hin Hc Hfv).
      * exfalso. unfold no_value in N1. rewrite Forall_forall in N1. apply (N1 _ Hin). exact Hc.
      * exfalso. unfold no_value in N2. rewrite Forall_forall in N2. apply (N2 _ Hin). exact Hc.
Qed.
Lemma conn_nocl m : no_value (conn_default m) CL.
Proof. unfold conn_default. destruct (has_header _ _); constructor; [apply n_conn|constructor]. Qed.
Lemma ae_nocl m : no_value (ae_default m) CL.
Proof. unfold ae_default. destruct (has_header _ _); constructor; [apply n_ae|constructor]. Qed.
Lemma ct_nocl m : no_value (ct_default m) CL.
Proof. unfold ct_default. destruct (has_header _ _); constructor; [apply n_ct|constructor]. Qed.

Lemma nocr_bs_sp : nocr (bs " "). Proof. repeat constructor; discriminate. Qed.
Lemma nocr_bs_http : nocr (bs " HTTP/1."). Proof. repeat constructor; discriminate. Qed.
Lemma nocr_udec n : 0 <= n -> nocr (udec n).
Proof. intro H. eapply Forall_impl; [|apply (udec_digits 20 n H)]. intros c Hc. unfold isdigit in Hc. b2p. lia. Qed.

Lemma request_reads us m rest : goodh us -> m_headers m = hins us [] -> framing_ok us (m_body m) ->
  Z.of_nat (length (m_body m)) < 2 ^ 64 -> nocr (m_method m) -> nocr (m_url m) -> 0 <= m_minor m ->
  reads (request_to_buffer m ++ rest)
        (m_method m ++ bs " " ++ request_url m ++ bs " HTTP/1." ++ udec (m_minor m)) (req_headers m) (m_body m) rest /\
  carries us (req_headers m).
Proof.
  intros Hu Hm Hf Hl Hme Hurl Hmi. 
  destruct (hins_good us [] Hu ltac:(constructor) ltac:(constructor)) as [G L].
  assert (GA : goodh (req_headers m)) by (apply req_headers_good; rewrite Hm; assumption).
  split.
  - destruct (framed us m (conn_default m ++ ae_default m) (ct_default m) Hu Hm Hf Hl) as (len & A & B & C).
    + apply goodh_app; [apply conn_good|apply ae_good].
    + apply ct_good.
    + apply Forall_app. split; [apply conn_nocl|apply ae_nocl].
    + apply ct_nocl.
    + rewrite <- app_assoc in A, C. fold (req_headers m) in A, C. rewrite request_wire. eapply block_reads; eauto.
      apply Forall_app. split; [assumption|]. apply Forall_app. split; [apply nocr_bs_sp|]. apply Forall_app. split.
      * unfold request_url. destruct (m_url m) eqn:E; [repeat constructor; discriminate|assumption].
      * apply Forall_app. split; [apply nocr_bs_http|apply nocr_udec; assumption].
  - unfold req_headers in *. apply app_carries; assumption.
Qed.

Lemma response_reads us m start rest : goodh us -> m_headers m = hins us [] -> framing_ok us (m_body m) ->
  Z.of_nat (length (m_body m)) < 2 ^ 64 -> nocr start -> resp_head_line (m_code m) (m_minor m) = Ok (start ++ [13; 10]) ->
  exists w, response_to_buffer m = Ok w /\ reads (w ++ rest) start (resp_headers m) (m_body m) rest /\
  carries us (resp_headers m).
Proof.
  intros Hu Hm Hf Hl Hme Hh.
  destruct (hins_good us [] Hu ltac:(constructor) ltac:(constructor)) as [G L].
  assert (GA : goodh (resp_headers m)) by (apply resp_headers_good; rewrite Hm; assumption).
  rewrite (response_wire m _ Hh). eexists. split; [reflexivity|]. split.
  - destruct (framed us m (conn_default m) (ct_default m) Hu Hm Hf Hl) as (len & A & B & C);
      [apply conn_good|apply ct_good|apply conn_nocl|apply ct_nocl|].
    fold (resp_headers m) in A, C. rewrite <- (app_assoc start). cbn [app]. eapply block_reads; eauto.
  - unfold resp_headers in *. apply app_carries; assumption.
Qed.

(** status lines *)
Definition reason_ok (d : list Z) : bool :=
  match d with [] => false | _ => true end && forallb (fun x => (32 <=? x) && (x <? 127)) d.
Lemma table_reason c : In c known_codes -> exists d, table_get c status_table = Some d /\ reason_ok (bs d) = true /\
  100 <= c <= 511.
Proof.
  intro H.
  assert (A : forallb (fun c => match table_get c status_table with Some d => reason_ok (bs d) | None => false end &&
     (100 <=? c) && (c <=? 511)) known_codes = true) by (vm_compute; reflexivity).
  rewrite forallb_forall in A. specialize (A c H). destruct (table_get c status_table) as [d|]; [|discriminate].
  b2p. exists d. repeat split; auto.
Qed.
Lemma head_line_known c minor : In c known_codes -> 0 <= minor <= 1 ->
  exists start, resp_head_line c minor = Ok (start ++ [13; 10]) /\ status_line c minor start /\ nocr start.
Proof.
  intros Hc Hm. destruct (table_reason c Hc) as (d & Hd & Hr & Hb). unfold reason_ok in Hr. apply andb_true_iff in Hr as [Hr1 Hr2].
  assert (Hr3 : Forall (fun x => 32 <= x < 127) (bs d)).
  { apply Forall_forall. intros x Hx. rewrite forallb_forall in Hr2. specialize (Hr2 x Hx). b2p. lia. }
  exists (bs "HTTP/1." ++ udec minor ++ bs " " ++ udec c ++ bs " " ++ bs d). split; [|split].
  - unfold resp_head_line. destruct (Z.leb_spec 100 c); [|lia]. destruct (Z.leb_spec c 511); [|lia].
    destruct (Z.leb_spec minor 1); [|lia]. cbn [andb]. unfold resp_hl. rewrite Hd. rewrite <- !app_assoc. reflexivity.
  - exists (udec c), (udec minor), (bs d). split; [apply udec_decimal; lia|]. split; [apply udec_decimal; lia|].
    split; [destruct (bs d); [discriminate|congruence]|]. split; [exact Hr3|reflexivity].
  - apply Forall_app. split; [repeat constructor; discriminate|]. apply Forall_app. split; [apply nocr_udec; lia|].
    apply Forall_app. split; [apply nocr_bs_sp|]. apply Forall_app. split; [apply nocr_udec; lia|].
    apply Forall_app. split; [apply nocr_bs_sp|]. eapply Forall_impl; [|exact Hr3]. cbv beta. intros. lia.
Qed.

(** before sending *)
Lemma goodh_ce v : good_value v -> goodh [(bs "Content-Encoding", v)].
Proof. intro. apply goodh1; [apply gn_ce|assumption]. Qed.
Lemma insert_hins k v us : insert_header k v (hins us []) = hins (us ++ [(k, v)]) [].
Proof. rewrite hins_app. reflexivity. Qed.
Lemma carries_prefix us e hs : carries (us ++ e) hs -> carries us hs.
Proof.
  intros H n v Hn (pre & k & post & E & A & B). apply H; [assumption|]. exists pre, k, (post ++ e). subst us.
  rewrite <- app_assoc. auto.
Qed.
Lemma no_value_app a b n : no_value (a ++ b) n <-> no_value a n /\ no_value b n.
Proof. unfold no_value. rewrite Forall_app. reflexivity. Qed.
Lemma first_value_skip a k v n post : no_value a n -> ci_eq k n -> first_value (a ++ (k, v) :: post) n v.
Proof. intros. exists a, k, post. auto. Qed.


Definition same_line (m m' : msg) : Prop :=
  m_method m' = m_method m /\ m_url m' = m_url m /\ m_minor m' = m_minor m /\ m_code m' = m_code m /\ m_alive m' = m_alive m.

Lemma n_ce_cl : ~ ci_eq (bs "Content-Encoding") CL. Proof. apply ci_const_neq; [apply gn_ce|apply gn_cl|reflexivity]. Qed.
Lemma n_cl_ce : ~ ci_eq CL (bs "Content-Encoding"). Proof. intro C. apply n_ce_cl. apply ci_eq_sym. exact C. Qed.
Lemma n_host_cl : ~ ci_eq (bs "Host") CL. Proof. apply ci_const_neq; [apply gn_host|apply gn_cl|reflexivity]. Qed.
Lemma n_host_ce : ~ ci_eq (bs "Host") (bs "Content-Encoding"). Proof. apply ci_const_neq; [apply gn_host|apply gn_ce|reflexivity]. Qed.

Section Send.
Variable gzip deflate : list Z -> option (list Z).
Notation CE := (bs "Content-Encoding").

(** how the body of [m'] represents the body of [m] *)
Definition coded (m m' : msg) (us us' : list (list Z * list Z)) : Prop :=
  (m_body m' = m_body m /\ (no_value us CE -> no_value us' CE)) \/
  (no_value us CE /\ 8096 < Z.of_nat (length (m_body m)) /\
   ((gzip (m_body m) = Some (m_body m') /\ first_value us' CE (bs "gzip")) \/
    (deflate (m_body m) = Some (m_body m') /\ first_value us' CE (bs "deflate")))).

Lemma before_request host us m : goodh us -> m_headers m = hins us [] -> good_value host ->
  no_value us CL \/ (Z.of_nat (length (m_body m)) <= 8096 /\ framing_ok us (m_body m)) ->
  (forall z, gzip (m_body m) = Some z -> Z.of_nat (length z) < 2 ^ 64) ->
  let m' := before_send_request gzip host m in
  exists e, goodh (us ++ e) /\ m_headers m' = hins (us ++ e) [] /\ framing_ok (us ++ e) (m_body m') /\
    same_line m m' /\ coded m m' us (us ++ e).
Proof.
  intros Hu Hm Hh Hf Hz. cbv zeta. unfold before_send_request.
  set (m1 := if _ && _ then _ else m).
  assert (H1 : exists e, goodh (us ++ e) /\ m_headers m1 = hins (us ++ e) [] /\ framing_ok (us ++ e) (m_body m1) /\
    same_line m m1 /\ coded m m1 us (us ++ e)).
  { assert (Hsame : no_value us CL \/ framing_ok us (m_body m) -> exists e, goodh (us ++ e) /\ m_headers m = hins (us ++ e) [] /\
       framing_ok (us ++ e) (m_body m) /\ same_line m m /\ coded m m us (us ++ e)).
    { intro Hf'. exists []. rewrite app_nil_r. split; [assumption|]. split; [assumption|]. split.
      - destruct Hf' as [Hf'|Hf']; [left; exact Hf'|exact Hf'].
      - split; [repeat split|]. left. auto. }
    unfold m1. destruct ((8096 <? Z.of_nat (length (m_body m))) && negb (has_header (m_headers m) CE)) eqn:C.
    - b2p. destruct Hf as [Hf|[Hf _]]; [|lia]. destruct (gzip (m_body m)) as [z|] eqn:Gz; [|apply Hsame; auto].
      exists [(CE, bs "gzip"); (CL, udec (Z.of_nat (length z)))].
      rewrite Hm in *. apply no_value_has in H0 as Hce; [|assumption|apply gn_ce].
      split; [apply goodh_app; [assumption|]; constructor; [split; [apply gn_ce|apply good_const_value; tauto]|];
              apply goodh1; [apply gn_cl|apply good_udec; lia]|].
      split; [cbn [m_headers set_body set_headers]; rewrite !insert_hins, <- app_assoc; reflexivity|].
      split.
      + right. exists (udec (Z.of_nat (length z))). split.
        * change (us ++ [(CE, bs "gzip"); (CL, udec (Z.of_nat (length z)))]) with (us ++ [(CE, bs "gzip")] ++ [(CL, udec (Z.of_nat (length z)))]).
          rewrite app_assoc. apply first_value_skip; [|apply ci_eq_refl]. apply no_value_app. split; [assumption|].
          constructor; [apply n_ce_cl|constructor].
        * cbn [m_body set_body]. apply udec_decimal. specialize (Hz z eq_refl).
          change (10 ^ 20) with 100000000000000000000. change (2 ^ 64) with 18446744073709551616 in Hz. lia.
      + split; [repeat split|]. right. split; [exact Hce|]. split; [lia|]. left. split; [exact Gz|].
        apply first_value_skip; [exact Hce|apply ci_eq_refl].
    - apply Hsame. destruct Hf as [Hf|[_ Hf]]; auto. }
  clearbody m1. destruct H1 as (e & G & Em & Ef & Es & Ec).
  destruct (has_header (m_headers m1) (bs "Host")) eqn:HH; [exists e; auto|].
  exists (e ++ [(bs "Host", host)]). rewrite app_assoc. split; [apply goodh_app; [assumption|apply goodh1; [apply gn_host|assumption]]|].
  split; [cbn [m_headers set_headers]; rewrite Em; apply insert_hins|]. cbn [m_body set_headers].
  split; [|split].
  - destruct Ef as [Ef|(len & Ef & Ed)].
    + left. apply no_value_app. split; [assumption|]. constructor; [apply n_host_cl|constructor].
    + right. exists len. split; [|assumption]. destruct Ef as (pre & k & post & E & A & B).
      exists pre, k, (post ++ [(bs "Host", host)]). rewrite E, <- app_assoc. auto.
  - exact Es.
  - destruct Ec as [[Ec1 Ec2]|(Ec1 & Ec2 & Ec3)]; [left; split; [exact Ec1|]|right; split; [exact Ec1|split; [exact Ec2|]]].
    + intro Hn. apply no_value_app. split; [auto|]. constructor; [apply n_host_ce|constructor].
    + assert (FV : forall v, first_value (us ++ e) CE v -> first_value ((us ++ e) ++ [(bs "Host", host)]) CE v).
      { intros v (pre & k & post & E & A & B). exists pre, k, (post ++ [(bs "Host", host)]). rewrite E, <- app_assoc. auto. }
      destruct Ec3 as [[X Y]|[X Y]]; [left|right]; auto.
Qed.

Lemma before_response rh us m : goodh us -> m_headers m = hins us [] ->
  no_value us CL \/ (Z.of_nat (length (m_body m)) <= 8096 /\ framing_ok us (m_body m)) ->
  let m' := before_send_response gzip deflate rh m in
  exists e, goodh (us ++ e) /\ m_headers m' = hins (us ++ e) [] /\ framing_ok (us ++ e) (m_body m') /\
    same_line m m' /\ coded m m' us (us ++ e).
Proof.
  intros Hu Hm Hf. cbv zeta. unfold before_send_response.
  assert (Hsame : exists e, goodh (us ++ e) /\ m_headers m = hins (us ++ e) [] /\
       framing_ok (us ++ e) (m_body m) /\ same_line m m /\ coded m m us (us ++ e)).
  { exists []. rewrite app_nil_r. split; [assumption|]. split; [assumption|]. split.
    - destruct Hf as [Hf'|[_ Hf']]; [left; exact Hf'|exact Hf'].
    - split; [repeat split|]. left. auto. }
  destruct ((8096 <? Z.of_nat (length (m_body m))) && negb (has_header (m_headers m) CE)) eqn:C; [|exact Hsame].
  b2p. destruct Hf as [Hf|[Hf _]]; [|lia]. rewrite Hm in H0. apply no_value_has in H0 as Hce; [|assumption|apply gn_ce].
  assert (HE : forall z c, good_value c -> exists e, goodh (us ++ e) /\
     m_headers (set_headers (set_body m z) (insert_header CE c (m_headers m))) = hins (us ++ e) [] /\
     framing_ok (us ++ e) z /\ same_line m (set_headers (set_body m z) (insert_header CE c (m_headers m))) /\
     first_value (us ++ e) CE c).
  { intros z c Hc. exists [(CE, c)]. split; [apply goodh_app; [assumption|apply goodh_ce; assumption]|].
    split; [cbn [m_headers set_headers]; rewrite Hm; apply insert_hins|]. split.
    - left. apply no_value_app. split; [assumption|]. constructor; [apply n_ce_cl|constructor].
    - split; [repeat split|]. apply first_value_skip; [exact Hce|apply ci_eq_refl]. }
  destruct (contains (bs "gzip") _).
  - destruct (gzip (m_body m)) as [z|] eqn:Gz; [|exact Hsame].
    destruct (HE z (bs "gzip")) as (e & A & B & D & E & F); [apply good_const_value; tauto|].
    exists e. split; [exact A|]. split; [exact B|]. split; [exact D|]. split; [exact E|]. right. 
    split; [exact Hce|]. split; [lia|]. left. split; [exact Gz|exact F].
  - destruct (contains (bs "deflate") _); [|exact Hsame]. destruct (deflate (m_body m)) as [z|] eqn:Gz; [|exact Hsame].
    destruct (HE z (bs "deflate")) as (e & A & B & D & E & F); [apply good_const_value; tauto|].
    exists e. split; [exact A|]. split; [exact B|]. split; [exact D|]. split; [exact E|]. right. 
    split; [exact Hce|]. split; [lia|]. right. split; [exact Gz|exact F].
Qed.
End Send.

(** The peer's context on one whole message. *)
Lemma deliver_one req gunzip inflate w es b : reports w es -> w_trailers w = [] -> namedok (w_headers w) ->
  (req = false -> w_url w = []) -> decodes gunzip inflate w b ->
  exists s M, on_events req gunzip inflate pst0 es = Ok s /\ p_err s = false /\ p_out s = [M] /\
    delivers req gunzip inflate w M.
Proof.
  intros Hr Ht Hn Hq Hd.
  destruct (run_msg req gunzip inflate w es pst0 Hr (namedok_ne _ Hn) Hq eq_refl) as (fl & f & E).
  pose proof (parsed_spec req gunzip inflate w Hn) as P.
  assert (EB : built (p_value pst0) w = built [] (plain w)) by (unfold built, plain; rewrite Ht; reflexivity).
  rewrite EB in E. destruct (on_message_parsed req gunzip inflate (built [] (plain w)) (w_info w)) as [M|].
  - exists (mkpst None fl f (carry (w_trailers w)) false ([] ++ [M])), M. auto.
  - exfalso. apply (P b Hd).
Qed.
Lemma decodes_fun gunzip inflate w b b' : namedok (w_headers w) -> decodes gunzip inflate w b -> decodes gunzip inflate w b' -> b = b'.
Proof.
  intros Hn H H'. assert (F : forall v v', first_value (w_headers w) (bs "Content-Encoding") v ->
     first_value (w_headers w) (bs "Content-Encoding") v' -> v = v')
    by (intros; eapply first_value_fun; eauto; apply nonul_ce).
  destruct H as [(v & A & B & C)|[(v & A & B & C & D)|[A B]]], H' as [(v' & A' & B' & C')|[(v' & A' & B' & C' & D')|[A' B']]];
    try (rewrite (F v v' A A') in *; contradiction); try congruence.
  - destruct (A' v A). contradiction.
  - destruct (A' v A). contradiction.
  - destruct (A v' A'). contradiction.
  - destruct (A v' A'). contradiction.
Qed.

Lemma defaults_noce m : no_value (conn_default m) (bs "Content-Encoding") /\ no_value (ae_default m) (bs "Content-Encoding") /\
  no_value (cl_default m) (bs "Content-Encoding") /\ no_value (ct_default m) (bs "Content-Encoding").
Proof.
  unfold conn_default, ae_default, cl_default, ct_default.
  repeat split; destruct (has_header _ _); constructor; try constructor; cbn [fst]; apply ci_const_neq;
    auto using gn_conn, gn_ae, gn_cl, gn_ct, gn_ce.
Qed.
Lemma map_noce us : goodh us -> no_value us (bs "Content-Encoding") -> no_value (hins us []) (bs "Content-Encoding").
Proof.
  intros Hu Hn. apply Forall_forall. intros [k v] Hin. cbn [fst]. apply (map_absent us _ k v Hu gn_ce Hn Hin).
Qed.
Lemma req_noce us m : goodh us -> m_headers m = hins us [] -> no_value us (bs "Content-Encoding") ->
  no_value (req_headers m) (bs "Content-Encoding").
Proof.
  intros Hu Hm Hn. destruct (defaults_noce m) as (A & B & C & D). unfold req_headers. rewrite Hm.
  repeat (apply no_value_app; split); auto using map_noce.
Qed.
Lemma resp_noce us m : goodh us -> m_headers m = hins us [] -> no_value us (bs "Content-Encoding") ->
  no_value (resp_headers m) (bs "Content-Encoding").
Proof.
  intros Hu Hm Hn. destruct (defaults_noce m) as (A & B & C & D). unfold resp_headers. rewrite Hm.
  repeat (apply no_value_app; split); auto using map_noce.
Qed.
Lemma no_value_first hs n v : no_value hs n -> ~ first_value hs n v.
Proof.
  intros H (pre & k & post & E & A & B). subst. unfold no_value in H. rewrite Forall_app in H. destruct H as [_ H].
  inversion H; subst. contradiction.
Qed.

Section E2E.
Variable gzip deflate gunzip inflate : list Z -> option (list Z).
Hypothesis gunzip_gzip : forall b z, gzip b = Some z -> gunzip z = Some b.
Hypothesis inflate_deflate : forall b z, deflate b = Some z -> inflate z = Some b.

Lemma coded_decodes m m' us us' hs i url : coded gzip deflate m m' us us' -> no_value us (bs "Content-Encoding") ->
  carries us' hs -> (no_value us' (bs "Content-Encoding") -> no_value hs (bs "Content-Encoding")) ->
  decodes gunzip inflate (mkw i url hs (m_body m') []) (m_body m).
Proof.
  intros Hc Hn Hcar Hno. destruct Hc as [[Eb Hx]|(_ & _ & [[Hg Hf]|[Hg Hf]])].
  - right; right. cbn [w_headers w_body]. split; [|symmetry; exact Eb]. intros v Hv. exfalso.
    eapply no_value_first; [apply Hno, Hx, Hn|exact Hv].
  - left. exists (bs "gzip"). cbn [w_headers w_body]. split; [apply Hcar; [apply nonul_ce|exact Hf]|].
    split; [exists [], []; reflexivity|]. apply gunzip_gzip. exact Hg.
  - right; left. exists (bs "deflate"). cbn [w_headers w_body]. split; [apply Hcar; [apply nonul_ce|exact Hf]|].
    split; [intro C; apply contains_spec in C; vm_compute in C; discriminate|].
    split; [exists [], []; reflexivity|]. apply inflate_deflate. exact Hg.
Qed.
End E2E.

Lemma deliver_all req gunzip inflate ws ess : Forall2 reports ws ess ->
  Forall (fun w => w_trailers w = [] /\ namedok (w_headers w) /\ (req = false -> w_url w = []) /\
                   exists b, decodes gunzip inflate w b) ws ->
  forall s, p_err s = false -> p_value s = [] -> exists s' outs,
     on_events req gunzip inflate s (concat ess) = Ok s' /\ p_err s' = false /\ p_value s' = [] /\ p_out s' = p_out s ++ outs /\
     Forall2 (delivers req gunzip inflate) ws outs.
Proof.
  intros H0. induction H0 as [|w es ws ess Hr H0 IH]; intros H1 s E V.
  - exists s, []. cbn. rewrite app_nil_r. auto.
  - inversion H1 as [|? ? (Ht & Hn & Hq & b & Hd) H1']; subst.
    destruct (run_msg req gunzip inflate w es s Hr (namedok_ne _ Hn) Hq E) as (fl & f & R).
    pose proof (parsed_spec req gunzip inflate w Hn) as P. rewrite V in R.
    assert (EB : built [] w = built [] (plain w)) by (unfold built, plain; rewrite Ht; reflexivity).
    rewrite EB in R. destruct (on_message_parsed req gunzip inflate (built [] (plain w)) (w_info w)) as [M|];
      [|destruct (P b Hd)].
    rewrite Ht in R.
    destruct (IH H1' (mkpst None fl f (carry []) false (p_out s ++ [M])) eq_refl eq_refl) as (s' & outs & R' & E' & V' & O' & F').
    exists s', (M :: outs). cbn [concat]. rewrite (run_app_ok _ _ _ _ _ _ _ R). split; [exact R'|]. split; [exact E'|]. split; [exact V'|].
    split; [cbn [p_out] in O'; rewrite O', <- app_assoc; reflexivity|constructor; assumption].
Qed.
Lemma ci_len a b : ci_eq a b -> length a = length b.
Proof. induction 1; cbn [length]; congruence. Qed.
