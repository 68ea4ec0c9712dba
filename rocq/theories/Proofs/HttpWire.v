(** The wire format. *)
From Coq Require Import String.
From Verif.Model Require Import Common Decimal Http.
From Verif.Spec Require Import RespSpec HttpSpec.
From Verif.Proofs Require Import Tac HttpHeaders HttpParse DecimalProofs.
Open Scope Z_scope.
Notation length := List.length.

Definition nocr (l : list Z) : Prop := Forall (fun c => c <> 13) l.
Lemma take_line_app l r : nocr l -> take_line (l ++ 13 :: 10 :: r) = Some (l, r).
Proof.
  induction 1 as [|c l H _ IH]; [reflexivity|]. cbn [app take_line]. rewrite IH.
  destruct (Z.eqb_spec c 13); [contradiction|]. reflexivity.
Qed.
Lemma take_name_app l r : Forall (fun c => c <> 58) l -> take_name (l ++ 58 :: r) = Some (l, r).
Proof.
  induction 1 as [|c l H _ IH]; [reflexivity|]. cbn [app take_name]. rewrite IH.
  destruct (Z.eqb_spec c 58); [contradiction|]. reflexivity.
Qed.
Lemma skip_blank_good v : (forall c l, v = c :: l -> c <> 32 /\ c <> 9) -> skip_blank v = v.
Proof.
  destruct v as [|c l]; intro H; [reflexivity|]. cbn [skip_blank]. destruct (H c l eq_refl).
  destruct (Z.eqb_spec c 32), (Z.eqb_spec c 9); try contradiction. reflexivity.
Qed.
Lemma trim_good v : good_value v -> trim (32 :: v) = v.
Proof.
  intros (_ & H1 & H2). unfold trim. change (skip_blank (32 :: v)) with (skip_blank v).
  rewrite (skip_blank_good v H1). rewrite skip_blank_good; [apply rev_involutive|].
  intros c l E. apply (H2 c (rev l)). rewrite <- (rev_involutive v), E. cbn [rev]. reflexivity.
Qed.
Lemma take_headers_lines hs : forall n rest, Forall (fun kv => good_name (fst kv) /\ good_value (snd kv)) hs ->
  (length hs < n)%nat -> take_headers n (header_lines hs ++ 13 :: 10 :: rest) = Some (hs, rest).
Proof.
  induction hs as [|[k v] hs IH]; intros n rest H Hn; (destruct n as [|n]; [lia|]).
  - reflexivity.
  - inversion H as [|? ? [[K1 K2] V] H']; subst. cbn [fst snd] in *. pose proof V as (V1 & _ & _).
    unfold header_lines. cbn [map concat fst snd]. fold (header_lines hs). unfold header_line. change (bs ": ") with [58; 32].
    cbn [take_headers].
    replace (((k ++ [58; 32] ++ v ++ [13; 10]) ++ header_lines hs) ++ 13 :: 10 :: rest)
      with ((k ++ 58 :: 32 :: v) ++ 13 :: 10 :: (header_lines hs ++ 13 :: 10 :: rest)).
    2:{ rewrite <- !app_assoc. cbn [app]. reflexivity. }
    rewrite take_line_app.
    2:{ apply Forall_app. split; [eapply Forall_impl; [|exact K2]; intros c (_ & Q & _); exact Q|].
        constructor; [discriminate|]. constructor; [discriminate|]. eapply Forall_impl; [|exact V1]. intros c (Q & _); exact Q. }
    destruct (k ++ 58 :: 32 :: v) as [|x line] eqn:E; [destruct k; discriminate|]. rewrite <- E.
    rewrite take_name_app by (eapply Forall_impl; [|exact K2]; intros c (_ & _ & _ & Q); exact Q).
    cbn [length] in Hn. rewrite IH; [|assumption|lia]. rewrite trim_good by assumption. reflexivity.
Qed.

(** decimal text *)
Lemma udec_fuel_decimal f : forall n, 0 <= n < 10 ^ Z.of_nat f -> decimal n (udec_fuel f n) \/ f = O.
Proof.
  induction f as [|f IH]; intros n H; [auto|]. left. cbn [udec_fuel]. destruct (Z.ltb_spec n 10).
  - apply dec_digit. lia.
  - assert (Hp : 10 ^ Z.of_nat (S f) = 10 * 10 ^ Z.of_nat f) by (rewrite Nat2Z.inj_succ, Z.pow_succ_r by lia; reflexivity).
    rewrite Hp in H. pose proof (Z.div_mod n 10 ltac:(lia)) as D. pose proof (Z.mod_pos_bound n 10 ltac:(lia)).
    assert (Q : 0 <= n / 10 < 10 ^ Z.of_nat f) by (split; [apply Z.div_pos; lia|apply Z.div_lt_upper_bound; lia]).
    assert (Q1 : 0 < n / 10) by (apply Z.div_str_pos; lia).
    rewrite D at 1. constructor; [lia| |lia]. destruct (IH (n / 10) Q) as [X|X]; [exact X|].
    subst f. change (10 ^ Z.of_nat 0) with 1 in Q. lia.
Qed.
Lemma udec_decimal n : 0 <= n < 10 ^ 20 -> decimal n (udec n).
Proof. intro H. destruct (udec_fuel_decimal 20 n); [exact H|assumption|discriminate]. Qed.
Lemma decimal_digits n l : decimal n l -> Forall (fun c => 48 <= c <= 57) l /\ l <> [].
Proof.
  induction 1 as [d H|n l d H1 H2 [IH _] H3].
  - split; [|discriminate]. constructor; [lia|constructor].
  - split; [|destruct l; discriminate]. apply Forall_app. split; [assumption|]. constructor; [lia|constructor].
Qed.
Lemma decimal_fun n l : decimal n l -> forall l', decimal n l' -> l = l'.
Proof.
  induction 1 as [d H|n l d H1 H2 IH H3]; intros l' H'.
  - inversion H'; subst; [reflexivity|lia].
  - inversion H' as [d' Hd E|n' l2 d' A B C E]; subst; [lia|].
    change (10 * n' + d' = 10 * n + d) in E.
    assert (n = n' /\ d = d') as [<- <-] by lia. f_equal. auto.
Qed.
Lemma decimal_value n l : decimal n l -> strtol_digits 0 l = n.
Proof.
  assert (D : forall d, 0 <= d < 10 -> isdigit (48 + d) = true) by (intros; apply isdigit_small; lia).
  induction 1 as [d H|n l d H1 H2 IH H3].
  - cbn [strtol_digits]. rewrite D by assumption. lia.
  - rewrite strtol_digits_app; [|apply decimal_digits in H2 as [H2 _]; eapply Forall_impl; [|exact H2]; intros c Hc; unfold isdigit; apply andb_true_intro; split; apply Z.leb_le; cbv beta in Hc; lia].
    rewrite IH. cbn [strtol_digits]. rewrite D by assumption. lia.
Qed.
Lemma decimal_inj l n : decimal n l -> forall n', decimal n' l -> n = n'.
Proof. intros H n' H'. apply decimal_value in H, H'. congruence. Qed.

(** the header block *)
Definition conn_default (m : msg) : list (list Z * list Z) :=
  if has_header (m_headers m) (bs "Connection") then []
  else [(bs "Connection", if m_alive m then bs "keep-alive" else bs "Close")].
Definition ae_default (m : msg) : list (list Z * list Z) :=
  if has_header (m_headers m) (bs "Accept-Encoding") then [] else [(bs "Accept-Encoding", bs "deflate,gzip")].
Definition cl_default (m : msg) : list (list Z * list Z) :=
  if has_header (m_headers m) (bs "Content-Length") then [] else [(bs "Content-Length", udec (Z.of_nat (length (m_body m))))].
Definition ct_default (m : msg) : list (list Z * list Z) :=
  if has_header (m_headers m) (bs "Content-Type") then [] else [(bs "Content-Type", bs "text/plain")].
Definition req_headers (m : msg) := m_headers m ++ conn_default m ++ ae_default m ++ cl_default m ++ ct_default m.
Definition resp_headers (m : msg) := m_headers m ++ conn_default m ++ cl_default m ++ ct_default m.

Lemma header_lines_app a b : header_lines (a ++ b) = header_lines a ++ header_lines b.
Proof. unfold header_lines. rewrite map_app, concat_app. reflexivity. Qed.

Lemma request_wire m : request_to_buffer m =
  (m_method m ++ bs " " ++ request_url m ++ bs " HTTP/1." ++ udec (m_minor m)) ++ 13 :: 10 ::
  header_lines (req_headers m) ++ 13 :: 10 :: m_body m.
Proof.
  unfold request_to_buffer, req_headers. rewrite !header_lines_app.
  replace (header_lines (conn_default m)) with (if has_header (m_headers m) (bs "Connection") then []
   else if m_alive m then bs "Connection: keep-alive" ++ [13; 10] else bs "Connection: Close" ++ [13; 10])
   by (unfold conn_default; destruct (has_header _ _), (m_alive m); reflexivity).
  replace (header_lines (ae_default m)) with (if has_header (m_headers m) (bs "Accept-Encoding") then []
   else bs "Accept-Encoding: deflate,gzip" ++ [13; 10])
   by (unfold ae_default; destruct (has_header _ _); reflexivity).
  replace (header_lines (cl_default m)) with (if has_header (m_headers m) (bs "Content-Length") then []
   else header_line (bs "Content-Length") (udec (Z.of_nat (length (m_body m)))))
   by (unfold cl_default, header_lines; destruct (has_header _ _); [reflexivity|]; cbn [map concat fst snd]; rewrite app_nil_r; reflexivity).
  replace (header_lines (ct_default m)) with (if has_header (m_headers m) (bs "Content-Type") then []
   else bs "Content-Type: text/plain" ++ [13; 10])
   by (unfold ct_default; destruct (has_header _ _); reflexivity).
  rewrite <- !app_assoc. reflexivity.
Qed.

Lemma response_wire m hl : resp_head_line (m_code m) (m_minor m) = Ok hl -> response_to_buffer m =
  Ok (hl ++ header_lines (resp_headers m) ++ 13 :: 10 :: m_body m).
Proof.
  intro E. unfold response_to_buffer, resp_headers. rewrite E. cbn [obind]. rewrite !header_lines_app.
  replace (header_lines (conn_default m)) with (if has_header (m_headers m) (bs "Connection") then []
   else if m_alive m then bs "Connection: keep-alive" ++ [13; 10] else bs "Connection: Close" ++ [13; 10])
   by (unfold conn_default; destruct (has_header _ _), (m_alive m); reflexivity).
  replace (header_lines (cl_default m)) with (if has_header (m_headers m) (bs "Content-Length") then []
   else header_line (bs "Content-Length") (udec (Z.of_nat (length (m_body m)))))
   by (unfold cl_default, header_lines; destruct (has_header _ _); [reflexivity|]; cbn [map concat fst snd]; rewrite app_nil_r; reflexivity).
  replace (header_lines (ct_default m)) with (if has_header (m_headers m) (bs "Content-Type") then []
   else bs "Content-Type: text/plain" ++ [13; 10])
   by (unfold ct_default; destruct (has_header _ _); reflexivity).
  f_equal. rewrite <- !app_assoc. reflexivity.
Qed.

(** lower-casing keeps names good *)
Lemma tolower_props c : c <> 0 /\ c <> 13 /\ c <> 10 /\ c <> 58 ->
  tolower c <> 0 /\ tolower c <> 13 /\ tolower c <> 10 /\ tolower c <> 58.
Proof. unfold tolower. destruct ((65 <=? c) && (c <=? 90)) eqn:E; b2p; lia. Qed.
Lemma good_nonul k : good_name k -> ~ In 0 k.
Proof. intros [_ H] C. rewrite Forall_forall in H. destruct (H 0 C). congruence. Qed.
Lemma good_lower k : good_name k -> good_name (to_lower k).
Proof.
  intro H. rewrite to_lower_nonul by (apply good_nonul; assumption). destruct H as [H1 H2]. split.
  - destruct k; [congruence|discriminate].
  - apply Forall_map. eapply Forall_impl; [|exact H2]. apply tolower_props.
Qed.
Lemma tolower_idem c : tolower (tolower c) = tolower c.
Proof. unfold tolower. destruct ((65 <=? c) && (c <=? 90)) eqn:E, ((65 <=? c + 32) && (c + 32 <=? 90)) eqn:E2; b2p; try lia; rewrite E; reflexivity. Qed.
Lemma to_lower_idem k : ~ In 0 k -> to_lower (to_lower k) = to_lower k.
Proof.
  intro H. rewrite (to_lower_nonul k) by assumption. rewrite to_lower_nonul.
  - rewrite map_map. apply map_ext. apply tolower_idem.
  - rewrite in_map_iff. intros (c & E & C). assert (c = 0) by (unfold tolower in E; destruct ((65 <=? c) && (c <=? 90)) eqn:E2; b2p; lia).
    subst. contradiction.
Qed.

Definition goodh (hs : list (list Z * list Z)) : Prop := Forall (fun kv => good_name (fst kv) /\ good_value (snd kv)) hs.
Lemma goodh_namedok hs : goodh hs -> namedok hs.
Proof. apply Forall_impl. intros [k v] [H1 H2]. cbn [fst snd] in *. split; [apply H1|apply good_nonul; assumption]. Qed.
Definition lowered (m : kvmap) : Prop := Forall (fun kv => to_lower (fst kv) = fst kv) m.
Lemma hins_good us : forall m, goodh us -> goodh m -> lowered m -> goodh (hins us m) /\ lowered (hins us m).
Proof.
  induction us as [|[k v] us IH]; intros m Hu Hm Hl; [split; assumption|]. inversion Hu as [|? ? [K V] Hu']; subst. cbn [fst snd] in *.
  unfold hins. cbn [fold_left fst snd]. apply IH; [assumption| |].
  - unfold insert_header. destruct k as [|x k]; [assumption|]. apply Forall_forall. intros kv Hin.
    apply map_insert_In in Hin as [->|Hin]; [|unfold goodh in Hm; rewrite Forall_forall in Hm; auto].
    cbn [fst snd]. split; [apply good_lower; assumption|assumption].
  - unfold insert_header. destruct k as [|x k]; [assumption|]. apply Forall_forall. intros kv Hin.
    apply map_insert_In in Hin as [->|Hin]; [|unfold lowered in Hl; rewrite Forall_forall in Hl; auto].
    cbn [fst]. apply to_lower_idem. apply good_nonul. assumption.
Qed.
Lemma assoc_find n m : lowered m -> assoc_ci n m = map_find (to_lower n) m.
Proof.
  induction m as [|[k v] m IH]; intro H; [reflexivity|]. inversion H; subst. cbn [fst] in *. cbn [assoc_ci map_find].
  rewrite H2. destruct (beqb (to_lower n) k); [reflexivity|auto].
Qed.
Lemma assoc_app n a b : assoc_ci n (a ++ b) = match assoc_ci n a with Some v => Some v | None => assoc_ci n b end.
Proof. induction a as [|[k v] a IH]; [reflexivity|]. cbn [app assoc_ci]. destruct (beqb _ _); [reflexivity|exact IH]. Qed.
Lemma has_header_assoc m n : lowered m -> has_header m n = match assoc_ci n m with Some _ => true | None => false end.
Proof. intro H. unfold has_header. rewrite assoc_find by assumption. reflexivity. Qed.

Lemma good_const_value v : v = bs "keep-alive" \/ v = bs "Close" \/ v = bs "deflate,gzip" \/ v = bs "text/plain" \/ v = bs "gzip" \/ v = bs "deflate" -> good_value v.
Proof.
  intro H. assert (B : forall c, In c v -> 32 < c).
  { intros c Hc. assert (Hf : forallb (fun c => 32 <? c) v = true) by (decompose [or] H; subst v; vm_compute; reflexivity).
    rewrite forallb_forall in Hf. apply Z.ltb_lt. apply Hf. assumption. }
  split; [|split].
  - apply Forall_forall. intros c Hc. apply B in Hc. lia.
  - intros c l E. assert (In c v) by (rewrite E; left; reflexivity). apply B in H0. lia.
  - intros c l E. assert (In c v) by (rewrite E; apply in_or_app; right; left; reflexivity). apply B in H0. lia.
Qed.
Lemma good_const_name k : k = bs "Connection" \/ k = bs "Accept-Encoding" \/ k = bs "Content-Length" \/ k = bs "Content-Type" \/ k = bs "Content-Encoding" \/ k = bs "Host" -> good_name k.
Proof.
  intro H. split; [decompose [or] H; subst; discriminate|]. apply Forall_forall. intros c Hc.
  assert (Hf : forallb (fun c => (32 <? c) && negb (c =? 58)) k = true) by (decompose [or] H; subst k; vm_compute; reflexivity).
  rewrite forallb_forall in Hf. specialize (Hf c Hc). b2p. lia.
Qed.
Lemma good_udec n : 0 <= n -> good_value (udec n).
Proof.
  intro H. pose proof (udec_digits 20 n H) as D. fold (udec n) in D. rewrite Forall_forall in D.
  assert (B : forall c, In c (udec n) -> 32 < c) by (intros c Hc; specialize (D c Hc); unfold isdigit in D; b2p; lia).
  split; [|split].
  - apply Forall_forall. intros c Hc. apply B in Hc. lia.
  - intros c l E. assert (X : In c (udec n)) by (rewrite E; left; reflexivity). apply B in X. lia.
  - intros c l E. assert (X : In c (udec n)) by (rewrite E; apply in_or_app; right; left; reflexivity). apply B in X. lia.
Qed.
Lemma goodh_app a b : goodh a -> goodh b -> goodh (a ++ b).
Proof. intros. apply Forall_app. split; assumption. Qed.
Lemma goodh1 k v : good_name k -> good_value v -> goodh [(k, v)].
Proof. intros. constructor; [split; assumption|constructor]. Qed.

Lemma conn_good m : goodh (conn_default m).
Proof. unfold conn_default. destruct (has_header _ _); [constructor|]. apply goodh1; [apply good_const_name; auto|apply good_const_value; destruct (m_alive m); auto]. Qed.
Lemma ae_good m : goodh (ae_default m).
Proof. unfold ae_default. destruct (has_header _ _); [constructor|]. apply goodh1; [apply good_const_name; auto|apply good_const_value; auto]. Qed.
Lemma cl_good m : goodh (cl_default m).
Proof. unfold cl_default. destruct (has_header _ _); [constructor|]. apply goodh1; [apply good_const_name; auto|apply good_udec; lia]. Qed.
Lemma ct_good m : goodh (ct_default m).
Proof. unfold ct_default. destruct (has_header _ _); [constructor|]. apply goodh1; [apply good_const_name; auto|apply good_const_value; tauto]. Qed.
Lemma req_headers_good m : goodh (m_headers m) -> goodh (req_headers m).
Proof. intro H. unfold req_headers. repeat apply goodh_app; auto using conn_good, ae_good, cl_good, ct_good. Qed.
Lemma resp_headers_good m : goodh (m_headers m) -> goodh (resp_headers m).
Proof. intro H. unfold resp_headers. repeat apply goodh_app; auto using conn_good, ae_good, cl_good, ct_good. Qed.

Lemma nonul_const k : good_name k -> ~ In 0 k. Proof. apply good_nonul. Qed.

(** reading back a block of headers that ends with the given framing *)
Lemma first_value_assoc hs n v : goodh hs -> ~ In 0 n -> (first_value hs n v <-> assoc_ci n hs = Some v).
Proof. intros H N. symmetry. apply assoc_first; [apply goodh_namedok; assumption|assumption]. Qed.

Lemma app_carries us m D : goodh us -> m = hins us [] -> goodh (m ++ D) -> carries us (m ++ D).
Proof.
  intros Hu -> HD n v Hn F. destruct (hins_good us [] Hu ltac:(constructor) ltac:(constructor)) as [G L].
  apply first_value_assoc in F; [|assumption|assumption]. apply first_value_assoc; [assumption|assumption|].
  rewrite assoc_app, assoc_find by assumption.
  rewrite hins_find; [|apply sorted_nil|apply namedok_ne, goodh_namedok; assumption]. cbn [map_find]. rewrite F. reflexivity.
Qed.
