(** Headers the codec adds on its own. *)
From Coq Require Import String.
From Verif.Model Require Import Common Decimal Http.
From Verif.Spec Require Import RespSpec HttpSpec.
From Verif.Proofs Require Import Tac HttpHeaders HttpParse DecimalProofs HttpWire HttpSend.
Open Scope Z_scope.
Notation length := List.length.
Notation CE := (bs "Content-Encoding").

Lemma good_name_nz n : good_name n -> ~ In 0 n.
Proof. intros [_ H] I. rewrite Forall_forall in H. apply H in I. lia. Qed.

(** looking a name up after an insertion *)
Lemma fnd_ins h k v n : sorted h -> k <> [] ->
  map_find (to_lower n) (insert_header k v h) =
  match map_find (to_lower n) h with Some x => Some x | None => if beqb (to_lower n) (to_lower k) then Some v else None end.
Proof.
  intros Hs Hk. change (insert_header k v h) with (hins [(k, v)] h).
  rewrite (hins_find n [(k, v)]); [reflexivity|exact Hs|repeat constructor; exact Hk].
Qed.
Lemma ins_sorted h k v : sorted h -> sorted (insert_header k v h).
Proof. intro H. apply (hins_sorted [(k, v)] h H). Qed.
Lemma has_none h n : has_header h n = false <-> map_find (to_lower n) h = None.
Proof. unfold has_header. destruct (map_find (to_lower n) h); split; congruence. Qed.
Lemma nov_none us n : goodh us -> good_name n -> (no_value us n <-> map_find (to_lower n) (hins us []) = None).
Proof. intros. rewrite no_value_has by assumption. apply has_none. Qed.

Section Defaults.
Variable gzip deflate : list Z -> option (list Z).

Lemma ins_none h k v n : sorted h -> k <> [] -> beqb (to_lower n) (to_lower k) = false -> map_find (to_lower n) h = None ->
  map_find (to_lower n) (insert_header k v h) = None.
Proof. intros S K B N. rewrite fnd_ins by assumption. rewrite N, B. reflexivity. Qed.

Lemma request_kept host us m n : goodh us -> m_headers m = hins us [] -> good_name n -> no_value us n ->
  beqb (to_lower n) (to_lower CE) = false -> beqb (to_lower n) (to_lower CL) = false -> beqb (to_lower n) (to_lower (bs "Host")) = false ->
  has_header (m_headers (before_send_request gzip host m)) n = false.
Proof.
  intros Hu Hm Hn N B1 B2 B3. apply (nov_none us n Hu Hn) in N. assert (So : sorted (hins us [])) by apply hins_sorted, sorted_nil.
  apply has_none. unfold before_send_request. set (m1 := if _ && _ then _ else m).
  assert (H1 : sorted (m_headers m1) /\ map_find (to_lower n) (m_headers m1) = None).
  { unfold m1. destruct (_ && _); [destruct (gzip (m_body m))|]; [|split; rewrite Hm; assumption|split; rewrite Hm; assumption].
    cbn [m_headers set_body set_headers]. rewrite Hm. split; [repeat apply ins_sorted; exact So|].
    apply ins_none; [apply ins_sorted, So|discriminate|exact B2|]. apply ins_none; [exact So|discriminate|exact B1|exact N]. }
  clearbody m1. destruct H1 as [H1 H2]. destruct (has_header (m_headers m1) (bs "Host")); [exact H2|].
  cbn [m_headers set_headers]. apply ins_none; [exact H1|discriminate|exact B3|exact H2].
Qed.
Lemma request_host host us m : goodh us -> m_headers m = hins us [] -> no_value us (bs "Host") ->
  map_find (to_lower (bs "Host")) (m_headers (before_send_request gzip host m)) = Some host.
Proof.
  intros Hu Hm N. apply (nov_none us _ Hu gn_host) in N. assert (So : sorted (hins us [])) by apply hins_sorted, sorted_nil.
  unfold before_send_request. set (m1 := if _ && _ then _ else m).
  assert (H1 : sorted (m_headers m1) /\ map_find (to_lower (bs "Host")) (m_headers m1) = None).
  { unfold m1. destruct (_ && _); [destruct (gzip (m_body m))|]; [|split; rewrite Hm; assumption|split; rewrite Hm; assumption].
    cbn [m_headers set_body set_headers]. rewrite Hm. split; [repeat apply ins_sorted; exact So|].
    apply ins_none; [apply ins_sorted, So|discriminate|reflexivity|]. apply ins_none; [exact So|discriminate|reflexivity|exact N]. }
  clearbody m1. destruct H1 as [H1 H2]. rewrite (proj2 (has_none _ _) H2). cbn [m_headers set_headers].
  rewrite fnd_ins by (assumption || discriminate). rewrite H2. reflexivity.
Qed.

Lemma response_kept rh us m n : goodh us -> m_headers m = hins us [] -> good_name n -> no_value us n ->
  beqb (to_lower n) (to_lower CE) = false ->
  has_header (m_headers (before_send_response gzip deflate rh m)) n = false.
Proof.
  intros Hu Hm Hn N B1. apply (nov_none us n Hu Hn) in N. assert (So : sorted (hins us [])) by apply hins_sorted, sorted_nil.
  apply has_none. unfold before_send_response. cbv zeta.
  destruct (_ && _); [|rewrite Hm; exact N].
  destruct (contains (bs "gzip") _); [destruct (gzip (m_body m)); [|rewrite Hm; exact N]|
    destruct (contains (bs "deflate") _); [destruct (deflate (m_body m)); [|rewrite Hm; exact N]|rewrite Hm; exact N]];
    cbn [m_headers set_body set_headers]; rewrite Hm; apply ins_none; try assumption; discriminate.
Qed.

Lemma conn_header m D : lowered (m_headers m) -> goodh (m_headers m ++ conn_default m ++ D) -> has_header (m_headers m) (bs "Connection") = false ->
  first_value (m_headers m ++ conn_default m ++ D) (bs "Connection") (bs (if m_alive m then "keep-alive" else "Close")).
Proof.
  intros L G H. apply first_value_assoc; [exact G|apply good_name_nz, gn_conn|]. apply has_none in H as H'.
  rewrite assoc_app, assoc_find by exact L. rewrite H'. unfold conn_default. rewrite H. destruct (m_alive m); reflexivity.
Qed.
Lemma ae_header m : lowered (m_headers m) -> goodh (req_headers m) -> has_header (m_headers m) (bs "Accept-Encoding") = false ->
  first_value (req_headers m) (bs "Accept-Encoding") (bs "deflate,gzip").
Proof.
  intros L G H. apply first_value_assoc; [exact G|apply good_name_nz, gn_ae|]. apply has_none in H as H'. unfold req_headers.
  rewrite assoc_app, assoc_find by exact L. rewrite H', assoc_app. unfold ae_default. rewrite H.
  unfold conn_default. destruct (has_header (m_headers m) (bs "Connection")); reflexivity.
Qed.

Lemma resp_ce m : lowered (m_headers m) -> goodh (resp_headers m) -> forall v, first_value (resp_headers m) CE v ->
  map_find (to_lower CE) (m_headers m) = Some v.
Proof.
  intros L G v H. apply first_value_assoc in H; [|exact G|apply good_name_nz, gn_ce]. unfold resp_headers in H.
  rewrite assoc_app, assoc_find in H by exact L. destruct (map_find (to_lower CE) (m_headers m)); [exact H|].
  unfold conn_default, cl_default, ct_default in H.
  destruct (has_header (m_headers m) (bs "Connection")), (has_header (m_headers m) CL), (has_header (m_headers m) (bs "Content-Type")); discriminate.
Qed.

Lemma response_coding rh us m v : goodh us -> m_headers m = hins us [] -> no_value us CE ->
  let m' := before_send_response gzip deflate rh m in
  map_find (to_lower CE) (m_headers m') = Some v ->
  8096 < Z.of_nat (length (m_body m)) /\
  ((v = bs "gzip" /\ gzip (m_body m) = Some (m_body m') /\ occurs (bs "gzip") (get_header rh (bs "Accept-Encoding"))) \/
   (v = bs "deflate" /\ deflate (m_body m) = Some (m_body m') /\ occurs (bs "deflate") (get_header rh (bs "Accept-Encoding")))).
Proof.
  intros Hu Hm N m' F. subst m'. apply (nov_none us _ Hu gn_ce) in N. assert (So : sorted (hins us [])) by apply hins_sorted, sorted_nil.
  unfold before_send_response in *. cbv zeta in *.
  destruct ((8096 <? _) && _) eqn:C; [|rewrite Hm, N in F; discriminate]. b2p. split; [assumption|].
  destruct (contains (bs "gzip") _) eqn:Cg.
  - destruct (gzip (m_body m)) as [z|]; [|rewrite Hm, N in F; discriminate]. left.
    cbn [m_headers set_body set_headers m_body] in *. rewrite Hm, fnd_ins, N in F by (assumption || discriminate).
    split; [|split; [reflexivity|apply contains_spec; exact Cg]]. rewrite (proj2 (beqb_eq (to_lower CE) _) eq_refl) in F. congruence.
  - destruct (contains (bs "deflate") _) eqn:Cd; [|rewrite Hm, N in F; discriminate].
    destruct (deflate (m_body m)) as [z|]; [|rewrite Hm, N in F; discriminate]. right.
    cbn [m_headers set_body set_headers m_body] in *. rewrite Hm, fnd_ins, N in F by (assumption || discriminate).
    split; [|split; [reflexivity|apply contains_spec; exact Cd]]. rewrite (proj2 (beqb_eq (to_lower CE) _) eq_refl) in F. congruence.
Qed.
End Defaults.
