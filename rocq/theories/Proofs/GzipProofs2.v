From Coq Require Import String.
From Verif.Model Require Import Common Gzip Http.
From Verif.Spec Require Import GzipSpec.
From Verif.Proofs Require Import Tac GzipProofs.
Local Open Scope Z_scope.
Local Notation length := List.length.
Local Opaque kInit rounds.

Lemma seen_small s : small s -> seen s = s.
Proof. intros H. unfold seen. rewrite uint_small by exact H. apply firstn_all. Qed.
Lemma cut_written p old j : (length p <= length (base old j))%nat -> resize (length p) (p ++ skipn (length p) (base old j)) = p.
Proof. intros H. rewrite resize_cut by (rewrite app_length; lia). now rewrite firstn_app, Nat.sub_diag, firstn_all, firstn_O, app_nil_r. Qed.

Lemma compress_ok z s old level : level_ok level -> small (encode z level (seen s)) -> compress z s old level = Some (0, encode z level (seen s)).
Proof.
  intros [L1 L2] H. unfold compress. replace ((level <? -1) || (9 <? level)) with false by (symmetry; apply orb_false_intro; apply Z.ltb_ge; lia).
  destruct (loop_ok (late z) (encode z level (seen s)) Z_STREAM_END old H ltac:(discriminate)) as (out & k & r & -> & -> & -> & F).
  destruct (F eq_refl) as (j & -> & B & _). rewrite Z.eqb_refl. now rewrite cut_written.
Qed.
Lemma inflate_ok z s old p d : zlib_ok z -> small s -> decode z s = (p, d) -> small p ->
  exists out, inflate_loop z s old = Some (out, length p, fin_of d) /\
    (d = DEnd -> exists j, out = p ++ skipn (length p) (base old j) /\ (length p <= length (base old j))%nat /\ (j = 0%nat \/ (length (base old j) <= 2 * length p)%nat)).
Proof.
  intros [_ Z2] Hs Hd Hp. unfold inflate_loop. rewrite seen_small, Hd by exact Hs.
  assert (F0 : fin_of d <> 0) by (destruct d; cbn; try discriminate; now apply Z2 in Hd).
  destruct (loop_ok (late z) p (fin_of d) old Hp F0) as (out & k & r & -> & -> & -> & F).
  exists out. split; [reflexivity|]. intros ->. now apply F.
Qed.
Lemma fin_end z s p d : zlib_ok z -> decode z s = (p, d) -> fin_of d = Z_STREAM_END -> d = DEnd.
Proof. intros [_ Z2] Hd. destruct d; cbn; try discriminate; auto. intros ->. apply Z2 in Hd. now destruct Hd. Qed.
Lemma deflate_ok z s old p d : zlib_ok z -> small s -> decode z s = (p, d) -> small p ->
  exists code out, decompress_deflate z s old = Some (code, out) /\ (code = 0 <-> d = DEnd) /\ (d = DEnd -> out = p).
Proof.
  intros Z0 Hs Hd Hp. destruct (inflate_ok z s old p d Z0 Hs Hd Hp) as (out & E & F). unfold decompress_deflate. rewrite E.
  destruct (Z.eqb_spec (fin_of d) Z_STREAM_END) as [K|K].
  - pose proof (fin_end z s p d Z0 Hd K) as ->. eexists _, _. split; [reflexivity|]. split; [tauto|]. intros _. destruct (F eq_refl) as (j & -> & B & _). now apply cut_written.
  - eexists _, _. split; [reflexivity|]. split; [|intros ->; now destruct K].
    split; [|intros ->; now destruct K]. intros X. exfalso. destruct Z0 as [_ Z2]. destruct d; cbn in *; try discriminate. apply Z2 in Hd. lia.
Qed.
Lemma gzip_ok z s old p d : zlib_ok z -> small s -> decode z s = (p, d) -> small p ->
  exists code out, decompress_gzip z s old = Some (code, out) /\ (code = 0 <-> d = DEnd) /\
    (d = DEnd -> exists pad, padded p pad out /\ (old = [] -> Forall (eq 0) pad)).
Proof.
  intros Z0 Hs Hd Hp. destruct (inflate_ok z s old p d Z0 Hs Hd Hp) as (out & E & F). unfold decompress_gzip. rewrite E.
  destruct (Z.eqb_spec (fin_of d) Z_STREAM_END) as [K|K].
  - pose proof (fin_end z s p d Z0 Hd K) as ->. eexists _, _. split; [reflexivity|]. split; [tauto|]. intros _. destruct (F eq_refl) as (j & -> & B & C).
    exists (skipn (length p) (base old j)). split.
    + split; [reflexivity|]. exists (Z.of_nat j). rewrite app_length, skipn_length. pose proof (base_length old j). split; [lia|]. split; [lia|]. destruct C; [left; lia|right; lia].
    + intros ->. rewrite base_fresh, skipn_repeat. apply Forall_forall. intros x I. apply repeat_spec in I. congruence.
  - eexists _, _. split; [reflexivity|]. split; [|intros ->; now destruct K].
    split; [discriminate|]. intros ->. now destruct K.
Qed.

(** Headers. *)
Lemma beqb_refl k : beqb k k = true.
Proof. induction k as [|x k IH]; cbn; [reflexivity|]. now rewrite Z.eqb_refl. Qed.
Lemma find_insert k v m : map_find k m = None -> map_find k (map_insert k v m) = Some v.
Proof.
  induction m as [|[k' v'] m IH]; cbn; intros H; [now rewrite beqb_refl|].
  destruct (beqb k k') eqn:E; [discriminate|]. destruct (bltb k k'); cbn; [now rewrite beqb_refl|]. rewrite E. now apply IH.
Qed.
Lemma beqb_true a b : beqb a b = true -> a = b.
Proof. revert b. induction a as [|x a IH]; destruct b; cbn; intros H; try discriminate; auto. b2p. f_equal; auto. Qed.
Lemma find_other k k' v m : beqb k' k = false -> map_find k' (map_insert k v m) = map_find k' m.
Proof.
  intros N. induction m as [|[k2 v2] m IH]; cbn; [now rewrite N|].
  destruct (beqb k k2) eqn:E; [reflexivity|]. destruct (bltb k k2); cbn; [now rewrite N|]. now rewrite IH.
Qed.
Definition CEn := bs "Content-Encoding"%string.
Lemma has_find m : has_header m CEn = false -> map_find (to_lower CEn) m = None.
Proof. unfold has_header. destruct (map_find (to_lower CEn) m); congruence. Qed.

Lemma request_sent g host m c : 8096 < Z.of_nat (length (m_body m)) -> has_header (m_headers m) CEn = false -> g (m_body m) = Some c ->
  m_body (before_send_request g host m) = c /\ get_header (m_headers (before_send_request g host m)) CEn = bs "gzip"%string.
Proof.
  intros L H G. unfold before_send_request. rewrite (proj2 (Z.ltb_lt _ _) L). fold CEn. rewrite H. cbn [andb negb]. rewrite G.
  set (h2 := insert_header (bs "Content-Length"%string) _ _).
  assert (F : map_find (to_lower CEn) h2 = Some (bs "gzip"%string)).
  { unfold h2. match goal with |- map_find _ (insert_header _ ?v ?h) = _ => change (insert_header (bs "Content-Length"%string) v h) with (map_insert (to_lower (bs "Content-Length"%string)) v h) end.
    rewrite find_other by reflexivity. apply (find_insert (to_lower CEn)). now apply has_find. }
  cbn [set_headers set_body m_body m_headers]. destruct (has_header h2 (bs "Host"%string)); cbn [set_headers set_body m_body m_headers]; (split; [reflexivity|]); unfold get_header.
  - now rewrite F.
  - change (insert_header (bs "Host"%string) host h2) with (map_insert (to_lower (bs "Host"%string)) host h2). rewrite find_other by reflexivity. now rewrite F.
Qed.

Lemma response_sent g d rh m c : 8096 < Z.of_nat (length (m_body m)) -> has_header (m_headers m) CEn = false ->
  contains (bs "gzip"%string) (get_header rh (bs "Accept-Encoding"%string)) = true -> g (m_body m) = Some c ->
  m_body (before_send_response g d rh m) = c /\ get_header (m_headers (before_send_response g d rh m)) CEn = bs "gzip"%string.
Proof.
  intros L H A G. unfold before_send_response. rewrite (proj2 (Z.ltb_lt _ _) L). fold CEn. rewrite H. cbn [andb negb]. cbv zeta. rewrite A, G.
  cbn [set_headers set_body m_body m_headers]. split; [reflexivity|]. unfold get_header.
  change (insert_header CEn (bs "gzip"%string) (m_headers m)) with (map_insert (to_lower CEn) (bs "gzip"%string) (m_headers m)). now rewrite find_insert by now apply has_find.
Qed.
Lemma response_sent_deflate g d rh m c : 8096 < Z.of_nat (length (m_body m)) -> has_header (m_headers m) CEn = false ->
  contains (bs "gzip"%string) (get_header rh (bs "Accept-Encoding"%string)) = false -> contains (bs "deflate"%string) (get_header rh (bs "Accept-Encoding"%string)) = true -> d (m_body m) = Some c ->
  m_body (before_send_response g d rh m) = c /\ get_header (m_headers (before_send_response g d rh m)) CEn = bs "deflate"%string.
Proof.
  intros L H A0 A G. unfold before_send_response. rewrite (proj2 (Z.ltb_lt _ _) L). fold CEn. rewrite H. cbn [andb negb]. cbv zeta. rewrite A0, A, G.
  cbn [set_headers set_body m_body m_headers]. split; [reflexivity|]. unfold get_header.
  change (insert_header CEn (bs "deflate"%string) (m_headers m)) with (map_insert (to_lower CEn) (bs "deflate"%string) (m_headers m)). now rewrite find_insert by now apply has_find.
Qed.
Lemma parsed_gzip req g f m i b : get_header (m_headers m) CEn = bs "gzip"%string -> g (m_body m) = Some b ->
  exists m', on_message_parsed req g f m i = Some m' /\ m_body m' = b.
Proof.
  intros H G. unfold on_message_parsed. fold CEn. destruct req; cbn [m_headers m_body]; rewrite H; change (contains (bs "gzip"%string) (bs "gzip"%string)) with true; cbv iota; rewrite G; eexists; split; reflexivity.
Qed.
Lemma parsed_deflate req g f m i b : get_header (m_headers m) CEn = bs "deflate"%string -> f (m_body m) = Some b ->
  exists m', on_message_parsed req g f m i = Some m' /\ m_body m' = b.
Proof.
  intros H G. unfold on_message_parsed. fold CEn. destruct req; cbn [m_headers m_body]; rewrite H; change (contains (bs "gzip"%string) (bs "deflate"%string)) with false; change (contains (bs "deflate"%string) (bs "deflate"%string)) with true; cbv iota; rewrite G; eexists; split; reflexivity.
Qed.
