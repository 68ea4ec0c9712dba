(** C233-C242: compression (base/utils/gzip), random numbers (base/utils/rand_util), integers as text (base/utils/ns_convertor). *)
From Coq Require Import String QArith.
From Verif.Model Require Import Common Http Gzip Rand Itoa.
From Verif.Spec Require Import GzipSpec RandSpec ItoaSpec.
From Verif.Proofs Require Import Tac GzipProofs GzipProofs2 RandProofs ItoaProofs.
Local Open Scope Z_scope.
Local Notation length := List.length.

(** A stand-in for zlib: a string is encoded as itself behind a marker. *)
Definition toy : zlib := Zlib (fun _ s => 120 :: s)
  (fun s => match s with [] => ([], DCut) | 120 :: s => (s, DEnd) | _ => ([], DBad (-3)) end) true.
Lemma toy_ok : zlib_ok toy.
Proof.
  split; [reflexivity|]. intros s p c H. cbn in H. destruct s as [|x s]; [discriminate|].
  destruct x as [|x|x]; try (inv H; lia). repeat (destruct x as [x|x|]; try (inv H; lia); try discriminate).
Qed.

(** C233. A string shorter than 4 GiB that is compressed and decompressed in the deflate format comes back unchanged, whatever the output
    strings held before. *)
Theorem C233_deflate_roundtrip : forall z s level old1 old2, zlib_ok z -> level_ok level -> small s -> small (encode z level s) ->
  exists c, compress z s old1 level = Some (0, c) /\ decompress_deflate z c old2 = Some (0, s).
Proof.
  intros z s level old1 old2 Z0 Hl Hs He. exists (encode z level s). split.
  - rewrite compress_ok; rewrite ?seen_small; auto.
  - destruct (deflate_ok z (encode z level s) old2 s DEnd Z0 He (proj1 Z0 level s) Hs) as (code & out & E & [_ C] & O). rewrite E, (C eq_refl), (O eq_refl). reflexivity.
Qed.
Example C233_nonvacuous : compress toy [1; 2; 3] [7; 7] 9 = Some (0, [120; 1; 2; 3]) /\ decompress_deflate toy [120; 1; 2; 3] [9; 9; 9; 9; 9] = Some (0, [1; 2; 3]).
Proof. vm_compute. split; reflexivity. Qed.

(** C234 (refuted). The same for the gzip format. *)
Definition C234_statement : Prop := forall z s level old1 old2, zlib_ok z -> level_ok level -> small s -> small (encode z level s) ->
  exists c, compress z s old1 level = Some (0, c) /\ decompress_gzip z c old2 = Some (0, s).
(** The original comes back with padding, up to 16 KiB, 32 KiB, 64 KiB ...: NULs if the output string was empty. *)
Theorem C234_padded_partial : forall z s level old1 old2, zlib_ok z -> level_ok level -> small s -> small (encode z level s) ->
  exists c pad r, compress z s old1 level = Some (0, c) /\ decompress_gzip z c old2 = Some (0, r) /\ padded s pad r /\ (old2 = [] -> Forall (eq 0) pad).
Proof.
  intros z s level old1 old2 Z0 Hl Hs He. exists (encode z level s).
  destruct (gzip_ok z (encode z level s) old2 s DEnd Z0 He (proj1 Z0 level s) Hs) as (code & out & E & [_ C] & O). destruct (O eq_refl) as (pad & P & Q).
  exists pad, out. split; [rewrite compress_ok; rewrite ?seen_small; auto|]. rewrite E, (C eq_refl). auto.
Qed.
(** No string comes back unchanged unless its length happens to be one of those. *)
Theorem C234_never_exact : forall z s level old1 old2 c, zlib_ok z -> level_ok level -> small s -> small (encode z level s) ->
  (forall j, 0 <= j -> Z.of_nat (length s) <> 16384 * 2 ^ j) -> compress z s old1 level = Some (0, c) -> decompress_gzip z c old2 <> Some (0, s).
Proof.
  intros z s level old1 old2 c Z0 Hl Hs He Hn Hc Hd.
  destruct (C234_padded_partial z s level old1 old2 Z0 Hl Hs He) as (c' & pad & r & A & B & (_ & j & J & L & _) & _).
  rewrite Hc in A. inv A. rewrite Hd in B. inv B. now apply (Hn j J).
Qed.
Theorem C234_statement_refuted : ~ C234_statement.
Proof.
  intros H. assert (L : level_ok 9) by (split; lia). destruct (H toy [] 9 [] [] toy_ok L) as (c & A & B); try (unfold small; cbn; lia).
  apply (C234_never_exact toy [] 9 [] [] c toy_ok L); try assumption; try (unfold small; cbn; lia).
  intros j J. change (Z.of_nat (length [])) with 0. pose proof (Z.pow_pos_nonneg 2 j ltac:(lia) J). lia.
Qed.
Example C234_nonvacuous : match decompress_gzip toy [120; 1; 2; 3] [9; 9; 9; 9; 9] with Some (0, r) => (firstn 7 r, Z.of_nat (length r)) = ([1; 2; 3; 9; 9; 0; 0], 16384) | _ => False end.
Proof. vm_compute. reflexivity. Qed.

(** C235. Decompressing always ends; the result is 0 exactly for a complete stream, and then a deflate stream's output is exactly what it decodes
    to. (Input and output shorter than 4 GiB.) *)
Theorem C235_complete_iff_zero : forall z s old p d, zlib_ok z -> small s -> decode z s = (p, d) -> small p ->
  (exists code out, decompress_deflate z s old = Some (code, out) /\ (code = 0 <-> d = DEnd) /\ (code = 0 -> out = p)) /\
  (exists code out, decompress_gzip z s old = Some (code, out) /\ (code = 0 <-> d = DEnd) /\ (code = 0 -> firstn (length p) out = p)).
Proof.
  intros z s old p d Z0 Hs Hd Hp. split.
  - destruct (deflate_ok z s old p d Z0 Hs Hd Hp) as (code & out & E & C & O). exists code, out. split; [exact E|]. split; [exact C|]. intros X. apply O, C, X.
  - destruct (gzip_ok z s old p d Z0 Hs Hd Hp) as (code & out & E & C & O). exists code, out. split; [exact E|]. split; [exact C|]. intros X. apply C in X.
    destruct (O X) as (pad & (-> & _) & _). now rewrite firstn_app, Nat.sub_diag, firstn_all, firstn_O, app_nil_r.
Qed.
Example C235_nonvacuous : decode toy [55] = ([], DBad (-3)) /\ option_map fst (decompress_deflate toy [55] []) = Some 3 /\ option_map fst (decompress_gzip toy [] []) = Some (-1) /\
  option_map fst (decompress_deflate toy [120] []) = Some 0.
Proof. vm_compute. repeat split. Qed.

(** C236 (refuted). Strings of any size come back from the deflate format. *)
Definition C236_statement : Prop := forall z s level old1 old2, zlib_ok z -> level_ok level -> small (encode z level (seen s)) ->
  exists c, compress z s old1 level = Some (0, c) /\ decompress_deflate z c old2 = Some (0, s).
(** 2^32 bytes are compressed to the encoding of nothing, and the result is 0. *)
Theorem C236_four_gib_lost : forall z s level old, zlib_ok z -> level_ok level -> Z.of_nat (length s) = 2 ^ 32 -> small (encode z level []) ->
  compress z s old level = Some (0, encode z level []).
Proof.
  intros z s level old Z0 Hl Hs He. assert (E : seen s = []) by (unfold seen, uint; rewrite Hs; reflexivity). rewrite compress_ok; rewrite ?E; auto.
Qed.
Theorem C236_statement_refuted : ~ C236_statement.
Proof.
  intros H. assert (L : level_ok 9) by (split; lia). remember (repeat 5 (Z.to_nat (2 ^ 32))) as s eqn:Es.
  assert (Ls : Z.of_nat (length s) = 2 ^ 32) by (rewrite Es, repeat_length, Z2Nat.id; lia). clear Es.
  assert (E : seen s = []) by (unfold seen, uint; rewrite Ls; reflexivity).
  destruct (H toy s 9 [] [] toy_ok L) as (c & A & B); [rewrite E; unfold small; cbn; lia|].
  rewrite (C236_four_gib_lost toy s 9 [] toy_ok L Ls) in A by (unfold small; cbn; lia). inv A.
  destruct (deflate_ok toy [120] [] [] DEnd toy_ok) as (code & out & E1 & _ & O); try reflexivity; try (unfold small; cbn; lia).
  change (encode toy 9 []) with [120] in B. rewrite E1 in B. inv B. rewrite (O eq_refl) in Ls. cbn in Ls. lia.
Qed.
Theorem C236_below_partial : forall z s level old1 old2, zlib_ok z -> level_ok level -> small s -> small (encode z level s) ->
  exists c, compress z s old1 level = Some (0, c) /\ decompress_deflate z c old2 = Some (0, s).
Proof. exact C233_deflate_roundtrip. Qed.
Example C236_nonvacuous : seen [4; 5] = [4; 5] /\ compress toy [4; 5] [] 9 = Some (0, [120; 4; 5]).
Proof. vm_compute. split; reflexivity. Qed.

(** C237 (refuted). A large body that the sender compresses reaches the other side's application unchanged: requests, and responses to a client
    that accepts gzip. *)
Definition C237_statement : Prop := forall z m host rh i, zlib_ok z -> small (m_body m) -> small (encode z 9 (m_body m)) ->
  has_header (m_headers m) (bs "Content-Encoding"%string) = false ->
  (exists m', on_message_parsed true (http_gunzip z) (http_inflate z) (before_send_request (http_compress z) host m) i = Some m' /\ m_body m' = m_body m) /\
  (contains (bs "gzip"%string) (get_header rh (bs "Accept-Encoding"%string)) = true ->
   exists m', on_message_parsed false (http_gunzip z) (http_inflate z) (before_send_response (http_compress z) (http_compress z) rh m) i = Some m' /\ m_body m' = m_body m).
(** It arrives with NULs behind it, up to the next size of the decompression buffer. *)
Theorem C237_padded_partial : forall z m host rh i, zlib_ok z -> small (m_body m) -> small (encode z 9 (m_body m)) ->
  has_header (m_headers m) (bs "Content-Encoding"%string) = false -> 8096 < Z.of_nat (length (m_body m)) ->
  (exists m' pad, on_message_parsed true (http_gunzip z) (http_inflate z) (before_send_request (http_compress z) host m) i = Some m' /\
     padded (m_body m) pad (m_body m') /\ Forall (eq 0) pad) /\
  (contains (bs "gzip"%string) (get_header rh (bs "Accept-Encoding"%string)) = true ->
   exists m' pad, on_message_parsed false (http_gunzip z) (http_inflate z) (before_send_response (http_compress z) (http_compress z) rh m) i = Some m' /\
     padded (m_body m) pad (m_body m') /\ Forall (eq 0) pad).
Proof.
  intros z m host rh i Z0 Hs He Hn Hb.
  assert (C : http_compress z (m_body m) = Some (encode z 9 (m_body m))) by (unfold http_compress; rewrite compress_ok, seen_small; rewrite ?seen_small; auto; split; lia).
  destruct (gzip_ok z (encode z 9 (m_body m)) [] (m_body m) DEnd Z0 He (proj1 Z0 9 (m_body m)) Hs) as (code & out & E & [_ K] & O).
  destruct (O eq_refl) as (pad & P & Q). specialize (Q eq_refl).
  assert (G : http_gunzip z (encode z 9 (m_body m)) = Some out) by (unfold http_gunzip; rewrite E, (K eq_refl); reflexivity).
  split; [|intros A].
  - destruct (request_sent (http_compress z) host m _ Hb Hn C) as [B1 B2]. rewrite <- B1 in G.
    destruct (parsed_gzip true (http_gunzip z) (http_inflate z) _ i out B2 G) as (m' & M1 & M2). exists m', pad. rewrite M2. auto.
  - destruct (response_sent (http_compress z) (http_compress z) rh m _ Hb Hn A C) as [B1 B2]. rewrite <- B1 in G.
    destruct (parsed_gzip false (http_gunzip z) (http_inflate z) _ i out B2 G) as (m' & M1 & M2). exists m', pad. rewrite M2. auto.
Qed.
(** A response to a client that accepts deflate only arrives unchanged. *)
Theorem C237_deflate_partial : forall z m rh i, zlib_ok z -> small (m_body m) -> small (encode z 9 (m_body m)) ->
  has_header (m_headers m) (bs "Content-Encoding"%string) = false -> 8096 < Z.of_nat (length (m_body m)) ->
  contains (bs "gzip"%string) (get_header rh (bs "Accept-Encoding"%string)) = false -> contains (bs "deflate"%string) (get_header rh (bs "Accept-Encoding"%string)) = true ->
  exists m', on_message_parsed false (http_gunzip z) (http_inflate z) (before_send_response (http_compress z) (http_compress z) rh m) i = Some m' /\ m_body m' = m_body m.
Proof.
  intros z m rh i Z0 Hs He Hn Hb A0 A.
  assert (C : http_compress z (m_body m) = Some (encode z 9 (m_body m))) by (unfold http_compress; rewrite compress_ok, seen_small; rewrite ?seen_small; auto; split; lia).
  destruct (deflate_ok z (encode z 9 (m_body m)) [] (m_body m) DEnd Z0 He (proj1 Z0 9 (m_body m)) Hs) as (code & out & E & [_ K] & O).
  assert (G : http_inflate z (encode z 9 (m_body m)) = Some (m_body m)) by (unfold http_inflate; rewrite E, (K eq_refl), (O eq_refl); reflexivity).
  destruct (response_sent_deflate (http_compress z) (http_compress z) rh m _ Hb Hn A0 A C) as [B1 B2]. rewrite <- B1 in G at 1.
  apply (parsed_deflate false (http_gunzip z) (http_inflate z) _ i _ B2 G).
Qed.
Definition big : msg := mkmsg 1 1 true (bs "POST"%string) (bs "/"%string) 200 [] (repeat 65 (Z.to_nat 9000)).
Lemma big_len : Z.of_nat (length (m_body big)) = 9000.
Proof. vm_compute. reflexivity. Qed.
Lemma big_ok : small (m_body big) /\ small (encode toy 9 (m_body big)) /\ has_header (m_headers big) (bs "Content-Encoding"%string) = false /\ 8096 < Z.of_nat (length (m_body big)).
Proof. unfold small. change (encode toy 9 (m_body big)) with (120 :: m_body big). cbn [length]. rewrite Nat2Z.inj_succ, big_len. repeat split; lia. Qed.
Theorem C237_statement_refuted : ~ C237_statement.
Proof.
  intros H. destruct big_ok as (B1 & B2 & B3 & B4). pose (i := mkinfo 1 1 (bs "POST"%string) 200 true).
  destruct (H toy big [] [] i toy_ok B1 B2 B3) as [(m1 & E1 & F1) _].
  destruct (C237_padded_partial toy big [] [] i toy_ok B1 B2 B3 B4) as [(m2 & pad & E2 & (_ & j & J & L & _) & _) _].
  rewrite E1 in E2. inv E2. rewrite F1, big_len in L. pose proof (Z.pow_pos_nonneg 2 j ltac:(lia) J). lia.
Qed.
Example C237_nonvacuous : small (m_body big) /\ 8096 < Z.of_nat (length (m_body big)) /\
  contains (bs "deflate"%string) (get_header [(bs "accept-encoding"%string, bs "deflate"%string)] (bs "Accept-Encoding"%string)) = true.
Proof. destruct big_ok as (B1 & _ & _ & B4). repeat split; auto. Qed.

(** C238. RandGenerator(range) returns a number below range, and every such number is the answer to equally many 64-bit draws; at least half of
    all draws are answered at once, the others make it draw again. *)
Theorem C238_uniform_below_range : forall range, 0 < range < 2 ^ 64 ->
  (forall draws r, rand_generator range draws = Ok (Some r) -> 0 <= r < range) /\
  (exists n, 2 ^ 63 <= n * range <= 2 ^ 64 /\ forall r, 0 <= r < range -> forall v, 0 <= v < 2 ^ 64 ->
     (rand_generator range [v] = Ok (Some r) <-> exists q, 0 <= q < n /\ v = r + range * q)) /\
  (forall v draws, rand_generator range (v :: draws) = match rand_generator range [v] with Ok None => rand_generator range draws | r => r end).
Proof.
  intros range H. split; [|split].
  - intros draws r. now apply generator_range.
  - exists (max64 / range). split.
    + unfold max64. pose proof (Z.div_mod (2 ^ 64 - 1) range ltac:(lia)). pose proof (Z.mod_pos_bound (2 ^ 64 - 1) range ltac:(lia)).
      assert (1 <= (2 ^ 64 - 1) / range) by (apply Z.div_le_lower_bound; lia).
      split; [|nia]. destruct (Z_lt_le_dec range (2 ^ 63)); nia.
    + intros r Hr v Hv. assert (N0 : 0 <= max64 / range) by (apply Z.div_pos; unfold max64; lia). rewrite <- residue_class by lia. rewrite generator_one by lia.
      destruct (Z.ltb_spec v (max64 / range * range)); split.
      * intros E. inv E. split; [lia|reflexivity].
      * intros [_ <-]. reflexivity.
      * discriminate.
      * intros [X _]. lia.
  - intros v draws. apply generator_cons. lia.
Qed.
Example C238_nonvacuous : rand_generator 10 [2 ^ 64 - 1; 47] = Ok (Some 7) /\ rand_generator (2 ^ 63 + 1) [2 ^ 64 - 1; 2 ^ 63 + 1; 5] = Ok (Some 5).
Proof. vm_compute. split; reflexivity. Qed.

(** C239. RandInt(min, max) returns a number between min and max, both included, each for equally many draws. *)
Theorem C239_int_uniform : forall min max, - 2 ^ 31 <= min -> min <= max -> max < 2 ^ 31 ->
  (forall draws x, rand_int min max draws = Ok (Some x) -> min <= x <= max) /\
  (exists n, 2 ^ 63 <= n * (max - min + 1) /\ forall x, min <= x <= max -> forall v, 0 <= v < 2 ^ 64 ->
     (rand_int min max [v] = Ok (Some x) <-> exists q, 0 <= q < n /\ v = (x - min) + (max - min + 1) * q)).
Proof.
  intros min max A B C. assert (R : 0 < max - min + 1 < 2 ^ 64) by lia. destruct (C238_uniform_below_range _ R) as (U1 & (n & U2 & U3) & _). split.
  - intros draws x E. rewrite int_eq in E by lia. destruct (rand_generator (max - min + 1) draws) as [[r|]| |] eqn:G; cbn in E; inv E. apply U1 in G. lia.
  - exists n. split; [lia|]. intros x Hx v Hv. rewrite <- (U3 (x - min) ltac:(lia) v Hv). rewrite int_eq by lia.
    destruct (rand_generator (max - min + 1) [v]) as [[r|]| |]; cbn [obind]; split; intros E; inv E; do 2 f_equal; lia.
Qed.
Example C239_nonvacuous : rand_int (-3) 3 [12] = Ok (Some 2) /\ rand_int (- 2 ^ 31) (2 ^ 31 - 1) [0] = Ok (Some (- 2 ^ 31)).
Proof. vm_compute. split; reflexivity. Qed.

(** C240. RandDouble() is at least 0 and below 1; every multiple of 2^-53 in that range is the answer to 2^11 draws. *)
Theorem C240_double_uniform : forall draw, 0 <= draw < 2 ^ 64 ->
  (0 <= rand_double draw < 1)%Q /\
  forall k, 0 <= k < 2 ^ 53 -> ((rand_double draw == k # Z.to_pos (2 ^ 53))%Q <-> exists q, 0 <= q < 2 ^ 11 /\ draw = k + 2 ^ 53 * q).
Proof.
  intros draw H. unfold rand_double, bits_to_unit. rewrite land_mask. pose proof (Z.mod_pos_bound draw (2 ^ 53) ltac:(lia)) as B. split.
  - unfold Qle, Qlt. cbn [Qnum Qden]. rewrite !Z2Pos.id by lia. lia.
  - intros k Hk. unfold Qeq. cbn [Qnum Qden]. rewrite Z2Pos.id by lia.
    rewrite <- (residue_class (2 ^ 53) (2 ^ 11) k draw) by lia. change (2 ^ 11 * 2 ^ 53) with (2 ^ 64). split; [intros E; split; [lia|nia]|intros [_ ->]; reflexivity].
Qed.
Example C240_nonvacuous : (rand_double (2 ^ 63 + 2 ^ 52) == 1 # 2)%Q /\ (rand_double (2 ^ 64 - 1) == (2 ^ 53 - 1) # Z.to_pos (2 ^ 53))%Q.
Proof. vm_compute. split; reflexivity. Qed.

(** C241. RandBytes(n) fills the whole buffer with the device's bytes in order, across short and interrupted reads, or ends the process:
    it never returns with a part of the buffer unfilled. *)
Theorem C241_all_or_abort : forall reads n, honest n reads ->
  rand_bytes reads n =
    if (n <=? length (delivered reads))%nat then Some (Ok (firstn n (delivered reads)))
    else if broken reads then Some CheckFail else None.
Proof.
  intros reads n H. unfold rand_bytes. rewrite read_all by (cbn; try rewrite Nat.sub_0_r; auto; lia). cbn [length]. rewrite Nat.sub_0_r. cbn [app].
  destruct (n <=? _)%nat; [reflexivity|]. destruct (broken reads); reflexivity.
Qed.
Example C241_nonvacuous : honest 5 [RGot [1; 2]; RIntr; RGot [3; 4; 5]] /\ rand_bytes [RGot [1; 2]; RIntr; RGot [3; 4; 5]] 5 = Some (Ok [1; 2; 3; 4; 5]) /\
  rand_bytes [RGot [1; 2]; REof] 5 = Some CheckFail.
Proof. vm_compute. repeat split; right; repeat split; lia || (right; repeat split; lia). Qed.

(** C242. itoa_r writes the integer's text and a NUL if they fit into sz bytes and returns buf; the bytes behind are untouched. *)
Theorem C242_text : forall i m sz base padding, 2 <= base <= 16 -> - 2 ^ 63 <= i < 2 ^ 63 -> (sz <= length m)%nat ->
  exists t, text_of i base padding t /\
    ((length t < sz)%nat -> itoa_r i m sz base padding = Ok (t ++ 0 :: skipn (S (length t)) m, true)) /\
    ((sz <= length t)%nat -> exists m', itoa_r i m sz base padding = Ok (m', false)).
Proof.
  intros i m sz base padding A B C. destruct (itoa_main i m sz base padding A B C) as (t & T & F & N). exists t. split; [exact T|]. split; [exact F|].
  intros H. destruct (N H) as (m' & E & _). eauto.
Qed.
Example C242_nonvacuous : itoa_r (-120) [9; 9; 9; 9; 9; 9; 9; 9] 8 10 5 = Ok ([45; 48; 48; 49; 50; 48; 0; 9], true) /\ itoa_r 255 [9; 9; 9; 9] 3 16 0 = Ok ([102; 102; 0; 9], true) /\
  text_of (-120) 10 5 [45; 48; 48; 49; 50; 48].
Proof. split; [reflexivity|]. split; [reflexivity|]. exists [0; 0; 1; 2; 0]. split; [repeat constructor; lia|]. repeat split; cbn; lia. Qed.

(** C243 (refuted, as documented). A text that does not fit is truncated, and a NUL is always appended. *)
Definition C243_statement : Prop := forall i m sz base padding t, 2 <= base <= 16 -> - 2 ^ 63 <= i < 2 ^ 63 -> (1 <= sz <= length m)%nat -> text_of i base padding t -> (sz <= length t)%nat ->
  exists b, itoa_r i m sz base padding = Ok (firstn (sz - 1) t ++ 0 :: skipn sz m, b).
Theorem C243_statement_refuted : ~ C243_statement.
Proof.
  intros H. destruct (H 123 [9; 9; 9] 3%nat 10 0%nat [49; 50; 51]) as [b E]; try (cbn; lia).
  - exists [1; 2; 3]. split; [repeat constructor; lia|]. repeat split; cbn; lia.
  - vm_compute in E. discriminate E.
Qed.
(** Then the result is NULL and the buffer starts with a NUL. Whatever the arguments, nothing is written outside the first sz bytes. *)
Theorem C243_bounds_partial : forall i m sz base padding, - 2 ^ 63 <= i < 2 ^ 63 -> (sz <= length m)%nat ->
  exists m' b, itoa_r i m sz base padding = Ok (m', b) /\ length m' = length m /\ skipn sz m' = skipn sz m /\
    (b = false -> (1 <= sz)%nat -> hd 1 m' = 0) /\ (b = true <-> 2 <= base <= 16 /\ exists t, text_of i base padding t /\ (length t < sz)%nat).
Proof.
  intros i m sz base padding B C. destruct (Z_lt_le_dec base 2) as [K|K]; [|destruct (Z_lt_le_dec 16 base) as [K2|K2]].
  1, 2: unfold itoa_r; (destruct (Nat.ltb_spec sz 1) as [S0|S0];
    [ exists m, false; repeat split; auto; try lia; try discriminate
    | replace ((base <? 2) || (16 <? base)) with true by (symmetry; apply orb_true_intro; rewrite !Z.ltb_lt; lia);
      destruct m as [|x m]; [cbn in C; lia|]; pose proof (poke_at [] x m 0 0 eq_refl) as P; cbn [app] in P; rewrite P; cbn [obind]; exists (0 :: m), false;
      split; [reflexivity|]; split; [reflexivity|]; split; [destruct sz; [lia|reflexivity]|]; split; [reflexivity|]; split; [discriminate|lia] ]).
  destruct (itoa_main i m sz base padding ltac:(lia) B C) as (t & T & F & N).
  destruct (Nat.ltb_spec (length t) sz) as [L|L].
  - rewrite (F L). eexists _, _. split; [reflexivity|].
    assert (LL : length (t ++ 0 :: skipn (S (length t)) m) = length m) by (rewrite app_length; cbn [length]; rewrite skipn_length; lia).
    split; [exact LL|]. split.
    + rewrite skipn_app, skipn_all2 by lia. cbn [app]. replace (sz - length t)%nat with (S (sz - S (length t))) by lia. rewrite skipn_cons, <- skipn_add. f_equal. lia.
    + split; [discriminate|]. split; [intros _; split; [lia|]; exists t; auto|reflexivity].
  - destruct (N L) as (m' & E & E2 & E3 & E4). rewrite E. eexists _, _. split; [reflexivity|]. split; [exact E2|]. split; [exact E3|]. split; [intros _; exact E4|].
    split; [discriminate|]. intros (_ & t' & T' & L'). pose proof (text_unique i base padding t t' K T T'). lia.
Qed.
Example C243_nonvacuous : itoa_r 123 [9; 9; 9; 9] 3 10 0 = Ok ([0; 50; 9; 9], false) /\ itoa_r 5 [9; 9] 2 17 0 = Ok ([0; 9], false) /\ itoa_r 5 [9; 9] 0 10 0 = Ok ([9; 9], false).
Proof. vm_compute. repeat split. Qed.

Print Assumptions C233_deflate_roundtrip.
Print Assumptions C234_padded_partial.
Print Assumptions C234_never_exact.
Print Assumptions C234_statement_refuted.
Print Assumptions C235_complete_iff_zero.
Print Assumptions C236_four_gib_lost.
Print Assumptions C236_statement_refuted.
Print Assumptions C236_below_partial.
Print Assumptions C237_padded_partial.
Print Assumptions C237_deflate_partial.
Print Assumptions C237_statement_refuted.
Print Assumptions C238_uniform_below_range.
Print Assumptions C239_int_uniform.
Print Assumptions C240_double_uniform.
Print Assumptions C241_all_or_abort.
Print Assumptions C242_text.
Print Assumptions C243_statement_refuted.
Print Assumptions C243_bounds_partial.
