From Verif.Model Require Import Common Bytes IOBuffer RawCodec.
From Verif.Spec Require Import RawSpec ByteQueue.
From Verif.Proofs Require Import Tac IOBufferProofs BytesProofs.
Open Scope Z_scope.

Definition stream (xs : list (list Z * rawmsg)) : list Z := concat (map wire xs).

Lemma wire_length x : sendable x -> length (wire x) = (24 + length (rcontent (snd x)))%nat.
Proof.
  destruct x as [pad m]. intros [H _]. cbn in H. unfold wire.
  rewrite !app_length, !le_encode_length, H. cbn. lia.
Qed.

Lemma wire_header x r : sendable x -> exists h,
  wire x ++ r = h ++ rcontent (snd x) ++ r /\ length h = 24%nat /\
  header_code h = rcode (snd x) /\ header_method h = rmethod (snd x) /\
  header_content_size h = Z.of_nat (length (rcontent (snd x))) /\ header_seq h = rseq (snd x).
Proof.
  destruct x as [pad m]. intros [Hp (V1 & V2 & V3 & V4 & V5)]. cbn [fst snd] in *.
  set (sz := le_encode 8 (Z.of_nat (length (rcontent m)))).
  exists ([rcode m; rmethod m] ++ pad ++ sz ++ le_encode 8 (rseq m)).
  assert (Hsz : length sz = 8%nat) by apply le_encode_length.
  split. { unfold wire. fold sz. rewrite <- !app_assoc. reflexivity. }
  split. { rewrite !app_length, Hsz, le_encode_length, Hp. reflexivity. }
  split; [reflexivity|]. split; [reflexivity|].
  split.
  - unfold header_content_size.
    replace (slice _ 8 8) with sz.
    + apply le_round. rewrite <- V4. change (256 ^ Z.of_nat 8) with (2 ^ 64). lia.
    + symmetry. rewrite app_assoc. apply slice_mid'; auto. rewrite app_length, Hp; reflexivity.
  - unfold header_seq.
    replace (slice _ 16 8) with (le_encode 8 (rseq m)).
    + apply le_round. exact V3.
    + symmetry. rewrite (app_assoc pad), (app_assoc [rcode m; rmethod m]).
      rewrite <- (app_nil_r (le_encode 8 (rseq m))) at 1.
      apply slice_mid'; [rewrite !app_length, Hp, Hsz; reflexivity|now rewrite le_encode_length].
Qed.

Lemma decode_full b x r : binv b -> sendable x -> as_string b = wire x ++ r ->
  Z.of_nat (length (as_string b)) < 2 ^ 63 ->
  exists b', raw_decode b = Ok (Some (snd x), b') /\ binv b' /\ as_string b' = r.
Proof.
  intros Hb Hx E Hlen. pose proof (as_string_length b Hb) as L.
  destruct (wire_header x r Hx) as (h & W & Lh & H1 & H2 & H3 & H4).
  pose proof (wire_length x Hx) as Lw.
  assert (Hcan : can_read b = (24 + length (rcontent (snd x)) + length r)%nat).
  { rewrite <- L, E, app_length, Lw. lia. }
  unfold raw_decode. change header_size with 24%nat.
  destruct (can_read b <? 24)%nat eqn:E1; b2p; [lia|].
  assert (Hf : firstn 24 (as_string b) = h).
  { rewrite E, W, <- Lh, firstn_app, firstn_all, Nat.sub_diag. simpl. apply app_nil_r. }
  rewrite Hf, H3, H1, H2, H4.
  set (n := length (rcontent (snd x))) in *.
  unfold frame_size. rewrite L, Hcan in Hlen. rewrite Z.mod_small by lia.
  destruct (Z.of_nat (can_read b) <? Z.of_nat n + 24) eqn:E2; b2p; [lia|].
  destruct (consume_spec b 24 Hb) as [I1 S1].
  assert (S1' : as_string (consume b 24) = rcontent (snd x) ++ r).
  { rewrite S1, E, W, <- Lh, skipn_app, skipn_all, Nat.sub_diag. reflexivity. }
  destruct Hx as [_ (_ & _ & _ & V4 & V5)]. fold n in V4.
  destruct (0 <? Z.of_nat n) eqn:E3; b2p.
  - unfold append_content, max_string. rewrite <- (as_string_length _ I1), S1', app_length. fold n.
    destruct (2 ^ 63 - 1 <? Z.of_nat n) eqn:E4; b2p; [lia|].
    destruct (Z.of_nat (n + length r) <? Z.of_nat n) eqn:E5; b2p; [lia|].
    cbn [obind]. rewrite Nat2Z.id.
    destruct (consume_spec _ n I1) as [I2 S2].
    eexists. split; [|split; [exact I2|]].
    + do 2 f_equal. unfold n. rewrite firstn_app, firstn_all, Nat.sub_diag, firstn_O, app_nil_r.
      f_equal. fold n. destruct (snd x); cbn in *. congruence.
    + rewrite S2, S1'. unfold n. rewrite skipn_app, skipn_all, Nat.sub_diag. reflexivity.
  - eexists. split; [|split; [exact I1|]].
    + do 2 f_equal. destruct (snd x) as [c m z q ct]; cbn in *. f_equal. subst z.
      assert (length ct = 0)%nat by (unfold n in *; lia). destruct ct; [|discriminate]. reflexivity.
    + rewrite S1'. assert (length (rcontent (snd x)) = 0)%nat by (unfold n in *; lia).
      destruct (rcontent (snd x)); [reflexivity|discriminate].
Qed.

Lemma decode_partial b : binv b -> partial_frame (as_string b) -> raw_decode b = Ok (None, b).
Proof.
  intros Hb Hp. unfold raw_decode. change header_size with 24%nat.
  pose proof (as_string_length b Hb) as L.
  destruct (can_read b <? 24)%nat eqn:E1; auto. b2p.
  destruct Hp as [Hp|(x & u & Hx & W & Hu)].
  - rewrite Hp in L. simpl in L. lia.
  - destruct (wire_header x [] Hx) as (h & W' & Lh & H1 & H2 & H3 & H4).
    rewrite app_nil_r in W'. rewrite W in W'.
    assert (Hf : firstn 24 (as_string b) = h).
    { apply (f_equal (firstn 24)) in W'. rewrite <- Lh in W' at 2.
      rewrite !firstn_app, firstn_all, Nat.sub_diag in W'. replace (24 - length (as_string b))%nat with 0%nat in W' by lia.
      rewrite firstn_O, !app_nil_r in W'. exact W'. }
    rewrite Hf, H3. pose proof (wire_length x Hx) as Lw. rewrite W, app_length in Lw.
    destruct Hx as [_ (_ & _ & _ & V4 & V5)].
    unfold frame_size. rewrite Z.mod_small by lia.
    assert (length u > 0)%nat by (destruct u; [congruence|simpl; lia]).
    destruct (Z.of_nat (can_read b) <? _) eqn:E2; auto; b2p. lia.
Qed.

Lemma loop_spec server xs : forall b t fuel, binv b -> Forall sendable xs -> partial_frame t ->
  as_string b = stream xs ++ t -> Z.of_nat (length (as_string b)) < 2 ^ 63 -> (length xs < fuel)%nat ->
  exists b', raw_loop fuel server b = Ok (map (raw_dispatch server) (map snd xs), b') /\ binv b' /\ as_string b' = t.
Proof.
  induction xs as [|x xs IH]; intros b t [|fuel] Hb F Ht E Hl Hf; simpl in Hf; try lia; cbn [raw_loop].
  - cbn in E. subst t. rewrite decode_partial by auto. cbn [obind]. eauto.
  - inv F. cbn [map concat stream] in E. unfold stream in E. cbn in E. rewrite <- app_assoc in E.
    destruct (decode_full b x _ Hb H1 E Hl) as (b1 & D & I1 & S1). rewrite D. cbn [obind].
    destruct (IH b1 t fuel I1 H2 Ht S1) as (b2 & E2 & I2 & S2); try lia.
    { rewrite E in Hl. rewrite app_length in Hl. rewrite S1. lia. }
    rewrite E2. cbn [obind]. eauto.
Qed.

Lemma stream_length xs : Forall sendable xs -> (length xs <= length (stream xs))%nat.
Proof.
  induction 1 as [|x xs Hx F IH]; cbn; auto. rewrite app_length, (wire_length x Hx). unfold stream in IH. lia.
Qed.

(** A prefix of a stream of frames is some whole frames and a partial one. *)
Lemma split_prefix xs : forall t p r, Forall sendable xs -> partial_frame t -> p ++ r = stream xs ++ t ->
  exists xs1 xs2 t1, xs = xs1 ++ xs2 /\ p = stream xs1 ++ t1 /\ partial_frame t1 /\ t1 ++ r = stream xs2 ++ t.
Proof.
  induction xs as [|x xs IH]; intros t p r F Ht E.
  - exists [], [], p. split; auto. split; auto. split; auto.
    cbn in E. subst t. destruct Ht as [Ht|(x & u & Hx & W & Hu)].
    + apply app_eq_nil in Ht as [-> ->]. left. reflexivity.
    + right. exists x, (r ++ u). rewrite app_assoc. split; auto. split; auto.
      destruct r; [auto|discriminate].
  - inv F. cbn [map concat stream] in E. unfold stream in E; cbn in E. rewrite <- app_assoc in E.
    destruct (le_lt_dec (length (wire x)) (length p)) as [Hle|Hlt].
    + assert (Hp : p = wire x ++ skipn (length (wire x)) p).
      { rewrite <- (firstn_skipn (length (wire x)) p) at 1. f_equal.
        apply (f_equal (firstn (length (wire x)))) in E. rewrite !firstn_app, firstn_all, Nat.sub_diag in E.
        replace (length (wire x) - length p)%nat with 0%nat in E by lia.
        rewrite !firstn_O, !app_nil_r in E. exact E. }
      rewrite Hp, <- app_assoc in E. apply app_inv_head in E.
      destruct (IH t _ r H2 Ht E) as (xs1 & xs2 & t1 & -> & Hp1 & Ht1 & E1).
      exists (x :: xs1), xs2, t1. split; auto. split.
      * rewrite Hp, Hp1. unfold stream. cbn. now rewrite app_assoc.
      * auto.
    + exists [], (x :: xs), p. split; auto. split; auto. split.
      * right. exists x, (skipn (length p) (wire x)). split; auto. split.
        -- rewrite <- (firstn_skipn (length p) (wire x)) at 1. f_equal.
           apply (f_equal (firstn (length p))) in E. rewrite !firstn_app, firstn_all, Nat.sub_diag in E.
           replace (length p - length (wire x))%nat with 0%nat in E by lia.
           rewrite !firstn_O, !app_nil_r in E. congruence.
        -- intro C. apply (f_equal (@length Z)) in C. rewrite skipn_length in C. simpl in C. lia.
      * unfold stream. cbn. now rewrite <- app_assoc.
Qed.

Lemma run_spec server cs : forall b xs t, binv b -> Forall sendable xs -> partial_frame t ->
  partial_frame (as_string b) -> as_string b ++ concat cs = stream xs ++ t ->
  Z.of_nat (length (stream xs ++ t)) < 2 ^ 63 ->
  exists b', raw_run server b cs = Ok (map (raw_dispatch server) (map snd xs), b') /\ as_string b' = t.
Proof.
  induction cs as [|c cs IH]; intros b xs t Hb F Ht Hp E Hl; cbn [raw_run concat] in *.
  - rewrite app_nil_r in E. destruct xs as [|x xs].
    + exists b. auto.
    + exfalso. inv F. unfold stream in *; cbn in *. rewrite <- app_assoc in *.
      assert (Hlb : Z.of_nat (length (as_string b)) < 2 ^ 63) by (rewrite E; exact Hl).
      destruct (decode_full b x _ Hb H1 E Hlb) as (b1 & D & _ & _).
      rewrite decode_partial in D by auto. discriminate.
  - rewrite app_assoc in E.
    destruct (split_prefix xs t (as_string b ++ c) (concat cs) F Ht E) as (xs1 & xs2 & t1 & -> & P1 & Ht1 & E1).
    apply Forall_app in F as [F1 F2].
    destruct (write_spec b c Hb) as (b1 & W1 & I1 & S1). rewrite W1. cbn [obind].
    rewrite P1 in S1. unfold raw_on_data.
    assert (Hl1 : Z.of_nat (length (as_string b1)) < 2 ^ 63).
    { rewrite S1, <- P1. rewrite <- E in Hl. rewrite app_length in Hl. lia. }
    destruct (loop_spec server xs1 b1 t1 (S (can_read b1)) I1 F1 Ht1 S1 Hl1) as (b2 & L2 & I2 & S2).
    { rewrite <- (as_string_length _ I1), S1, app_length. pose proof (stream_length _ F1). lia. }
    rewrite L2. cbn [obind].
    destruct (IH b2 xs2 t I2 F2 Ht) as (b3 & R3 & S3).
    + rewrite S2. exact Ht1.
    + rewrite S2. exact E1.
    + unfold stream in Hl |- *. rewrite map_app, concat_app in Hl. rewrite !app_length in *. lia.
    + rewrite R3. cbn [obind]. exists b3. rewrite !map_app. auto.
Qed.

Lemma raw_round_trip server cs xs t : Forall sendable xs -> partial_frame t ->
  concat cs = concat (map wire xs) ++ t -> Z.of_nat (length (concat cs)) < 2 ^ 63 ->
  exists b, raw_run server new_buf cs = Ok (map (raw_dispatch server) (map snd xs), b) /\ as_string b = t.
Proof.
  intros F Ht E Hl. rewrite E in Hl. apply (run_spec server cs new_buf xs t); auto. apply binv_new. left. reflexivity.
Qed.

Lemma encode_wire pad m : valid_raw m -> raw_encode pad m = Ok (wire (pad, m)).
Proof.
  intros (V1 & V2 & V3 & V4 & V5). unfold raw_encode. rewrite <- V4, Z.eqb_refl.
  unfold header_bytes, wire. rewrite <- V4, <- !app_assoc. reflexivity.
Qed.

(** * Arbitrary input *)
Definition buf_bytes (b : iobuf) : Prop := Forall is_byte (as_string b).

Lemma firstn_Forall {A} (P : A -> Prop) n l : Forall P l -> Forall P (firstn n l).
Proof. intro H. revert n. induction H; intros [|n]; simpl; auto. Qed.
Lemma skipn_Forall {A} (P : A -> Prop) n l : Forall P l -> Forall P (skipn n l).
Proof. intro H. revert n. induction H; intros [|n]; simpl; auto. Qed.

Lemma header_size_range h : Forall is_byte h -> length h = 24%nat -> 0 <= header_content_size h < 2 ^ 64.
Proof.
  intros H L. unfold header_content_size.
  assert (length (slice h 8 8) = 8%nat) by (apply slice_length; lia).
  assert (Hb : Forall is_byte (slice h 8 8)) by (apply firstn_Forall; apply skipn_Forall; exact H).
  apply le_decode_range in Hb. rewrite H0 in Hb. exact Hb.
Qed.

(** One decode step on arbitrary bytes: no out-of-bounds read; the process terminates exactly on a
    size field that makes frame_size() wrap. *)
Lemma decode_any b : binv b -> buf_bytes b -> Z.of_nat (length (as_string b)) < 2 ^ 63 ->
  (exists m b', raw_decode b = Ok (m, b') /\ binv b' /\ exists k, as_string b' = skipn k (as_string b) /\
     (k <= length (as_string b))%nat /\ (m = None -> k = 0%nat) /\ (forall m', m = Some m' -> (24 <= k)%nat)) \/
  (raw_decode b = CheckFail /\ (24 <= length (as_string b))%nat /\
     2 ^ 64 - 24 <= header_content_size (firstn 24 (as_string b))).
Proof.
  intros Hb Hy Hmem. unfold raw_decode. change header_size with 24%nat.
  pose proof (as_string_length b Hb) as L.
  destruct (can_read b <? 24)%nat eqn:E1; b2p.
  { left. exists None, b. split; auto. split; auto. exists 0%nat. repeat split; auto; try lia. discriminate. }
  set (h := firstn 24 (as_string b)).
  assert (Hr : 0 <= header_content_size h < 2 ^ 64).
  { apply header_size_range. now apply firstn_Forall. unfold h. rewrite firstn_length. lia. }
  set (sz := header_content_size h) in *.
  destruct (Z.of_nat (can_read b) <? frame_size sz) eqn:E2; b2p.
  { left. exists None, b. split; auto. split; auto. exists 0%nat. repeat split; auto; try lia. discriminate. }
  destruct (consume_spec b 24 Hb) as [I1 S1].
  destruct (0 <? sz) eqn:E3; b2p.
  - unfold append_content, max_string.
    destruct (2 ^ 63 - 1 <? sz) eqn:E4; b2p.
    + destruct (Z_lt_le_dec sz (2 ^ 64 - 24)) as [Hs|Hs].
      * unfold frame_size in E2. rewrite Z.mod_small in E2 by lia.
        exfalso. lia.
      * right. cbn [obind]. repeat split; auto. lia.
    + unfold frame_size in E2. rewrite Z.mod_small in E2 by lia.
      assert (length (as_string (consume b 24)) = can_read b - 24)%nat by (rewrite S1, skipn_length; lia).
      rewrite <- (as_string_length _ I1), H.
      destruct (Z.of_nat (can_read b - 24) <? sz) eqn:E5; b2p; [lia|]. cbn [obind].
      destruct (consume_spec _ (Z.to_nat sz) I1) as [I2 S2]. left.
      eexists _, _. split; [reflexivity|]. split; [exact I2|]. exists (24 + Z.to_nat sz)%nat.
      rewrite S2, S1, <- skipn_add. repeat split; try lia. discriminate.
  - left. eexists _, _. split; [reflexivity|]. split; [exact I1|]. exists 24%nat. repeat split; auto; try lia. discriminate.
Qed.

Lemma loop_any server fuel : forall b, binv b -> buf_bytes b -> Z.of_nat (length (as_string b)) < 2 ^ 63 ->
  (length (as_string b) < fuel)%nat ->
  (exists es b', raw_loop fuel server b = Ok (es, b') /\ binv b' /\ raw_decode b' = Ok (None, b') /\
     exists p, as_string b = p ++ as_string b') \/
  (raw_loop fuel server b = CheckFail /\ exists p h r, as_string b = p ++ h ++ r /\ length h = 24%nat /\
     2 ^ 64 - 24 <= header_content_size h).
Proof.
  induction fuel as [|fuel IH]; intros b Hb Hy Hm Hf; [lia|]. cbn [raw_loop].
  destruct (decode_any b Hb Hy Hm) as [(m & b1 & D & I1 & k & S1 & K & K0 & K1)|(D & L & Hs)]; rewrite D; cbn [obind].
  - destruct m as [m|].
    + specialize (K1 m eq_refl).
      destruct (IH b1 I1) as [(es & b2 & R & I2 & D2 & p & P)|(R & p & h & r & P & Lh & Hs)].
      * unfold buf_bytes. rewrite S1. now apply skipn_Forall.
      * rewrite S1, skipn_length. lia.
      * rewrite S1, skipn_length. lia.
      * left. rewrite R. cbn [obind]. eexists _, b2. split; [reflexivity|]. split; auto. split; auto.
        exists (firstn k (as_string b) ++ p). rewrite <- app_assoc, <- P, S1. symmetry. apply firstn_skipn.
      * right. rewrite R. cbn [obind]. split; auto. exists (firstn k (as_string b) ++ p), h, r.
        split; auto. rewrite <- app_assoc, <- P, S1. symmetry. apply firstn_skipn.
    + left. rewrite (K0 eq_refl) in S1. eexists _, b1. split; [reflexivity|]. split; auto. split.
      * assert (b1 = b).
        { revert D. unfold raw_decode. destruct (can_read b <? header_size)%nat; [congruence|].
          destruct (_ <? _); [congruence|]. destruct (0 <? _); [|congruence].
          destruct (append_content _ _); cbn [obind]; congruence. }
        congruence.
      * exists []. rewrite S1. reflexivity.
  - right. split; auto. exists [], (firstn 24 (as_string b)), (skipn 24 (as_string b)). cbn [app].
    rewrite firstn_skipn. split; auto. split; auto. rewrite firstn_length. lia.
Qed.

Lemma run_any server cs : forall b, binv b -> buf_bytes b -> Forall is_byte (concat cs) ->
  Z.of_nat (length (as_string b ++ concat cs)) < 2 ^ 63 ->
  (exists es b', raw_run server b cs = Ok (es, b') /\ exists p, as_string b ++ concat cs = p ++ as_string b') \/
  (raw_run server b cs = CheckFail /\ exists p h r, as_string b ++ concat cs = p ++ h ++ r /\ length h = 24%nat /\
     2 ^ 64 - 24 <= header_content_size h).
Proof.
  induction cs as [|c cs IH]; intros b Hb Hy Hc Hm; cbn [raw_run concat] in *.
  - left. exists [], b. split; auto. exists []. now rewrite app_nil_r.
  - apply Forall_app in Hc as [Hc1 Hc2].
    destruct (write_spec b c Hb) as (b1 & W1 & I1 & S1). rewrite W1. cbn [obind]. unfold raw_on_data.
    rewrite app_assoc in Hm |- *. rewrite <- S1 in Hm |- *.
    assert (Hy1 : buf_bytes b1) by (unfold buf_bytes; rewrite S1; apply Forall_app; auto).
    destruct (loop_any server (S (can_read b1)) b1 I1 Hy1) as [(es & b2 & R & I2 & D2 & p & P)|(R & p & h & r & P & Lh & Hs)].
    + rewrite app_length in Hm. lia.
    + rewrite (as_string_length _ I1). lia.
    + rewrite R. cbn [obind]. rewrite P, <- app_assoc in Hm |- *.
      assert (Hy2 : buf_bytes b2) by (unfold buf_bytes in *; rewrite P in Hy1; apply Forall_app in Hy1; tauto).
      destruct (IH b2 I2 Hy2 Hc2) as [(es' & b3 & R3 & p' & P')|(R3 & p' & h & r & P' & Lh & Hs)].
      * rewrite app_length in Hm. lia.
      * left. rewrite R3. cbn [obind]. eexists _, b3. split; [reflexivity|]. exists (p ++ p').
        rewrite <- app_assoc, <- P'. reflexivity.
      * right. rewrite R3. cbn [obind]. split; auto. exists (p ++ p'), h, r. rewrite <- app_assoc, <- P'. auto.
    + right. rewrite R. cbn [obind]. split; auto. exists p, h, (r ++ concat cs).
      rewrite P, <- !app_assoc. auto.
Qed.

Lemma never_oob server cs : Forall is_byte (concat cs) -> Z.of_nat (length (concat cs)) < 2 ^ 63 ->
  raw_run server new_buf cs <> UB.
Proof.
  intros H1 H2. destruct (run_any server cs new_buf binv_new) as [(es & b & R & _)|(R & _)]; auto;
    try (rewrite R; discriminate). constructor.
Qed.

Lemma survives server cs : Forall is_byte (concat cs) -> Z.of_nat (length (concat cs)) < 2 ^ 63 ->
  (forall i, le_decode (slice (concat cs) (i + 8) 8) < 2 ^ 64 - 24) ->
  exists es b p, raw_run server new_buf cs = Ok (es, b) /\ concat cs = p ++ as_string b.
Proof.
  intros H1 H2 H3.
  destruct (run_any server cs new_buf binv_new) as [(es & b & R & p & P)|(R & p & h & r & P & Lh & Hs)]; auto.
  - constructor.
  - eauto 6.
  - exfalso. change (as_string new_buf) with (@nil Z) in P. cbn [app] in P.
    specialize (H3 (length p)). rewrite P in H3. unfold header_content_size in Hs.
    assert (Es : slice (p ++ h ++ r) (length p + 8) 8 = slice (h ++ r) 8 8).
    { unfold slice. rewrite skipn_add, skipn_app, skipn_all, Nat.sub_diag. reflexivity. }
    rewrite Es, slice_app_l in H3 by lia. lia.
Qed.

Lemma hostile_crash : raw_run true new_buf [[0; 0; 0;0;0;0;0;0; 232;255;255;255;255;255;255;255; 1;0;0;0;0;0;0;0]] = CheckFail.
Proof. vm_compute. reflexivity. Qed.
Lemma hostile_refuted : ~ forall server chunks,
  Forall is_byte (concat chunks) -> Z.of_nat (length (concat chunks)) < 2 ^ 63 ->
  exists es b p, raw_run server new_buf chunks = Ok (es, b) /\ concat chunks = p ++ as_string b.
Proof.
  intro H. destruct (H true [[0; 0; 0;0;0;0;0;0; 232;255;255;255;255;255;255;255; 1;0;0;0;0;0;0;0]]) as (es & b & p & E & _).
  - repeat constructor; cbn; lia.
  - cbn. lia.
  - rewrite hostile_crash in E. discriminate.
Qed.
