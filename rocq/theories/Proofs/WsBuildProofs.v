From Verif.Model Require Import Common Bytes Websocket.
From Verif.Spec Require Import WsSpec.
From Verif.Proofs Require Import Tac BytesProofs WsProofs.
Open Scope Z_scope.

Definition upto (n : nat) : list Z := map Z.of_nat (seq 0 n).
Lemma in_upto n z : 0 <= z < Z.of_nat n -> In z (upto n).
Proof.
  intro H. unfold upto. apply in_map_iff. exists (Z.to_nat z). split; [lia|]. apply in_seq. lia.
Qed.

Definition bflags (op : Z) (fin hm : bool) : Z :=
  let f := op in
  let f := if fin then Z.lor f WS_FIN else f in
  if hm then Z.lor f WS_HAS_MASK else f.

Definition byte0 (op : Z) (fin hm : bool) : Z :=
  Z.lor (if has_flag (bflags op fin hm) WS_FIN then 128 else 0) (Z.land (bflags op fin hm) WS_OP_MASK).

Definition check0 (op : Z) : bool :=
  forallb (fun fin => forallb (fun hm =>
    Bool.eqb (has_flag (bflags op fin hm) WS_FIN) fin &&
    Bool.eqb (has_flag (bflags op fin hm) WS_HAS_MASK) hm &&
    (Z.land (byte0 op fin hm) WS_OP_MASK =? op) &&
    Bool.eqb (Z.land (byte0 op fin hm) 128 =? 0) (negb fin) &&
    ((if fin then Z.lor op WS_FIN else op) =? op + (if fin then 16 else 0)) &&
    (bflags op fin hm =? op + (if fin then 16 else 0) + (if hm then 32 else 0))) [true; false]) [true; false].
Lemma check0_all : forallb check0 (upto 16) = true. Proof. vm_compute. reflexivity. Qed.

Definition check1 (n : Z) : bool :=
  forallb (fun hm : bool =>
    (Z.land (Z.lor (if hm then 128 else 0) n) 127 =? n) &&
    Bool.eqb (Z.land (Z.lor (if hm then 128 else 0) n) 128 =? 0) (negb hm)) [true; false].
Lemma check1_all : forallb check1 (upto 128) = true. Proof. vm_compute. reflexivity. Qed.

Lemma bits0 op fin hm : 0 <= op < 16 ->
  has_flag (bflags op fin hm) WS_FIN = fin /\ has_flag (bflags op fin hm) WS_HAS_MASK = hm /\
  Z.land (byte0 op fin hm) WS_OP_MASK = op /\ (Z.land (byte0 op fin hm) 128 =? 0) = negb fin /\
  (if fin then Z.lor op WS_FIN else op) = op + (if fin then 16 else 0) /\
  bflags op fin hm = op + (if fin then 16 else 0) + (if hm then 32 else 0).
Proof.
  intro H. pose proof check0_all as C. rewrite forallb_forall in C. specialize (C op (in_upto 16 op H)).
  unfold check0 in C. rewrite forallb_forall in C. specialize (C fin ltac:(destruct fin; cbn; auto)).
  rewrite forallb_forall in C. specialize (C hm ltac:(destruct hm; cbn; auto)). b2p.
  repeat match goal with X : Bool.eqb _ _ = true |- _ => apply eqb_prop in X end. auto 10.
Qed.

Lemma bits1 n (hm : bool) : 0 <= n < 128 ->
  Z.land (Z.lor (if hm then 128 else 0) n) 127 = n /\
  (Z.land (Z.lor (if hm then 128 else 0) n) 128 =? 0) = negb hm.
Proof.
  intro H. pose proof check1_all as C. rewrite forallb_forall in C. specialize (C n (in_upto 128 n H)).
  unfold check1 in C. rewrite forallb_forall in C. specialize (C hm ltac:(destruct hm; cbn; auto)). b2p.
  repeat match goal with X : Bool.eqb _ _ = true |- _ => apply eqb_prop in X end. auto.
Qed.

(** length bytes *)
Definition lenacc (acc : Z) (bs : list Z) : Z := fold_left (fun a c => (a * 256 + c) mod 2 ^ 64) bs acc.

Lemma lenacc_be k : forall n, 0 <= n < 256 ^ Z.of_nat k -> n < 2 ^ 64 -> lenacc 0 (be_encode k n) = n.
Proof.
  induction k as [|k IH]; intros n H H2.
  - cbn in H. cbn. lia.
  - unfold be_encode. cbn [le_encode rev]. unfold lenacc. rewrite fold_left_app. cbn [fold_left].
    change (fold_left _ (rev (le_encode k (n / 256))) 0) with (lenacc 0 (be_encode k (n / 256))). rewrite IH.
    + rewrite Z.mul_comm, <- Z.div_mod by lia. apply Z.mod_small. lia.
    + replace (Z.of_nat (S k)) with (1 + Z.of_nat k) in H by lia. rewrite Z.pow_add_r, Z.pow_1_r in H by lia.
      split; [apply Z.div_pos; lia|apply Z.div_lt_upper_bound; lia].
    + apply Z.div_lt_upper_bound; lia.
Qed.

Lemma length_run bs : forall fl mk mo acc, bs <> [] ->
  bytes_run (mkwsp s_length fl mk mo acc (Z.of_nat (length bs))) bs =
  ws_after_length (mkwsp s_length fl mk mo (lenacc acc bs) 0).
Proof.
  induction bs as [|c bs IH]; intros fl mk mo acc Hn; [congruence|]. clear Hn.
  cbn [bytes_run]. unfold ws_byte. cbn [wst wflags wmask wmoff wlen wreq].
  destruct bs as [|c' bs].
  - cbn [length]. change (Z.of_nat 1 - 1) with 0. cbn [Z.eqb bytes_run].
    destruct (ws_after_length _) as [q es] eqn:E. rewrite app_nil_r. rewrite <- E. reflexivity.
  - replace (Z.of_nat (length (c :: c' :: bs)) - 1) with (Z.of_nat (length (c' :: bs))) by (cbn [length]; lia).
    destruct (Z.of_nat (length (c' :: bs)) =? 0) eqn:E; b2p; [cbn [length] in E; lia|].
    rewrite IH by discriminate. cbn [lenacc fold_left]. fold (lenacc ((acc * 256 + c) mod 2 ^ 64) (c' :: bs)).
    destruct (ws_after_length _). reflexivity.
Qed.

Lemma land255 z : Z.land z 255 = z mod 256.
Proof. change 255 with (Z.ones 8). rewrite Z.land_ones by lia. reflexivity. Qed.

(** the two or ten first bytes *)
Definition len_bytes (hm : bool) (n : Z) : list Z :=
  let m := if hm then 128 else 0 in
  if n <? 126 then [Z.lor m n]
  else if n <=? 65535 then Z.lor m 126 :: be_encode 2 n
  else Z.lor m 127 :: be_encode 8 n.

Lemma build_shape data mask hm op fin : 0 <= op < 16 -> Z.of_nat (length data) < 2 ^ 31 ->
  ws_build_frame data mask hm op fin =
  byte0 op fin hm :: len_bytes hm (Z.of_nat (length data)) ++ (if hm then mask ++ ws_xor mask 0 data else data).
Proof.
  intros Ho Hl. unfold ws_build_frame, ws_build. fold (bflags op fin hm).
  destruct (bits0 op fin hm Ho) as (B1 & B2 & _).
  fold (byte0 op fin hm). rewrite B2. cbn [app fst ws_decode]. f_equal. f_equal.
  unfold len_bytes. set (n := Z.of_nat (length data)) in *.
  assert (0 <= n) by (unfold n; lia).
  destruct (n <? 126) eqn:E1; auto. destruct (n <=? 65535) eqn:E2; b2p.
  - f_equal. unfold be_encode. cbn [le_encode rev app]. rewrite land255.
    rewrite Z.shiftr_div_pow2 by lia. change (2 ^ 8) with 256.
    rewrite (Z.mod_small (n / 256)); auto. split; [apply Z.div_pos; lia|apply Z.div_lt_upper_bound; lia].
  - f_equal. unfold be_encode. cbn [le_encode rev app]. rewrite !land255.
    rewrite !Z.shiftr_div_pow2 by lia. rewrite !Z.div_div by lia. reflexivity.
Qed.

Lemma len_run p (hm : bool) n : wst p = s_head -> 0 <= n < 2 ^ 31 ->
  let f := if hm then Z.lor (wflags p) WS_HAS_MASK else wflags p in
  exists st rq, bytes_run p (len_bytes hm n) = ws_after_length (mkwsp st f (wmask p) (wmoff p) n rq).
Proof.
  intros Hs Hn f. unfold len_bytes.
  assert (Step : forall v, 0 <= v < 128 -> ws_byte p (Z.lor (if hm then 128 else 0) v) =
     if 126 <=? v then (mkwsp s_length f (wmask p) (wmoff p) 0 (if v =? 127 then 8 else 2), [])
      else ws_after_length (mkwsp s_head f (wmask p) (wmoff p) v (wreq p))).
  { intros v Hv. unfold ws_byte. rewrite Hs. destruct (bits1 v hm Hv) as [-> ->]. rewrite negb_involutive. reflexivity. }
  destruct (n <? 126) eqn:E1; b2p.
  - exists s_head, (wreq p). cbn [bytes_run]. rewrite Step by lia.
    destruct (126 <=? n) eqn:E; b2p; [lia|]. destruct (ws_after_length _). now rewrite app_nil_r.
  - destruct (n <=? 65535) eqn:E2; b2p; cbn [bytes_run]; rewrite Step by lia; cbn -[be_encode bytes_run ws_after_length];
      exists s_length, 0.
    + pose proof (length_run (be_encode 2 n) f (wmask p) (wmoff p) 0) as L.
      rewrite be_encode_length in L. cbn [Z.of_nat Pos.of_succ_nat Pos.succ] in L. rewrite L.
      2:{ intro C. apply (f_equal (@length Z)) in C. rewrite be_encode_length in C. discriminate. }
      rewrite lenacc_be by (change (256 ^ Z.of_nat 2) with 65536; lia).
      clear L. match goal with |- (let '(_, _) := ?X in _) = _ => destruct X; reflexivity end.
    + pose proof (length_run (be_encode 8 n) f (wmask p) (wmoff p) 0) as L.
      rewrite be_encode_length in L. cbn [Z.of_nat Pos.of_succ_nat Pos.succ] in L. rewrite L.
      2:{ intro C. apply (f_equal (@length Z)) in C. rewrite be_encode_length in C. discriminate. }
      rewrite lenacc_be by (change (256 ^ Z.of_nat 8) with (2 ^ 64); lia).
      clear L. match goal with |- (let '(_, _) := ?X in _) = _ => destruct X; reflexivity end.
Qed.

Lemma mask_run fl mk mo n m : length mk = 4%nat -> length m = 4%nat ->
  exists st rq, bytes_run (mkwsp s_mask fl mk mo n 4) m = ws_enter_body (mkwsp st fl m mo n rq).
Proof.
  intros H1 H2.
  destruct mk as [|k0 [|k1 [|k2 [|k3 [|? ?]]]]]; try discriminate.
  destruct m as [|m0 [|m1 [|m2 [|m3 [|? ?]]]]]; try discriminate.
  exists s_mask, 0. cbn -[ws_enter_body]. destruct (ws_enter_body _). now rewrite app_nil_r.
Qed.

Definition body_evs (d : list Z) : list ws_ev := match d with [] => [] | _ => [EBody d] end.

Lemma body_stage st fl mk rq w d : length w = length d -> Z.of_nat (length d) < 2 ^ 31 ->
  d = (if has_flag fl WS_HAS_MASK then ws_xor mk 0 w else w) ->
  exists q es, (let '(r, e1) := ws_enter_body (mkwsp st fl mk 0 (Z.of_nat (length d)) rq) in
     let '(r2, e2) := bytes_run r w in (r2, e1 ++ e2)) = (q, es) /\
    wst q = s_start /\ wmask q = mk /\
    eqv es ([EHeader fl (Z.of_nat (length d))] ++ body_evs d ++ [EEnd fl]) /\ Forall length_sane es.
Proof.
  intros Hl Hb Hd. unfold ws_enter_body. cbn [wflags wmask wmoff wlen wreq wst].
  destruct d as [|x d].
  - destruct w; [|discriminate]. cbn. eexists _, _. split; [reflexivity|]. repeat split; auto.
    repeat constructor; cbn; lia.
  - set (d' := x :: d) in *. destruct (Z.of_nat (length d') =? 0) eqn:E; b2p; [cbn in E; lia|].
    set (p := mkwsp s_body fl mk 0 (Z.of_nat (length d')) (Z.of_nat (length d'))).
    assert (Hw : w <> []) by (intro C; subst w; discriminate).
    destruct (body_run w p eq_refl Hw) as (es' & B & Q & F); [cbn [wreq p]; rewrite Hl; lia|].
    cbn zeta in B. unfold body_after in B. cbn [wreq] in B. rewrite Hl in B.
    unfold p at 2 in B. cbn [wreq] in B. rewrite Z.sub_diag in B. cbn [Z.eqb] in B. rewrite B.
    eexists _, _. split; [reflexivity|].
    assert (Ef : wflags (fst (ws_body_cb p w)) = fl /\ wmask (fst (ws_body_cb p w)) = mk /\ snd (ws_body_cb p w) = EBody d').
    { unfold ws_body_cb, p, ws_decode. cbn [wflags wmask wmoff wlen wreq wst]. rewrite Hd.
      destruct (has_flag fl WS_HAS_MASK); auto. }
    destruct Ef as (Ef1 & Ef2 & Ef3). cbn [wst wmask wflags]. rewrite Ef1, Ef2. split; auto. split; auto. split.
    + apply eqv_app; [apply eqv_refl|]. apply eqv_app; [|apply eqv_refl].
      apply eqv_sym. rewrite Ef3 in Q. exact Q.
    + apply Forall_app. split; [repeat constructor; cbn [length_sane]; lia|]. apply Forall_app. split; auto. repeat constructor.
Qed.

Lemma frame_run p x : wst p = s_start -> length (wmask p) = 4%nat -> frame_ok x ->
  exists q es, bytes_run p (frame_bytes x) = (q, es) /\ wst q = s_start /\ length (wmask q) = 4%nat /\
    eqv es ([EHeader (frame_flags x) (Z.of_nat (length (f_data x)))] ++ body_evs (f_data x) ++ [EEnd (frame_flags x)]) /\
    Forall length_sane es.
Proof.
  intros Hs Hm (O1 & O2 & O3 & O4). unfold frame_bytes, frame_flags. destruct x as [fin op mask d].
  cbn [f_fin f_op f_mask f_data] in *.
  set (hm := match mask with Some _ => true | None => false end).
  set (mk := match mask with Some m => m | None => [0;0;0;0] end).
  rewrite build_shape by lia.
  destruct (bits0 op fin hm O1) as (B1 & B2 & B3 & B4 & B5 & B6).
  cbn [bytes_run]. unfold ws_byte at 1. rewrite Hs, B3, B4, negb_involutive, B5.
  set (f0 := op + (if fin then 16 else 0)) in *.
  set (p1 := mkwsp s_head f0 (wmask p) 0 0 (wreq p)).
  rewrite bytes_run_app. set (n := Z.of_nat (length d)) in *.
  destruct (len_run p1 hm n eq_refl ltac:(unfold n; lia)) as (st & rq & L). cbn zeta in L.
  rewrite L. clear L. cbn [wmask wmoff wflags p1].
  assert (Ef : (if hm then Z.lor f0 WS_HAS_MASK else f0) = f0 + (if hm then 32 else 0)).
  { rewrite <- B6. unfold bflags. rewrite <- B5. destruct fin; reflexivity. }
  rewrite Ef. replace (match mask with Some _ => 32 | None => 0 end) with (if hm then 32 else 0) by (unfold hm; destruct mask; reflexivity).
  rewrite <- B6 in *. set (F := bflags op fin hm) in *. fold f0.
  unfold ws_after_length. cbn [wflags wmask wmoff wlen wreq wst]. rewrite B2.
  destruct hm eqn:Ehm.
  - rewrite bytes_run_app.
    assert (Lm : length mk = 4%nat /\ Forall is_byte mk) by (unfold mk; destruct mask; [tauto|discriminate]).
    destruct (mask_run F (wmask p) 0 n mk Hm (proj1 Lm)) as (st' & rq' & M). rewrite M.
    destruct (body_stage st' F mk rq' (ws_xor mk 0 d) d (xor_length _ _ _) ltac:(unfold n in *; lia)) as (q & es & E & Sq & Mq & V & FF).
    { rewrite B2. symmetry. apply xor_xor. }
    fold n in E. destruct (ws_enter_body _) as [r e1]. destruct (bytes_run r _) as [r2 e2]. cbn [app]. injection E as E0 E1; rewrite <- E0, <- E1 in *; clear E0 E1.
    eexists _, _. split; [reflexivity|]. split; auto. split; [rewrite Mq; tauto|]. split; auto.
  - destruct (body_stage st F (wmask p) rq d d eq_refl ltac:(unfold n in *; lia)) as (q & es & E & Sq & Mq & V & FF).
    { rewrite B2. reflexivity. }
    fold n in E. destruct (ws_enter_body _) as [r e1]. destruct (bytes_run r _) as [r2 e2]. cbn [app]. injection E as E0 E1; rewrite <- E0, <- E1 in *; clear E0 E1.
    eexists _, _. split; [reflexivity|]. split; auto. split; [rewrite Mq; auto|]. split; auto.
Qed.

Definition frame_evs (x : frame) : list ws_ev :=
  [EHeader (frame_flags x) (Z.of_nat (length (f_data x)))] ++ body_evs (f_data x) ++ [EEnd (frame_flags x)].

Lemma frames_run xs : forall p, wst p = s_start -> length (wmask p) = 4%nat -> Forall frame_ok xs ->
  exists q es, bytes_run p (concat (map frame_bytes xs)) = (q, es) /\ wst q = s_start /\
    eqv es (concat (map frame_evs xs)) /\ Forall length_sane es.
Proof.
  induction xs as [|x xs IH]; intros p Hs Hm F; cbn [map concat].
  - exists p, []. repeat split; auto.
  - inv F. destruct (frame_run p x Hs Hm H1) as (q & es & E & Sq & Lq & V & FF).
    destruct (IH q Sq Lq H2) as (q2 & es2 & E2 & S2 & V2 & F2).
    exists q2, (es ++ es2). rewrite bytes_run_app, E, E2. repeat split; auto.
    + apply eqv_app; auto.
    + apply Forall_app; auto.
Qed.

Lemma feed_frames cs xs : Forall frame_ok xs -> Forall addr_ok cs ->
  concat (map snd cs) = concat (map frame_bytes xs) ->
  exists q es, ws_feed ws_init cs = Ok (q, es) /\ wst q = s_start /\ eqv es (concat (map frame_evs xs)).
Proof.
  intros F A E. destruct init_inv as [Ii Ib].
  destruct (frames_run xs ws_init eq_refl eq_refl F) as (q & es & R & Sq & V & FF).
  destruct (feed_fwd cs ws_init Ii Ib A) as (q2 & es2 & E2 & I2 & B2 & es2' & R2 & V2 & S2).
  { unfold stream. rewrite E, R. exact FF. }
  unfold stream in R2. rewrite E, R in R2. injection R2 as R2 R3. subst q2 es2'.
  exists q, es2. split; auto. split; auto. eapply eqv_trans; eauto.
Qed.

Definition frame_view (x : frame) : Z * Z * list Z := (frame_flags x, Z.of_nat (length (f_data x)), f_data x).

Lemma collect_frames xs : collect (concat (map frame_evs xs)) = (map frame_view xs, None).
Proof.
  unfold collect.
  assert (G : forall fs, fold_left collect_step (concat (map frame_evs xs)) (fs, None) = (fs ++ map frame_view xs, None)).
  { induction xs as [|x xs IH]; intro fs; cbn [map concat].
    - cbn. now rewrite app_nil_r.
    - rewrite fold_left_app. unfold frame_evs at 2. rewrite !fold_left_app. cbn [fold_left collect_step app].
      assert (E : fold_left collect_step (body_evs (f_data x)) (fs, Some (frame_flags x, Z.of_nat (length (f_data x)), [])) =
                  (fs, Some (frame_view x))).
      { unfold body_evs, frame_view. destruct (f_data x); reflexivity. }
      rewrite E. cbn [collect_step]. rewrite IH, <- app_assoc. reflexivity. }
  apply (G []).
Qed.

Lemma build_parse cs xs : Forall frame_ok xs -> Forall addr_ok cs ->
  concat (map snd cs) = concat (map frame_bytes xs) ->
  exists q es, ws_feed ws_init cs = Ok (q, es) /\
    collect es = (map (fun x => (frame_flags x, Z.of_nat (length (f_data x)), f_data x)) xs, None).
Proof.
  intros F A E. destruct (feed_frames cs xs F A E) as (q & es & R & Sq & V).
  exists q, es. split; auto. rewrite (eqv_collect _ _ V). apply collect_frames.
Qed.

Lemma build_size data mask hm op fin : 0 <= op < 16 -> Z.of_nat (length data) < 2 ^ 31 - 14 -> length mask = 4%nat ->
  Z.of_nat (length (ws_build_frame data mask hm op fin)) = ws_frame_size hm (Z.of_nat (length data)).
Proof.
  intros Ho Hl Hm. rewrite build_shape by lia. cbn [length]. rewrite app_length. unfold len_bytes, ws_frame_size.
  set (n := Z.of_nat (length data)) in *. 
  assert (L : Z.of_nat (length (if hm then mask ++ ws_xor mask 0 data else data)) = n + (if hm then 4 else 0)).
  { destruct hm; [rewrite app_length, xor_length, Hm|]; unfold n; lia. }
  destruct (n <? 126) eqn:E1; b2p.
  - destruct (126 <=? n) eqn:E2; b2p; [lia|]. cbn [length]. lia.
  - destruct (126 <=? n) eqn:E2; b2p; [|lia].
    destruct (n <=? 65535) eqn:E3; b2p; cbn [length]; rewrite be_encode_length;
      destruct (65535 <? n) eqn:E4; b2p; lia.
Qed.

Lemma flags_view x : frame_ok x ->
  Z.land (frame_flags x) 15 = f_op x /\ negb (Z.land (frame_flags x) 16 =? 0) = f_fin x.
Proof.
  intros (O1 & _). unfold frame_flags.
  set (hm := match f_mask x with Some _ => true | None => false end).
  replace (match f_mask x with Some _ => 32 | None => 0 end) with (if hm then 32 else 0) by (unfold hm; destruct (f_mask x); reflexivity).
  assert (C : forallb (fun op => forallb (fun fin : bool => forallb (fun hm : bool =>
     (Z.land (op + (if fin then 16 else 0) + (if hm then 32 else 0)) 15 =? op) &&
     Bool.eqb (negb (Z.land (op + (if fin then 16 else 0) + (if hm then 32 else 0)) 16 =? 0)) fin) [true;false]) [true;false]) (upto 16) = true)
    by (vm_compute; reflexivity).
  rewrite forallb_forall in C. specialize (C _ (in_upto 16 _ O1)).
  rewrite forallb_forall in C. specialize (C (f_fin x) ltac:(destruct (f_fin x); cbn; auto)).
  rewrite forallb_forall in C. specialize (C hm ltac:(destruct hm; cbn; auto)). b2p. apply eqb_prop in H0. auto.
Qed.

(** * Message reassembly *)
Lemma codec_frame x c : frame_ok x ->
  fold_left codec_ev (frame_evs x) c =
  let '(op, d) := match wcur c with Some m => m | None => (OP_TEXT, []) end in
  let op' := if f_op x =? 0 then op else f_op x in
  let c' := mkcodec (Some (op', d ++ f_data x)) (wacts c) in
  if f_fin x then
    if op' =? OP_CLOSE then mkcodec (wcur c') (wacts c ++ [WClose])
    else mkcodec None (wacts c ++ (if op' =? OP_PING then [WPong] else []) ++ [WDeliver op' (d ++ f_data x)])
  else c'.
Proof.
  intro Ho. destruct (flags_view x Ho) as [V1 V2].
  unfold frame_evs. rewrite !fold_left_app. cbn [fold_left codec_ev].
  unfold codec_header. unfold WS_OP_MASK. rewrite V1. unfold OP_CONTINUE.
  destruct (match wcur c with Some m => m | None => (OP_TEXT, []) end) as [op d].
  assert (E : forall o a, fold_left codec_ev (body_evs (f_data x)) (mkcodec (Some (o, d)) a) = mkcodec (Some (o, d ++ f_data x)) a).
  { intros o a. unfold body_evs. destruct (f_data x); [cbn; now rewrite app_nil_r|reflexivity]. }
  rewrite E. unfold codec_end, has_flag, WS_FIN. rewrite V2. cbn [wcur wacts]. reflexivity.
Qed.


Lemma codec_conts fs : forall op d acts, Forall frame_ok (conts fs) -> fs <> [] -> op <> 8 ->
  fold_left codec_ev (concat (map frame_evs (conts fs))) (mkcodec (Some (op, d)) acts) =
  mkcodec None (acts ++ (if op =? OP_PING then [WPong] else []) ++ [WDeliver op (d ++ concat (map snd fs))]).
Proof.
  induction fs as [|[m x] fs IH]; intros op d acts F Hn H8; [congruence|]. clear Hn.
  cbn [conts map concat]. cbn [conts] in F. apply Forall_inv in F as F1. apply Forall_inv_tail in F as F2.
  rewrite fold_left_app, codec_frame by auto.
  cbn [wcur wacts f_op f_fin f_data Z.eqb]. cbn zeta.
  destruct fs as [|y fs].
  - cbn [conts map concat fold_left]. destruct (op =? OP_CLOSE) eqn:E; b2p; [unfold OP_CLOSE in *; lia|].
    cbn [snd]. now rewrite app_nil_r.
  - rewrite IH by (auto; discriminate). cbn [map concat snd]. now rewrite <- app_assoc.
Qed.

Lemma codec_msg g acts : Forall frame_ok (msg_frames g) -> g_op g <> 0 -> g_op g <> 8 ->
  fold_left codec_ev (concat (map frame_evs (msg_frames g))) (mkcodec None acts) =
  mkcodec None (acts ++ (if g_op g =? 9 then [WPong] else []) ++ [WDeliver (g_op g) (g_payload g)]).
Proof.
  intros F H0 H8. unfold msg_frames in *. inv F. cbn [map concat]. rewrite fold_left_app, codec_frame by auto.
  cbn [wcur wacts f_op f_fin f_data app].
  destruct (g_op g =? 0) eqn:E0; b2p; [lia|]. cbn zeta. unfold g_payload.
  destruct (g_rest g) as [|y r].
  - cbn [conts map concat fold_left]. destruct (g_op g =? OP_CLOSE) eqn:E; b2p; [unfold OP_CLOSE in *; lia|].
    rewrite app_nil_r. reflexivity.
  - rewrite codec_conts by (auto; discriminate). reflexivity.
Qed.

Definition expected (g : message) : list ws_act :=
  (if g_op g =? 9 then [WPong] else []) ++ [WDeliver (g_op g) (g_payload g)].

Lemma codec_msgs gs : forall acts, Forall frame_ok (concat (map msg_frames gs)) ->
  Forall (fun g => g_op g <> 0 /\ g_op g <> 8) gs ->
  fold_left codec_ev (concat (map frame_evs (concat (map msg_frames gs)))) (mkcodec None acts) =
  mkcodec None (acts ++ concat (map expected gs)).
Proof.
  induction gs as [|g gs IH]; intros acts F G; cbn [map concat].
  - cbn. now rewrite app_nil_r.
  - cbn [map concat] in F. apply Forall_app in F as [F1 F2]. inv G.
    rewrite map_app, concat_app, fold_left_app, codec_msg by tauto.
    rewrite IH by auto. f_equal. unfold expected at 2. rewrite <- !app_assoc. reflexivity.
Qed.

Lemma reassembly cs gs : Forall frame_ok (concat (map msg_frames gs)) -> Forall addr_ok cs ->
  Forall (fun g => g_op g <> 0 /\ g_op g <> 8) gs ->
  concat (map snd cs) = concat (map frame_bytes (concat (map msg_frames gs))) ->
  exists q es, ws_feed ws_init cs = Ok (q, es) /\
    fold_left codec_ev es codec_init = mkcodec None (concat (map expected gs)).
Proof.
  intros F A G E. destruct (feed_frames cs _ F A E) as (q & es & R & Sq & V).
  exists q, es. split; auto. rewrite (eqv_codec _ _ _ V). apply (codec_msgs gs []); auto.
Qed.

Lemma close_frame cs gs m d : Forall frame_ok (concat (map msg_frames gs)) -> frame_ok (mkframe true 8 m d) ->
  Forall addr_ok cs -> Forall (fun g => g_op g <> 0 /\ g_op g <> 8) gs ->
  concat (map snd cs) = concat (map frame_bytes (concat (map msg_frames gs) ++ [mkframe true 8 m d])) ->
  exists q es, ws_feed ws_init cs = Ok (q, es) /\
    wacts (fold_left codec_ev es codec_init) = concat (map expected gs) ++ [WClose].
Proof.
  intros F Fc A G E.
  destruct (feed_frames cs (concat (map msg_frames gs) ++ [mkframe true 8 m d])) as (q & es & R & Sq & V); auto.
  { apply Forall_app. auto. }
  exists q, es. split; auto. rewrite (eqv_codec _ _ _ V).
  rewrite map_app, concat_app, fold_left_app. unfold codec_init. rewrite (codec_msgs gs []) by auto.
  cbn [map concat]. rewrite app_nil_r, codec_frame by auto. reflexivity.
Qed.

Definition bad_frames : list frame :=
  [mkframe false 1 None [97]; mkframe true 9 None []; mkframe true 0 None [98]].
Definition bad_msg : message := mkmsg 1 (None, [97]) [(None, [98])].

Lemma interleaved_refuted : ~ forall cs fs gs,
  Forall frame_ok fs -> Forall addr_ok cs -> concat (map snd cs) = concat (map frame_bytes fs) ->
  Forall (fun g => is_data_op (g_op g)) gs ->
  filter (fun x => negb (is_control x)) fs = concat (map msg_frames gs) ->
  Forall (fun x => f_fin x = true /\ f_op x <> 8) (filter is_control fs) ->
  exists q es, ws_feed ws_init cs = Ok (q, es) /\
    data_deliveries (wacts (fold_left codec_ev es codec_init)) = map (fun g => (g_op g, g_payload g)) gs.
Proof.
  intro H. destruct (H [(4096, concat (map frame_bytes bad_frames))] bad_frames [bad_msg]) as (q & es & E & D).
  - repeat constructor; cbn; lia.
  - repeat constructor; cbn; lia.
  - reflexivity.
  - repeat constructor.
  - reflexivity.
  - repeat constructor. cbn. lia.
  - vm_compute in E. injection E as <- <-. vm_compute in D. discriminate.
Qed.

(** * Hostile length *)
Definition hostile_bytes : list Z := [130; 127; 255;255;255;255;255;255;255;255; 1].
Lemma hostile_ub : ws_feed ws_init [(4096, hostile_bytes)] = UB.
Proof. vm_compute. reflexivity. Qed.

Lemma overread_refuted : ~ forall cs, Forall addr_ok cs -> Forall is_byte (concat (map snd cs)) ->
  ws_feed ws_init cs <> UB.
Proof.
  intro H. apply (H [(4096, hostile_bytes)]).
  - repeat constructor; cbn; lia.
  - apply bytes_dec. reflexivity.
  - exact hostile_ub.
Qed.

Lemma no_overread cs : Forall addr_ok cs ->
  Forall length_sane (snd (bytes_run ws_init (concat (map snd cs)))) ->
  exists q es, ws_feed ws_init cs = Ok (q, es).
Proof.
  intros A F. destruct init_inv as [Ii Ib].
  destruct (feed_fwd cs ws_init Ii Ib A F) as (q & es & E & _). eauto.
Qed.

Lemma be_decode_snoc a c : be_decode (a ++ [c]) = be_decode a * 256 + c.
Proof. unfold be_decode. rewrite rev_app_distr. cbn [rev app le_decode]. lia. Qed.

Definition len_inv (pre : list Z) (p : wsp) : Prop :=
  match wst p with
  | s_length => exists a w, pre = a ++ w /\ wlen p = be_decode w /\
      (Z.of_nat (length w) + wreq p = 2 \/ Z.of_nat (length w) + wreq p = 8) /\ 1 <= wreq p
  | s_mask => wlen p < 2 ^ 63
  | _ => True
  end.

Lemma enter_sane p pre : wlen p < 2 ^ 63 -> let '(q, es) := ws_enter_body p in Forall length_sane es /\ len_inv pre q.
Proof. intro H. unfold ws_enter_body. destruct (wlen p =? 0); split; try exact I; repeat constructor; exact H. Qed.
Lemma after_sane p pre : wlen p < 2 ^ 63 -> let '(q, es) := ws_after_length p in Forall length_sane es /\ len_inv pre q.
Proof. intro H. unfold ws_after_length. destruct (has_flag _ _); [split; cbn; auto|now apply enter_sane]. Qed.

Lemma byte_sane pre p c : len_inv pre p -> Forall is_byte (pre ++ [c]) ->
  (forall i, be_decode (slice (pre ++ [c]) i 8) < 2 ^ 63) ->
  let '(q, es) := ws_byte p c in Forall length_sane es /\ len_inv (pre ++ [c]) q.
Proof.
  intros Hi Hb Hw. unfold ws_byte, len_inv in *. destruct (wst p) eqn:Es.
  - split; cbn; auto.
  - destruct (126 <=? Z.land c 127) eqn:E.
    + split; cbn; auto. exists (pre ++ [c]), []. rewrite app_nil_r. split; auto. split; auto.
      cbn. destruct (Z.land c 127 =? 127); lia.
    + b2p. apply after_sane. cbn [wlen]. lia.
  - destruct Hi as (a & w & Ea & El & Er & E1).
    assert (Hbw : Forall is_byte (w ++ [c])).
    { rewrite Ea, <- app_assoc in Hb. now apply Forall_app in Hb. }
    assert (Ev : wlen p * 256 + c = be_decode (w ++ [c])) by (rewrite be_decode_snoc; lia).
    assert (Hr : 0 <= be_decode (w ++ [c]) < 256 ^ (Z.of_nat (length w) + 1)).
    { unfold be_decode. apply Forall_rev in Hbw. apply le_decode_range in Hbw.
      rewrite rev_length, app_length in Hbw. cbn [length] in Hbw.
      replace (Z.of_nat (length w) + 1) with (Z.of_nat (length w + 1)) by lia. exact Hbw. }
    assert (H64 : 256 ^ (Z.of_nat (length w) + 1) <= 2 ^ 64).
    { change (2 ^ 64) with (256 ^ 8). apply Z.pow_le_mono_r; lia. }
    rewrite Ev, (Z.mod_small (be_decode (w ++ [c]))) by lia.
    cbn [wreq]. destruct (wreq p - 1 =? 0) eqn:E0; b2p.
    + apply after_sane. cbn [wlen]. destruct Er as [Er|Er].
      * replace (Z.of_nat (length w) + 1) with 2 in Hr by lia. change (256 ^ 2) with 65536 in Hr. lia.
      * specialize (Hw (length a)). rewrite Ea, <- app_assoc in Hw. unfold slice in Hw.
        rewrite skipn_app, skipn_all, Nat.sub_diag in Hw. cbn [skipn app] in Hw.
        rewrite firstn_all2 in Hw by (rewrite app_length; cbn; lia). exact Hw.
    + split; auto. cbn. exists a, (w ++ [c]). rewrite Ea, <- app_assoc. split; auto. split; auto.
      rewrite app_length. cbn [length]. lia.
  - cbn [wreq]. destruct (wreq p - 1 =? 0) eqn:E0; b2p; [apply enter_sane; exact Hi|split; cbn; auto].
  - destruct (ws_body_cb p [c]) as [q e] eqn:Eb.
    assert (He : length_sane e) by (unfold ws_body_cb in Eb; destruct (has_flag _ _); inv Eb; exact I).
    destruct (wreq p - 1 =? 0); split; cbn; auto.
Qed.

Lemma run_sane l : forall pre p, len_inv pre p -> Forall is_byte (pre ++ l) ->
  (forall i, be_decode (slice (pre ++ l) i 8) < 2 ^ 63) -> Forall length_sane (snd (bytes_run p l)).
Proof.
  induction l as [|c l IH]; intros pre p Hi Hb Hw; [constructor|]. cbn [bytes_run].
  assert (E : pre ++ c :: l = (pre ++ [c]) ++ l) by (rewrite <- app_assoc; reflexivity).
  rewrite E in *.
  pose proof (byte_sane pre p c Hi) as Hs. destruct (ws_byte p c) as [q es].
  destruct Hs as [S1 S2].
  - now apply Forall_app in Hb.
  - intro i. destruct (le_lt_dec (i + 8) (length (pre ++ [c]))) as [Hle|Hlt].
    + specialize (Hw i). now rewrite slice_app_l in Hw by lia.
    + assert (Hb' : Forall is_byte (pre ++ [c])) by now apply Forall_app in Hb.
      unfold slice. set (v := firstn 8 (skipn i (pre ++ [c]))).
      assert (Hv : Forall is_byte v).
      { unfold v. apply Forall_forall. intros z Hz. rewrite Forall_forall in Hb'. apply Hb'.
        rewrite <- (firstn_skipn i (pre ++ [c])). apply in_or_app. right.
        rewrite <- (firstn_skipn 8 (skipn i (pre ++ [c]))). apply in_or_app. left. exact Hz. }
      assert (Lv : (length v <= 7)%nat) by (unfold v; rewrite firstn_length, skipn_length; lia).
      unfold be_decode. apply Forall_rev in Hv. apply le_decode_range in Hv. rewrite rev_length in Hv.
      assert (256 ^ Z.of_nat (length v) <= 256 ^ 7) by (apply Z.pow_le_mono_r; lia).
      change (256 ^ 7) with 72057594037927936 in H. lia.
  - specialize (IH (pre ++ [c]) q S2 Hb Hw). destruct (bytes_run q l) as [r es']. cbn [snd] in *. apply Forall_app; auto.
Qed.

Lemma no_overread_windows cs : Forall addr_ok cs -> Forall is_byte (concat (map snd cs)) ->
  (forall i, be_decode (slice (concat (map snd cs)) i 8) < 2 ^ 63) ->
  exists q es, ws_feed ws_init cs = Ok (q, es).
Proof.
  intros A B W. apply no_overread; auto. apply (run_sane _ []); cbn; auto.
Qed.
