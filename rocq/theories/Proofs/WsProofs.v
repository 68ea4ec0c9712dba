From Verif.Model Require Import Common Bytes Websocket.
From Verif.Spec Require Import WsSpec.
From Verif.Proofs Require Import Tac BytesProofs.
Open Scope Z_scope.

(** * Masking *)
Lemma xor_mod mask d : forall off, ws_xor mask (off mod 4) d = ws_xor mask off d.
Proof.
  induction d as [|b d IH]; intro off; cbn [ws_xor]; auto.
  rewrite Z.mod_mod by lia. f_equal. rewrite <- (IH (off mod 4 + 1)), <- (IH (off + 1)).
  f_equal. rewrite Z.add_mod_idemp_l by lia. reflexivity.
Qed.

Lemma xor_length mask d : forall off, length (ws_xor mask off d) = length d.
Proof. induction d; intros; cbn; auto. Qed.

Lemma xor_app mask d1 : forall d2 off,
  ws_xor mask off (d1 ++ d2) = ws_xor mask off d1 ++ ws_xor mask (off + Z.of_nat (length d1)) d2.
Proof.
  induction d1 as [|b d1 IH]; intros d2 off; cbn [ws_xor app length].
  - f_equal. lia.
  - rewrite IH. do 3 f_equal. lia.
Qed.

Lemma xor_xor mask d : forall off, ws_xor mask off (ws_xor mask off d) = d.
Proof.
  induction d as [|b d IH]; intro off; cbn [ws_xor]; auto.
  rewrite IH, Z.lxor_assoc, Z.lxor_nilpotent, Z.lxor_0_r. reflexivity.
Qed.

Lemma lxor_byte a b : is_byte a -> is_byte b -> is_byte (Z.lxor a b).
Proof.
  unfold is_byte. intros Ha Hb.
  assert (0 <= Z.lxor a b) by (apply Z.lxor_nonneg; lia).
  split; auto. destruct (Z.eq_dec (Z.lxor a b) 0) as [E|E]; [lia|].
  change 256 with (2 ^ 8). apply Z.log2_lt_pow2; [lia|].
  eapply Z.le_lt_trans; [apply Z.log2_lxor; lia|].
  apply Z.max_lub_lt.
  - destruct (Z.eq_dec a 0) as [->|]; [cbn; lia|]. apply Z.log2_lt_pow2; lia.
  - destruct (Z.eq_dec b 0) as [->|]; [cbn; lia|]. apply Z.log2_lt_pow2; lia.
Qed.

Lemma xor_bytes mask d : forall off, Forall is_byte mask -> Forall is_byte d -> Forall is_byte (ws_xor mask off d).
Proof.
  induction d as [|b d IH]; intros off Hm Hd; cbn [ws_xor]; constructor; inv Hd; auto.
  apply lxor_byte; auto. destruct (nth_in_or_default (Z.to_nat (off mod 4)) mask 0) as [Hi|Hi].
  - eapply Forall_forall in Hm; eauto.
  - rewrite Hi. unfold is_byte. lia.
Qed.

Lemma decode_pieces mask ds : forall off,
  fold_left (fun '(out, o) d => let '(d', o') := ws_decode mask o d in (out ++ d', o')) ds ([], off) =
  (ws_xor mask off (concat ds), match ds with [] => off | _ => (Z.of_nat (length (concat ds)) + off) mod 4 end).
Proof.
  assert (G : forall out off, 
    fold_left (fun '(out, o) d => let '(d', o') := ws_decode mask o d in (out ++ d', o')) ds (out, off) =
    (out ++ ws_xor mask off (concat ds), match ds with [] => off | _ => (Z.of_nat (length (concat ds)) + off) mod 4 end)).
  { induction ds as [|d ds IH]; intros out off; cbn [fold_left concat].
    - cbn. now rewrite app_nil_r.
    - unfold ws_decode at 2. rewrite IH. rewrite xor_app, <- app_assoc. f_equal.
      + do 2 f_equal. rewrite xor_mod. f_equal. lia.
      + rewrite app_length, Nat2Z.inj_add. destruct ds; [cbn; now rewrite Z.add_0_r|].
        rewrite Z.add_mod_idemp_r by lia. f_equal. lia. }
  intro off. apply G.
Qed.

(** * Events up to the division of payload into pieces *)
Definition ev_fold {A} (h : A -> Z -> Z -> A) (b : A -> list Z -> A) (e : A -> Z -> A) (es : list ws_ev) (a : A) : A :=
  fold_left (fun a x => match x with EHeader f n => h a f n | EBody d => b a d | EEnd f => e a f end) es a.

Definition eqv (es es' : list ws_ev) : Prop :=
  forall (A : Type) h (b : A -> list Z -> A) e, (forall a x y, b (b a x) y = b a (x ++ y)) ->
    forall a, ev_fold h b e es a = ev_fold h b e es' a.

Lemma eqv_refl es : eqv es es. Proof. red; auto. Qed.
Lemma eqv_sym es es' : eqv es es' -> eqv es' es. Proof. unfold eqv; intros; symmetry; auto. Qed.
Lemma eqv_trans a b c : eqv a b -> eqv b c -> eqv a c.
Proof. unfold eqv; intros. rewrite H by auto. auto. Qed.
Lemma eqv_app a a' b b' : eqv a a' -> eqv b b' -> eqv (a ++ b) (a' ++ b').
Proof. unfold eqv, ev_fold; intros. rewrite !fold_left_app. rewrite H by auto. auto. Qed.

(** * Byte-at-a-time semantics *)
Definition ws_byte (p : wsp) (c : Z) : wsp * list ws_ev :=
  match wst p with
  | s_start =>
      let f := Z.land c WS_OP_MASK in
      let f := if negb (Z.land c 128 =? 0) then Z.lor f WS_FIN else f in
      (mkwsp s_head f (wmask p) 0 0 (wreq p), [])
  | s_head =>
      let len := Z.land c 127 in
      let f := if negb (Z.land c 128 =? 0) then Z.lor (wflags p) WS_HAS_MASK else wflags p in
      if 126 <=? len then
        (mkwsp s_length f (wmask p) (wmoff p) 0 (if len =? 127 then 8 else 2), [])
      else ws_after_length (mkwsp s_head f (wmask p) (wmoff p) len (wreq p))
  | s_length =>
      let q := mkwsp s_length (wflags p) (wmask p) (wmoff p) ((wlen p * 256 + c) mod 2 ^ 64) (wreq p - 1) in
      if wreq q =? 0 then ws_after_length q else (q, [])
  | s_mask =>
      let q := mkwsp s_mask (wflags p) (set_nth (wmask p) (Z.to_nat (4 - wreq p)) c) (wmoff p) (wlen p) (wreq p - 1) in
      if wreq q =? 0 then ws_enter_body q else (q, [])
  | s_body =>
      let '(q, e) := ws_body_cb p [c] in
      if wreq p - 1 =? 0
      then (mkwsp s_start (wflags q) (wmask q) (wmoff q) (wlen q) 0, [e; EEnd (wflags q)])
      else (mkwsp s_body (wflags q) (wmask q) (wmoff q) (wlen q) (wreq p - 1), [e])
  end.

Fixpoint bytes_run (p : wsp) (l : list Z) : wsp * list ws_ev :=
  match l with
  | [] => (p, [])
  | c :: l => let '(q, es) := ws_byte p c in let '(r, es') := bytes_run q l in (r, es ++ es')
  end.

Lemma bytes_run_app l1 : forall p l2,
  bytes_run p (l1 ++ l2) =
  let '(q, es) := bytes_run p l1 in let '(r, es') := bytes_run q l2 in (r, es ++ es').
Proof.
  induction l1 as [|c l1 IH]; intros p l2; cbn [app bytes_run].
  - destruct (bytes_run p l2). reflexivity.
  - destruct (ws_byte p c) as [q es]. rewrite IH. destruct (bytes_run q l1) as [q1 es1].
    destruct (bytes_run q1 l2). now rewrite app_assoc.
Qed.

Definition winv (p : wsp) : Prop :=
  0 <= wlen p /\ match wst p with
  | s_length | s_mask | s_body => 1 <= wreq p
  | _ => True
  end.
Definition wbound (p : wsp) : Prop := match wst p with s_body => wreq p < 2 ^ 63 | _ => True end.

Lemma enter_body_inv p : let '(q, es) := ws_enter_body p in
  0 <= wlen p -> winv q /\ (Forall length_sane es -> wbound q).
Proof.
  unfold ws_enter_body, winv. destruct (wlen p =? 0) eqn:E; b2p; intro H; split; cbn; auto; [lia|].
  intro F. inv F. exact H2.
Qed.

Lemma after_length_inv p : let '(q, es) := ws_after_length p in
  0 <= wlen p -> winv q /\ (Forall length_sane es -> wbound q).
Proof.
  unfold ws_after_length. destruct (has_flag _ _).
  - unfold winv. intro H; split; cbn; auto. lia.
  - apply enter_body_inv.
Qed.

(** length loop *)
Lemma length_loop_bytes l : forall p q k, wst p = s_length -> 1 <= wreq p -> l <> [] ->
  ws_length_loop p l = (q, k) ->
  (1 <= k <= length l)%nat /\ wst q = s_length /\ 0 <= wreq q /\ 0 <= wlen q /\
  bytes_run p (firstn k l) = (if wreq q =? 0 then ws_after_length q else (q, [])) .
Proof.
  induction l as [|c l IH]; intros p q k Hs Hr Hn H; [congruence|]. clear Hn.
  cbn [ws_length_loop] in H. destruct (wreq p =? 0) eqn:E; b2p; [lia|].
  set (p' := mkwsp _ _ _ _ _ _) in H.
  destruct (ws_length_loop p' l) as [q' k'] eqn:El. inv H.
  assert (Hl : 0 <= wlen p') by (cbn; apply Z.mod_pos_bound; lia).
  cbn [firstn bytes_run]. unfold ws_byte. rewrite Hs.
  replace (mkwsp s_length _ _ _ _ _) with p' by (unfold p'; rewrite Hs; reflexivity).
  destruct (wreq p' =? 0) eqn:E'; b2p.
  - assert (q = p' /\ k' = 0%nat) as [-> ->].
    { destruct l; cbn [ws_length_loop] in El; [inv El; auto|].
      rewrite (proj2 (Z.eqb_eq _ _) E') in El. inv El; auto. }
    cbn [firstn bytes_run]. rewrite E'. cbn [Z.eqb]. destruct (ws_after_length p') as [r es].
    rewrite app_nil_r. repeat split; auto; cbn; lia.
  - cbn in E'. destruct l as [|c' l].
    + cbn in El. inv El. cbn [firstn bytes_run]. destruct (wreq p' =? 0) eqn:E2; b2p; [cbn in E2; lia|].
      repeat split; auto; cbn in *; lia.
    + destruct (IH p' q k') as (K & S & R & L & B); auto; try (cbn; lia); try discriminate.
      rewrite B. repeat split; auto; try (cbn [length] in *; lia).
      destruct (wreq q =? 0); [destruct (ws_after_length q)|]; reflexivity.
Qed.

Lemma mask_loop_bytes l : forall p q k, wst p = s_mask -> 1 <= wreq p -> l <> [] -> 
  ws_mask_loop p l = (q, k) ->
  (1 <= k <= length l)%nat /\ wst q = s_mask /\ 0 <= wreq q /\ wlen q = wlen p /\
  bytes_run p (firstn k l) = (if wreq q =? 0 then ws_enter_body q else (q, [])) .
Proof.
  induction l as [|c l IH]; intros p q k Hs Hr Hn H; [congruence|]. clear Hn.
  cbn [ws_mask_loop] in H. destruct (wreq p =? 0) eqn:E; b2p; [lia|].
  set (p' := mkwsp _ _ _ _ _ _) in H.
  destruct (ws_mask_loop p' l) as [q' k'] eqn:El. inv H.
  cbn [firstn bytes_run]. unfold ws_byte. rewrite Hs.
  replace (mkwsp s_mask _ _ _ _ _) with p' by (unfold p'; rewrite Hs; reflexivity).
  destruct (wreq p' =? 0) eqn:E'; b2p.
  - assert (q = p' /\ k' = 0%nat) as [-> ->].
    { destruct l; cbn [ws_mask_loop] in El; [inv El; auto|].
      rewrite (proj2 (Z.eqb_eq _ _) E') in El. inv El; auto. }
    cbn [firstn bytes_run]. rewrite E'. cbn [Z.eqb]. destruct (ws_enter_body p') as [r es].
    rewrite app_nil_r. repeat split; auto; cbn; lia.
  - cbn in E'. destruct l as [|c' l].
    + cbn in El. inv El. cbn [firstn bytes_run]. destruct (wreq p' =? 0) eqn:E2; b2p; [cbn in E2; lia|].
      repeat split; auto; cbn in *; lia.
    + destruct (IH p' q k') as (K & S & R & L & B); auto; try (cbn; lia); try discriminate.
      rewrite B. repeat split; auto; try (cbn [length] in *; lia).
      destruct (wreq q =? 0); [destruct (ws_enter_body q)|]; reflexivity.
Qed.

(** body bytes *)
Definition body_after (p : wsp) (d : list Z) : wsp :=
  let q := fst (ws_body_cb p d) in mkwsp s_body (wflags q) (wmask q) (wmoff q) (wlen q) (wreq p - Z.of_nat (length d)).

Lemma body_run d : forall p, wst p = s_body -> d <> [] -> Z.of_nat (length d) <= wreq p ->
  exists es', bytes_run p d =
    (let r := body_after p d in
     if wreq r =? 0 then (mkwsp s_start (wflags r) (wmask r) (wmoff r) (wlen r) 0, es' ++ [EEnd (wflags r)]) else (r, es')) /\
    eqv [snd (ws_body_cb p d)] es' /\ Forall length_sane es'.
Proof.
  induction d as [|c d IH]; intros p Hs Hn Hl; [congruence|]. clear Hn.
  cbn [bytes_run]. unfold ws_byte. rewrite Hs.
  destruct d as [|c' d].
  - exists [snd (ws_body_cb p [c])].
    unfold body_after. cbn [length]. change (Z.of_nat 1) with 1.
    destruct (ws_body_cb p [c]) as [q e] eqn:E. cbn [fst snd wreq]. cbn [bytes_run].
    split; [|split].
    + destruct (wreq p - 1 =? 0); cbn; auto.
    + apply eqv_refl.
    + constructor; auto. unfold ws_body_cb in E. destruct (has_flag _ _); inv E; exact I.
  - cbn [length] in Hl.
    destruct (ws_body_cb p [c]) as [q e] eqn:E.
    destruct (wreq p - 1 =? 0) eqn:E1; b2p; [lia|].
    set (p1 := mkwsp s_body (wflags q) (wmask q) (wmoff q) (wlen q) (wreq p - 1)).
    assert (Hne : c' :: d <> []) by discriminate.
    assert (Hle : Z.of_nat (length (c' :: d)) <= wreq p1).
    { cbn [length p1 wreq]. lia. }
    assert (Hs1 : wst p1 = s_body) by reflexivity.
    destruct (IH p1 Hs1 Hne Hle) as (es' & B & Q & F).
    rewrite B. exists (e :: es').
    assert (EA : body_after p1 (c' :: d) = body_after p (c :: c' :: d)).
    { unfold body_after. unfold ws_body_cb, ws_decode in E |- *. destruct p as [st fl mk mo ln rq]. cbn [wflags wmask wmoff wlen wreq wst] in E, Hs. subst st.
      unfold p1. cbn [wflags wmask wmoff wlen wreq wst].
      destruct (has_flag fl WS_HAS_MASK) eqn:Ef; apply pair_equal_spec in E; destruct E as [<- <-]; cbn [wflags wmask wmoff wlen wreq wst];
        rewrite Ef; cbn [fst wflags wmask wmoff wlen wreq wst length].
      - f_equal; [|lia]. rewrite Z.add_mod_idemp_r by lia. f_equal. lia.
      - f_equal. lia. }
    rewrite EA. split; [|split].
    + cbn zeta. destruct (wreq (body_after p (c :: c' :: d)) =? 0); reflexivity.
    + apply eqv_trans with (e :: [snd (ws_body_cb p1 (c' :: d))]).
      * unfold eqv, ev_fold. intros A h b en Hb a. cbn [fold_left].
        unfold p1. unfold ws_body_cb, ws_decode in E |- *. destruct p as [st fl mk mo ln rq].
        cbn [wflags wmask wmoff wlen wreq wst] in *.
        destruct (has_flag fl WS_HAS_MASK) eqn:Ef; apply pair_equal_spec in E; destruct E as [<- <-]; cbn [wflags wmask wmoff wlen wreq wst];
          rewrite Ef; cbn [snd]; rewrite Hb; f_equal.
        change (c :: c' :: d) with ([c] ++ (c' :: d)). rewrite xor_app, xor_mod. do 2 f_equal. cbn [length]. lia.
      * apply (eqv_app [e] [e]); auto. apply eqv_refl.
    + constructor; auto. unfold ws_body_cb in E. destruct (has_flag _ _); inv E; exact I.
Qed.

Lemma iter_bytes p addr (l : list Z) : winv p -> wbound p -> l <> [] ->
  0 <= addr -> addr + Z.of_nat (length l) < 2 ^ 63 ->
  exists q es k, ws_iter p addr l = Ok (q, es, k) /\ (1 <= k <= length l)%nat /\ winv q /\
    (Forall length_sane es -> wbound q) /\
    exists es', bytes_run p (firstn k l) = (q, es') /\ eqv es es' /\ (Forall length_sane es <-> Forall length_sane es').
Proof.
  intros Hi Hb Hn Ha Ha2. destruct l as [|c l]; [congruence|].
  unfold ws_iter, winv, wbound in *. destruct Hi as [Hlen Hi]. destruct (wst p) eqn:Hs.
  - eexists _, [], 1%nat. split; [reflexivity|]. split; [cbn; lia|]. split; [cbn; lia|]. split; [cbn; auto|].
    exists []. split; [|split; [apply eqv_refl|tauto]]. cbn [firstn bytes_run]. unfold ws_byte. rewrite Hs. reflexivity.
  - cbn [hd]. set (f := if negb (Z.land c 128 =? 0) then Z.lor (wflags p) WS_HAS_MASK else wflags p).
    destruct (126 <=? Z.land c 127) eqn:E1.
    + eexists _, [], 1%nat. split; [reflexivity|]. split; [cbn; lia|].
      split; [cbn; destruct (Z.land c 127 =? 127); lia|]. split; [cbn; auto|].
      exists []. split; [|split; [apply eqv_refl|tauto]]. cbn [firstn bytes_run]. unfold ws_byte. rewrite Hs, E1. reflexivity.
    + pose proof (after_length_inv (mkwsp s_head f (wmask p) (wmoff p) (Z.land c 127) (wreq p))) as Hinv.
      destruct (ws_after_length _) as [q es] eqn:E2.
      assert (H0 : 0 <= Z.land c 127) by (apply Z.land_nonneg; lia).
      destruct (Hinv H0) as [Hq Hbq].
      exists q, es, 1%nat. split; [reflexivity|]. split; [cbn; lia|]. split; [exact Hq|]. split; [exact Hbq|].
      exists es. split; [|split; [apply eqv_refl|tauto]].
      cbn [firstn bytes_run]. unfold ws_byte. rewrite Hs, E1. fold f. rewrite E2, app_nil_r. reflexivity.
  - destruct (ws_length_loop p (c :: l)) as [q k] eqn:El.
    destruct (length_loop_bytes (c :: l) p q k Hs Hi Hn El) as (K & Sq & R & L & B).
    destruct (wreq q =? 0) eqn:E; b2p.
    + pose proof (after_length_inv q) as Hinv. destruct (ws_after_length q) as [q' es]. destruct (Hinv L) as [Hq Hbq].
      exists q', es, k. split; [reflexivity|]. split; auto. split; [exact Hq|]. split; [exact Hbq|].
      exists es. split; [exact B|split; [apply eqv_refl|tauto]].
    + exists q, [], k. split; [reflexivity|]. split; auto. rewrite Sq.
      split; [lia|]. split; [auto|]. exists []. split; [exact B|split; [apply eqv_refl|tauto]].
  - destruct (ws_mask_loop p (c :: l)) as [q k] eqn:El.
    destruct (mask_loop_bytes (c :: l) p q k Hs Hi Hn El) as (K & Sq & R & L & B).
    destruct (wreq q =? 0) eqn:E; b2p.
    + pose proof (enter_body_inv q) as Hinv. destruct (ws_enter_body q) as [q' es].
      rewrite L in Hinv. destruct (Hinv Hlen) as [Hq Hbq].
      exists q', es, k. split; [reflexivity|]. split; auto. split; [exact Hq|]. split; [exact Hbq|].
      exists es. split; [exact B|split; [apply eqv_refl|tauto]].
    + exists q, [], k. split; [reflexivity|]. split; auto. rewrite Sq.
      split; [lia|]. split; [auto|]. exists []. split; [exact B|split; [apply eqv_refl|tauto]].
  - destruct (wreq p =? 0) eqn:E0; b2p; [lia|].
    rewrite Z.mod_small by lia.
    destruct (addr + wreq p <=? addr + Z.of_nat (length (c :: l))) eqn:E1; b2p.
    + destruct (Z.of_nat (length (c :: l)) <? wreq p) eqn:E2; b2p; [lia|].
      set (d := firstn (Z.to_nat (wreq p)) (c :: l)).
      assert (Ld : length d = Z.to_nat (wreq p)) by (unfold d; rewrite firstn_length; lia).
      assert (Hd : d <> []) by (intro C; rewrite C in Ld; cbn in Ld; lia).
      destruct (body_run d p Hs Hd ltac:(lia)) as (es' & B & Q & F).
      cbn zeta in B. destruct (ws_body_cb p d) as [q e] eqn:Eb.
      replace (wreq (body_after p d)) with 0 in B by (unfold body_after; cbn; lia). cbn [Z.eqb] in B.
      assert (Hq : body_after p d = mkwsp s_body (wflags q) (wmask q) (wmoff q) (wlen q) 0).
      { unfold body_after. rewrite Eb. cbn [fst]. f_equal. lia. }
      rewrite Hq in B. cbn [wflags wmask wmoff wlen wreq wst] in B.
      assert (Hlq : wlen q = wlen p) by (unfold ws_body_cb in Eb; destruct (has_flag _ _); inv Eb; reflexivity).
      eexists _, _, _. split; [reflexivity|]. split; [lia|]. split; [cbn; lia|]. split; [cbn; auto|].
      exists (es' ++ [EEnd (wflags q)]). fold d. split; [exact B|].
      assert (He : length_sane e) by (unfold ws_body_cb in Eb; destruct (has_flag _ _); inv Eb; exact I).
      split.
      * apply (eqv_app [e] es' [EEnd (wflags q)] [EEnd (wflags q)]); [exact Q|apply eqv_refl].
      * rewrite Forall_app. split; intros; repeat constructor; auto.
    + set (d := c :: l) in *.
      destruct (body_run d p Hs Hn ltac:(lia)) as (es' & B & Q & F).
      cbn zeta in B. destruct (ws_body_cb p d) as [q e] eqn:Eb.
      assert (Hq : body_after p d = mkwsp s_body (wflags q) (wmask q) (wmoff q) (wlen q) (wreq p - Z.of_nat (length d))).
      { unfold body_after. rewrite Eb. cbn [fst]. f_equal. }
      rewrite Hq in B. cbn [wflags wmask wmoff wlen wreq wst] in B.
      destruct (wreq p - Z.of_nat (length d) =? 0) eqn:E3; b2p; [lia|].
      assert (Hlq : wlen q = wlen p) by (unfold ws_body_cb in Eb; destruct (has_flag _ _); inv Eb; reflexivity).
      eexists _, _, _. split; [reflexivity|]. split; [unfold d; cbn; lia|]. split; [cbn [wlen wreq wst]; lia|]. split; [cbn [wlen wreq wst]; lia|].
      exists es'. rewrite firstn_all. split; [exact B|]. split; [exact Q|].
      assert (He : length_sane e) by (unfold ws_body_cb in Eb; destruct (has_flag _ _); inv Eb; exact I).
      split; intros; repeat constructor; auto.
Qed.

Definition same_run (p : wsp) (l : list Z) (q : wsp) (es : list ws_ev) : Prop :=
  exists es', bytes_run p l = (q, es') /\ eqv es es' /\ (Forall length_sane es <-> Forall length_sane es').

Lemma exec_fwd fuel : forall p addr l, winv p -> wbound p -> 0 <= addr ->
  addr + Z.of_nat (length l) < 2 ^ 63 -> (length l <= fuel)%nat ->
  Forall length_sane (snd (bytes_run p l)) ->
  exists q es, ws_exec fuel p addr l = Ok (q, es) /\ winv q /\ wbound q /\ same_run p l q es.
Proof.
  induction fuel as [|fuel IH]; intros p addr l Hi Hb Ha Ha2 Hf Hs; destruct l as [|c l]; try (cbn in Hf; lia).
  - exists p, []. split; auto. split; auto. split; auto. exists []. split; [reflexivity|]. split; [apply eqv_refl|tauto].
  - exists p, []. split; auto. split; auto. split; auto. exists []. split; [reflexivity|]. split; [apply eqv_refl|tauto].
  - cbn [ws_exec]. set (l' := c :: l) in *.
    destruct (iter_bytes p addr l' Hi Hb ltac:(discriminate) Ha Ha2) as (q & es & k & E & K & Iq & Bq & es' & R & V & S).
    rewrite E. cbn [obind].
    rewrite <- (firstn_skipn k l') in Hs. rewrite bytes_run_app, R in Hs.
    destruct (bytes_run q (skipn k l')) as [r er] eqn:R2. cbn [snd] in Hs. apply Forall_app in Hs as [Hs1 Hs2].
    destruct (IH q (addr + Z.of_nat k) (skipn k l')) as (q2 & es2 & E2 & I2 & B2 & es2' & R2' & V2 & S2); auto; try lia.
    + apply Bq. tauto.
    + rewrite skipn_length. lia.
    + rewrite skipn_length. lia.
    + rewrite R2. exact Hs2.
    + rewrite E2. cbn [obind]. eexists _, _. split; [reflexivity|]. split; auto. split; auto.
      exists (es' ++ es2'). split.
      * rewrite <- (firstn_skipn k l'), bytes_run_app, R, R2'. reflexivity.
      * split; [now apply eqv_app|]. rewrite !Forall_app. tauto.
Qed.

Lemma exec_bwd fuel : forall p addr l q es, winv p -> wbound p -> 0 <= addr ->
  addr + Z.of_nat (length l) < 2 ^ 63 -> (length l <= fuel)%nat ->
  ws_exec fuel p addr l = Ok (q, es) -> Forall length_sane es ->
  winv q /\ wbound q /\ same_run p l q es.
Proof.
  induction fuel as [|fuel IH]; intros p addr l q es Hi Hb Ha Ha2 Hf H Hs; destruct l as [|c l]; try (cbn in Hf; lia).
  - inv H. split; auto. split; auto. exists []. split; [reflexivity|]. split; [apply eqv_refl|tauto].
  - inv H. split; auto. split; auto. exists []. split; [reflexivity|]. split; [apply eqv_refl|tauto].
  - cbn [ws_exec] in H. set (l' := c :: l) in *.
    destruct (iter_bytes p addr l' Hi Hb ltac:(discriminate) Ha Ha2) as (q1 & es1 & k & E & K & Iq & Bq & es' & R & V & S).
    rewrite E in H. cbn [obind] in H.
    destruct (ws_exec fuel q1 (addr + Z.of_nat k) (skipn k l')) as [[r er]| |] eqn:E2; try discriminate.
    cbn [obind] in H. inv H. apply Forall_app in Hs as [Hs1 Hs2].
    destruct (IH q1 (addr + Z.of_nat k) (skipn k l') q er) as (I2 & B2 & es2' & R2' & V2 & S2); auto; try lia.
    + rewrite skipn_length. lia.
    + rewrite skipn_length. lia.
    + split; auto. split; auto. exists (es' ++ es2'). split.
      * rewrite <- (firstn_skipn k l'), bytes_run_app, R, R2'. reflexivity.
      * split; [now apply eqv_app|]. rewrite !Forall_app. tauto.
Qed.

Definition stream (cs : list (Z * list Z)) : list Z := concat (map snd cs).

Lemma feed_fwd cs : forall p, winv p -> wbound p -> Forall addr_ok cs ->
  Forall length_sane (snd (bytes_run p (stream cs))) ->
  exists q es, ws_feed p cs = Ok (q, es) /\ winv q /\ wbound q /\ same_run p (stream cs) q es.
Proof.
  induction cs as [|[a l] cs IH]; intros p Hi Hb Ha Hs; cbn [ws_feed].
  - exists p, []. split; auto. split; auto. split; auto. exists []. split; [reflexivity|]. split; [apply eqv_refl|tauto].
  - inv Ha. destruct H1 as [A1 A2]. cbn [fst snd] in *. unfold stream in Hs; cbn [map concat snd] in Hs.
    rewrite bytes_run_app in Hs.
    destruct (bytes_run p l) as [q1 e1] eqn:R1. destruct (bytes_run q1 _) as [q2 e2] eqn:R2 in Hs.
    cbn [snd] in Hs. apply Forall_app in Hs as [Hs1 Hs2].
    destruct (exec_fwd (length l) p a l Hi Hb A1 A2 (le_n _)) as (q & es & E & Iq & Bq & es' & R & V & S).
    { rewrite R1. exact Hs1. }
    rewrite R1 in R. inv R. unfold ws_execute. rewrite E. cbn [obind].
    destruct (IH q Iq Bq H2) as (q3 & es3 & E3 & I3 & B3 & es3' & R3 & V3 & S3).
    { unfold stream. rewrite R2. exact Hs2. }
    rewrite E3. cbn [obind]. eexists _, _. split; [reflexivity|]. split; auto. split; auto.
    exists (es' ++ es3'). unfold stream in *; cbn [map concat snd]. rewrite bytes_run_app, R1, R3.
    split; auto. split; [now apply eqv_app|]. rewrite !Forall_app. tauto.
Qed.

Lemma feed_bwd cs : forall p q es, winv p -> wbound p -> Forall addr_ok cs ->
  ws_feed p cs = Ok (q, es) -> Forall length_sane es ->
  winv q /\ wbound q /\ same_run p (stream cs) q es.
Proof.
  induction cs as [|[a l] cs IH]; intros p q es Hi Hb Ha H Hs; cbn [ws_feed] in H.
  - inv H. split; auto. split; auto. exists []. split; [reflexivity|]. split; [apply eqv_refl|tauto].
  - inv Ha. destruct H2 as [A1 A2]. cbn [fst snd] in *. unfold ws_execute in H.
    destruct (ws_exec (length l) p a l) as [[q1 e1]| |] eqn:E1; try discriminate. cbn [obind] in H.
    destruct (ws_feed q1 cs) as [[q2 e2]| |] eqn:E2; try discriminate. cbn [obind] in H. inv H.
    apply Forall_app in Hs as [Hs1 Hs2].
    destruct (exec_bwd (length l) p a l q1 e1 Hi Hb A1 A2 (le_n _) E1 Hs1) as (I1 & B1 & es1' & R1 & V1 & S1).
    destruct (IH q1 q e2 I1 B1 H3 E2 Hs2) as (I2 & B2 & es2' & R2 & V2 & S2).
    split; auto. split; auto. exists (es1' ++ es2'). unfold stream in *; cbn [map concat snd].
    rewrite bytes_run_app, R1, R2. split; auto. split; [now apply eqv_app|]. rewrite !Forall_app. tauto.
Qed.

Lemma init_inv : winv ws_init /\ wbound ws_init. Proof. unfold winv, wbound. cbn. lia. Qed.

(** * Chunk independence *)
Lemma feed_independent cs1 cs2 q es : Forall addr_ok cs1 -> Forall addr_ok cs2 ->
  stream cs1 = stream cs2 -> ws_feed ws_init cs1 = Ok (q, es) -> Forall length_sane es ->
  exists es2, ws_feed ws_init cs2 = Ok (q, es2) /\ eqv es es2.
Proof.
  intros A1 A2 E H Hs. destruct init_inv as [Ii Ib].
  destruct (feed_bwd cs1 ws_init q es Ii Ib A1 H Hs) as (I1 & B1 & es1' & R1 & V1 & S1).
  destruct (feed_fwd cs2 ws_init Ii Ib A2) as (q2 & es2 & E2 & I2 & B2 & es2' & R2 & V2 & S2).
  { rewrite <- E, R1. cbn [snd]. tauto. }
  rewrite <- E, R1 in R2. inv R2. exists es2. split; auto.
  eapply eqv_trans; [exact V1|apply eqv_sym; exact V2].
Qed.

Lemma collect_hom a x y :
  collect_step (collect_step a (EBody x)) (EBody y) = collect_step a (EBody (x ++ y)).
Proof. destruct a as [fs [[[f n] b]|]]; cbn; [rewrite app_assoc|]; reflexivity. Qed.

Lemma eqv_collect es es' : eqv es es' -> collect es = collect es'.
Proof.
  intro H. unfold collect.
  specialize (H _ (fun a f n => collect_step a (EHeader f n)) (fun a d => collect_step a (EBody d)) (fun a f => collect_step a (EEnd f)) collect_hom ([], None)).
  unfold ev_fold in H.
  assert (G : forall l a, fold_left collect_step l a = fold_left (fun a x => match x with EHeader f n => collect_step a (EHeader f n) | EBody d => collect_step a (EBody d) | EEnd f => collect_step a (EEnd f) end) l a).
  { intro l; induction l as [|e l IH]; intro a; cbn [fold_left]; auto. rewrite IH. destruct e; reflexivity. }
  now rewrite !G.
Qed.

Lemma codec_hom a x y : codec_body (codec_body a x) y = codec_body a (x ++ y).
Proof. destruct a as [[[o d]|] w]; cbn; [rewrite app_assoc|]; reflexivity. Qed.

Lemma eqv_codec es es' c : eqv es es' -> fold_left codec_ev es c = fold_left codec_ev es' c.
Proof.
  intro H. exact (H _ (fun a f n => codec_header a f) codec_body codec_end codec_hom c).
Qed.

Lemma chunk_independent cs1 cs2 q es : Forall addr_ok cs1 -> Forall addr_ok cs2 ->
  concat (map snd cs1) = concat (map snd cs2) -> ws_feed ws_init cs1 = Ok (q, es) -> Forall length_sane es ->
  exists es2, ws_feed ws_init cs2 = Ok (q, es2) /\ collect es2 = collect es /\
    forall c, fold_left codec_ev es2 c = fold_left codec_ev es c.
Proof.
  intros A1 A2 E H Hs. destruct (feed_independent cs1 cs2 q es A1 A2 E H Hs) as (es2 & E2 & V).
  exists es2. split; auto. split; [symmetry; now apply eqv_collect|].
  intro c. symmetry. now apply eqv_codec.
Qed.

Lemma xor_nth mask d : forall off i, (i < length d)%nat ->
  nth i (ws_xor mask off d) 0 = Z.lxor (nth i d 0) (nth (Z.to_nat ((Z.of_nat i + off) mod 4)) mask 0).
Proof.
  induction d as [|b d IH]; intros off i H; cbn [length] in H; [lia|].
  destruct i as [|i]; cbn [ws_xor nth].
  - reflexivity.
  - rewrite IH by lia. do 3 f_equal. f_equal. lia.
Qed.
