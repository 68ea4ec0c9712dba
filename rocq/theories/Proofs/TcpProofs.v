(** Proofs about the TCP channel and the codec service's event handling. *)
From Verif.Model Require Import Common IOBuffer TcpChannel.
From Verif.Spec Require Import ByteQueue TcpSpec.
From Verif.Proofs Require Import Tac IOBufferProofs.

Definition cinv (c : chan) : Prop := binv (c_out c) /\ binv (c_in c).

Lemma cinv_new e : cinv (new_chan e).
Proof. split; apply binv_new. Qed.

Lemma can_read_nil b : binv b -> can_read b = 0 -> as_string b = [].
Proof. intros I H. apply length_zero_iff_nil. now rewrite as_string_length. Qed.

Lemma clip_bounds n len : 0 < len -> 1 <= clip n len <= len.
Proof. unfold clip. lia. Qed.

Lemma hw_loop_spec ks : forall c total c' total' good,
  cinv c -> hw_loop ks c total = (c', total', good) ->
  cinv c' /\ c_in c' = c_in c /\ c_wr c' = c_wr c /\
  c_wire c' ++ as_string (c_out c') = c_wire c ++ as_string (c_out c) /\
  length (c_wire c') + total = length (c_wire c) + total' /\
  (good = true -> as_string (c_out c') <> [] -> c_errno c' = EAgain) /\
  (exists p, c_wire c' = c_wire c ++ p).
Proof.
  induction ks as [|k ks IH]; intros c total c' total' good [IO II] H; cbn [hw_loop] in H.
  - destruct (can_read (c_out c) =? 0) eqn:E; inv H.
    + b2p. split; [split; auto|]. repeat (split; auto). { intros _ N. now rewrite can_read_nil in N. } exists []. now rewrite app_nil_r.
    + split; [split; auto|]. repeat (split; auto). exists []. now rewrite app_nil_r.
  - destruct (can_read (c_out c) =? 0) eqn:E.
    + inv H. b2p. split; [split; auto|]. repeat (split; auto). { intros _ N. now rewrite can_read_nil in N. } exists []. now rewrite app_nil_r.
    + b2p. destruct k as [n|[| |]].
      * pose proof (clip_bounds n (can_read (c_out c)) ltac:(lia)) as CB.
        set (k := clip n (can_read (c_out c))) in *.
        destruct (consume_spec (c_out c) k IO) as [I1 S1].
        apply IH in H; [|split; auto]. cbn [c_out c_in c_wr c_errno c_wire] in H.
        destruct H as (A & B & C & D & F & G & [p P]). split; [exact A|]. split; [exact B|]. split; [exact C|].
        split; [|split; [|split; [exact G|]]].
        -- rewrite D, S1, <- app_assoc, firstn_skipn. reflexivity.
        -- rewrite app_length, firstn_length, as_string_length in F by auto. lia.
        -- exists (firstn k (as_string (c_out c)) ++ p). now rewrite P, app_assoc.
      * inv H. split; [split; auto|]. repeat (split; auto). exists []. now rewrite app_nil_r.
      * apply IH in H; [|split; auto]. exact H.
      * inv H. split; [split; auto|]. repeat (split; auto); try discriminate. exists []. now rewrite app_nil_r.
Qed.

Lemma handle_write_spec ks c c' rv : cinv c -> handle_write ks c = (c', rv) ->
  cinv c' /\ c_in c' = c_in c /\
  c_wire c' ++ as_string (c_out c') = c_wire c ++ as_string (c_out c) /\
  (exists p, c_wire c' = c_wire c ++ p /\ ((0 <= rv)%Z -> rv = Z.of_nat (length p))) /\
  (-1 <= rv)%Z /\
  ((0 <= rv)%Z -> as_string (c_out c') <> [] -> c_wr c' = true /\ c_errno c' = EAgain).
Proof.
  intros [IO II] H. unfold handle_write in H. destruct (can_read (c_out c) =? 0) eqn:E.
  - inv H. b2p. split; [split; auto|]. split; auto. split; auto. split; [exists []; split; [now rewrite app_nil_r|reflexivity]|].
    split; [lia|]. intros _ N. now rewrite can_read_nil in N.
  - destruct (hw_loop ks c 0) as [[c1 total] [|]] eqn:HL; inv H;
    destruct (hw_loop_spec _ _ _ _ _ _ (conj IO II) HL) as ([IO1 II1] & B & C & D & F & G & [p P]); cbn [c_out c_in c_wr c_errno c_wire].
    + split; [split; auto|]. split; auto. split; auto. split; [|split; [lia|]].
      * exists p. split; auto. intros _. rewrite P, app_length in F. lia.
      * intros _ N. split; [|auto]. apply negb_true_iff. apply Nat.eqb_neq. intro Z0. apply N. apply can_read_nil; auto.
    + split; [split; auto|]. split; auto. split; auto. split; [|split; [lia|lia]].
      exists p. split; [auto|lia].
Qed.

Lemma send_loop_spec ks : forall c rest written, cinv c -> can_read (c_out c) = 0 ->
  exists c' rv, send_loop ks c rest written = Ok (c', rv) /\ cinv c' /\ c_in c' = c_in c /\ (-1 <= rv)%Z /\
  (exists p q, rest = p ++ q /\ c_wire c' = c_wire c ++ p /\
     ((0 <= rv)%Z -> rv = Z.of_nat (written + length p) /\ as_string (c_out c') = q /\
                     (q <> [] -> c_wr c' = true /\ c_errno c' = EAgain))).
Proof.
  assert (EMPTY : forall (c : chan) written, cinv c -> can_read (c_out c) = 0 ->
    exists c' rv, match c_errno c with
      | EAgain => obind (write_bytes (c_out c) []) (fun o =>
                  Ok (mkchan o (c_in c) true EAgain (c_wire c), Z.of_nat written))
      | EIntr => Ok (c, Z.of_nat written)
      | EOther => Ok (c, (-1)%Z)
      end = Ok (c', rv) /\ cinv c' /\ c_in c' = c_in c /\ (-1 <= rv)%Z /\
  (exists p q, [] = p ++ q /\ c_wire c' = c_wire c ++ p /\
     ((0 <= rv)%Z -> rv = Z.of_nat (written + length p) /\ as_string (c_out c') = q /\
                     (q <> [] -> c_wr c' = true /\ c_errno c' = EAgain)))).
  { intros c written [IO II] Z0. pose proof (can_read_nil _ IO Z0) as N. destruct (c_errno c) eqn:EE.
    - destruct (write_spec (c_out c) [] IO) as (o & E & I & S). rewrite E. cbn [obind].
      eexists _, _. split; [reflexivity|]. split; [split; auto|]. split; auto. split; [lia|].
      exists [], []. split; auto. split; [cbn; now rewrite app_nil_r|]. intros _. cbn. rewrite S, N. cbn.
      split; [lia|]. split; auto.
    - eexists _, _. split; [reflexivity|]. split; [split; auto|]. split; auto. split; [lia|].
      exists [], []. split; auto. split; [now rewrite app_nil_r|]. intros _. cbn. split; [lia|]. split; auto. tauto.
    - eexists _, _. split; [reflexivity|]. split; [split; auto|]. split; auto. split; [lia|].
      exists [], []. split; auto. split; [now rewrite app_nil_r|]. lia. }
  assert (AGAIN : forall (c : chan) rest written, cinv c -> can_read (c_out c) = 0 ->
    exists c' rv, obind (write_bytes (c_out c) rest) (fun o =>
          Ok (mkchan o (c_in c) true EAgain (c_wire c), Z.of_nat written)) = Ok (c', rv) /\ cinv c' /\ c_in c' = c_in c /\ (-1 <= rv)%Z /\
  (exists p q, rest = p ++ q /\ c_wire c' = c_wire c ++ p /\
     ((0 <= rv)%Z -> rv = Z.of_nat (written + length p) /\ as_string (c_out c') = q /\
                     (q <> [] -> c_wr c' = true /\ c_errno c' = EAgain)))).
  { intros c rest written [IO II] Z0. pose proof (can_read_nil _ IO Z0) as N.
    destruct (write_spec (c_out c) rest IO) as (o & E & I & S). rewrite E. cbn [obind].
    eexists _, _. split; [reflexivity|]. split; [split; auto|]. split; auto. split; [lia|].
    exists [], rest. split; auto. split; [cbn; now rewrite app_nil_r|]. intros _. cbn. rewrite S, N. cbn.
    split; [lia|]. split; auto. }
  induction ks as [|k ks IH]; intros c rest written CI Z0; cbn [send_loop]; (destruct rest as [|b rest]; [apply EMPTY; auto|]).
  - apply AGAIN; auto.
  - destruct k as [n|[| |]].
    + set (l := b :: rest) in *. pose proof (clip_bounds n (length l) ltac:(cbn; lia)) as CB.
      set (k := clip n (length l)) in *. destruct CI as [IO II].
      destruct (length l =? k) eqn:E; b2p.
      * eexists _, _. split; [reflexivity|]. split; [split; auto|]. split; auto. split; [lia|].
        exists l, []. split; [now rewrite app_nil_r|]. cbn [c_wire c_out c_wr c_errno]. rewrite firstn_all2 by lia. split; auto.
        intros _. split; [rewrite E; auto|]. split; [now apply can_read_nil|]. tauto.
      * edestruct (IH (mkchan (c_out c) (c_in c) (c_wr c) (c_errno c) (c_wire c ++ firstn k l)) (skipn k l) (written + k)) as (c' & rv & E1 & I1 & N1 & R1 & p & q & P1 & P2 & P3); [split; auto|auto|].
        exists c', rv. split; [exact E1|]. split; [auto|]. split; [auto|]. split; [auto|].
        exists (firstn k l ++ p), q. split; [rewrite <- app_assoc, <- P1; symmetry; apply firstn_skipn|].
        cbn in P2. split; [now rewrite P2, app_assoc|]. intro R. destruct (P3 R) as (Q1 & Q2 & Q3).
        rewrite app_length, firstn_length. split; [rewrite Q1, Nat.min_l by lia; lia|]. auto.
    + apply AGAIN; auto.
    + destruct (IH (mkchan (c_out c) (c_in c) (c_wr c) EIntr (c_wire c)) (b :: rest) written) as (c' & rv & E1 & R1); [exact CI|exact Z0|]. exists c', rv. split; [exact E1|exact R1].
    + eexists _, _. split; [reflexivity|]. destruct CI. split; [split; auto|]. split; auto. split; [lia|].
      exists [], (b :: rest). split; auto. split; [cbn; now rewrite app_nil_r|]. lia.
Qed.

Definition data_of (o : top) : list Z := match o with TSend d _ | TAppend d => d | TFlush _ => [] end.
Definition pushes (o : top) : bool := match o with TAppend _ => false | _ => true end.

Lemma tstep_spec c o : cinv c ->
  exists c' rv, tstep c o = Ok (c', rv) /\ cinv c' /\ (-1 <= rv)%Z /\
    ((0 <= rv)%Z -> c_wire c' ++ as_string (c_out c') = c_wire c ++ as_string (c_out c) ++ data_of o) /\
    (exists p rest, c_wire c' = c_wire c ++ p /\ p ++ rest = as_string (c_out c) ++ data_of o /\
       ((0 <= rv)%Z -> pushes o = true -> rv = Z.of_nat (length p))) /\
    (pushes o = true -> (0 <= rv)%Z -> as_string (c_out c') <> [] -> c_wr c' = true /\ c_errno c' = EAgain).
Proof.
  intros [IO II]. destruct o as [d ks|ks|d]; cbn [tstep data_of pushes].
  - unfold send. destruct (0 <? can_read (c_out c)) eqn:E; b2p.
    + destruct (write_spec (c_out c) d IO) as (o & E1 & I1 & S1). rewrite E1. cbn [obind].
      destruct (handle_write ks _) as [c' rv] eqn:HW. exists c', rv. split; [reflexivity|].
      apply handle_write_spec in HW; [|split; auto]. cbn [c_out c_in c_wr c_errno c_wire] in HW.
      destruct HW as (A & B & C & [p [P Q]] & R & F). rewrite S1 in C.
      split; [auto|]. split; [auto|]. split; [auto|]. split; [|auto].
      exists p, (as_string (c_out c')). split; [auto|]. split; [|auto].
      rewrite P, <- app_assoc in C. now apply app_inv_head in C.
    + assert (Z0 : can_read (c_out c) = 0) by lia.
      destruct (send_loop_spec ks c d 0 (conj IO II) Z0) as (c' & rv & E1 & I1 & N1 & R1 & p & q & P1 & P2 & P3).
      rewrite E1. exists c', rv. rewrite (can_read_nil _ IO Z0). cbn [app].
      split; [reflexivity|]. split; [auto|]. split; [auto|]. split; [|split].
      * intro R. destruct (P3 R) as (Q1 & Q2 & Q3). rewrite P2, Q2, P1. now rewrite app_assoc.
      * exists p, q. split; [auto|]. split; [auto|]. intros R _. destruct (P3 R) as (Q1 & _). exact Q1.
      * intros _ R N. destruct (P3 R) as (Q1 & Q2 & Q3). rewrite Q2 in N. auto.
  - destruct (handle_write ks c) as [c' rv] eqn:HW. exists c', rv. split; [reflexivity|].
    apply handle_write_spec in HW; [|split; auto].
    destruct HW as (A & B & C & [p [P Q]] & R & F). rewrite app_nil_r.
    split; [auto|]. split; [auto|]. split; [auto|]. split; [|auto].
    exists p, (as_string (c_out c')). split; [auto|]. split; [|auto].
    rewrite P, <- app_assoc in C. now apply app_inv_head in C.
  - destruct (write_spec (c_out c) d IO) as (o & E1 & I1 & S1). rewrite E1. cbn [obind].
    eexists _, _. split; [reflexivity|]. split; [split; auto|]. split; [lia|]. cbn [c_out c_wire].
    split; [intros _; now rewrite S1|]. split; [|discriminate].
    exists [], (as_string (c_out c) ++ d). split; [now rewrite app_nil_r|]. split; [auto|discriminate].
Qed.

Lemma trun_spec os : forall c, cinv c ->
  exists c' good, trun c os = Ok (c', good) /\ cinv c' /\
    (good = true -> c_wire c' ++ as_string (c_out c') = c_wire c ++ as_string (c_out c) ++ concat (map data_of os)) /\
    (exists p rest, c_wire c' = c_wire c ++ p /\ p ++ rest = as_string (c_out c) ++ concat (map data_of os)).
Proof.
  induction os as [|o os IH]; intros c CI.
  - exists c, true. split; [reflexivity|]. split; [auto|]. cbn. rewrite app_nil_r. split; [auto|].
    exists [], (as_string (c_out c)). split; [now rewrite app_nil_r|auto].
  - cbn [trun map concat]. destruct (tstep_spec c o CI) as (c1 & rv & E & I1 & R & C & (p & rest & P & Q & _) & _).
    rewrite E. cbn [obind]. destruct (rv <? 0)%Z eqn:N; b2p.
    + exists c1, false. split; [reflexivity|]. split; [auto|]. split; [discriminate|].
      exists p, (rest ++ concat (map data_of os)). split; [auto|]. now rewrite app_assoc, Q, <- app_assoc.
    + destruct (IH c1 I1) as (c2 & good & E2 & I2 & C2 & p2 & rest2 & P2 & Q2).
      specialize (C N). rewrite P, <- app_assoc in C. apply app_inv_head in C.
      exists c2, good. split; [auto|]. split; [auto|]. split.
      * intro G. rewrite (C2 G), P, <- app_assoc. f_equal. rewrite app_assoc, C, <- app_assoc. reflexivity.
      * exists (p ++ p2), rest2. split; [now rewrite P2, P, app_assoc|].
        rewrite <- app_assoc, Q2, app_assoc, C, <- app_assoc. reflexivity.
Qed.

Lemma trun_snoc os : forall c o c' , trun c (os ++ [o]) = Ok (c', true) ->
  exists c1 rv, trun c os = Ok (c1, true) /\ tstep c1 o = Ok (c', rv) /\ (0 <= rv)%Z.
Proof.
  induction os as [|x os IH]; intros c o c' H; cbn [trun app] in H.
  - destruct (tstep c o) as [[c1 rv]| |] eqn:E; cbn in H; try discriminate.
    destruct (rv <? 0)%Z eqn:N; inv H. b2p. exists c, rv. cbn. auto.
  - cbn [trun]. destruct (tstep c x) as [[c1 rv]| |] eqn:E; cbn [obind] in *; try discriminate.
    destruct (rv <? 0)%Z; [inv H|]. apply IH; auto.
Qed.

(** ** Reading *)
Lemma read_loop_spec ks : forall c got, cinv c ->
  exists c' rv more, read_loop ks c got = Ok (c', rv, got ++ more) /\ cinv c' /\
    as_string (c_in c') = as_string (c_in c) ++ more /\
    c_out c' = c_out c /\ c_wire c' = c_wire c /\ c_wr c' = c_wr c /\
    ((rv = -1)%Z \/ (rv = Z.of_nat (length (as_string (c_in c'))) /\ c_errno c' = EAgain)).
Proof.
  induction ks as [|k ks IH]; intros c got [IO II]; cbn [read_loop];
    destruct (ensure_spec (c_in c) block_size II) as (i & E & I1 & S1 & W1); rewrite E; cbn [obind].
  - eexists _, _, []. split; [rewrite app_nil_r; reflexivity|]. split; [split; auto|]. cbn.
    rewrite S1, app_nil_r. repeat (split; auto). right. rewrite <- S1, as_string_length; auto.
  - destruct k as [b bs| |[| |]].
    + assert (L : length (firstn (can_write i) (b :: bs)) <= can_write i) by (rewrite firstn_length; lia).
      destruct (store_spec i (firstn (can_write i) (b :: bs)) I1 L) as (i2 & E2 & R2 & W2 & L2 & S2).
      rewrite E2. cbn [obind]. set (d := firstn (can_write i) (b :: bs)) in *.
      edestruct (IH (mkchan (c_out c) (produce i2 (length d)) (c_wr c) (c_errno c) (c_wire c)) (got ++ d)) as (c' & rv & more & E3 & I3 & S3 & O3 & X3 & Y3 & Z3).
      { split; auto. cbn. destruct I1 as [J1 J2]. unfold can_write in L. split; unfold produce; cbn [rd wr data]; lia. }
      exists c', rv, (d ++ more). split; [rewrite E3, app_assoc; reflexivity|]. split; [auto|]. split; [|auto].
      rewrite S3. cbn [c_in]. rewrite app_assoc. f_equal. rewrite <- S1. unfold as_string at 1, produce; cbn [rd wr data].
      rewrite R2, W2. exact S2.
    + eexists _, _, []. split; [rewrite app_nil_r; reflexivity|]. split; [split; auto|]. cbn. rewrite S1, app_nil_r. repeat (split; auto).
    + eexists _, _, []. split; [rewrite app_nil_r; reflexivity|]. split; [split; auto|]. cbn.
      rewrite S1, app_nil_r. repeat (split; auto). right. rewrite <- S1, as_string_length; auto.
    + edestruct (IH (mkchan (c_out c) i (c_wr c) EIntr (c_wire c)) got) as (c' & rv & more & E3 & I3 & S3 & R3); [split; auto|].
      exists c', rv, more. split; [exact E3|]. split; [auto|]. split; [now rewrite S3, <- S1|exact R3].
    + eexists _, _, []. split; [rewrite app_nil_r; reflexivity|]. split; [split; auto|]. cbn. rewrite S1, app_nil_r. repeat (split; auto).
Qed.

(** What the kernel handed over when every chunk fits the room the channel offers. *)
Lemma read_loop_all ks : forall c got, cinv c ->
  (forall b bs, In (KGot b bs) ks -> length (b :: bs) <= block_size) ->
  exists c' rv, read_loop ks c got = Ok (c', rv, got ++ got_of ks).
Proof.
  induction ks as [|k ks IH]; intros c got [IO II] SM; cbn [read_loop got_of];
    destruct (ensure_spec (c_in c) block_size II) as (i & E & I1 & S1 & W1); rewrite E; cbn [obind].
  - rewrite app_nil_r. eauto.
  - destruct k as [b bs| |[| |]]; rewrite ?app_nil_r; eauto.
    + pose proof (SM b bs (or_introl eq_refl)) as L.
      rewrite (firstn_all2 (b :: bs)) by lia.
      assert (L' : length (b :: bs) <= can_write i) by lia.
      destruct (store_spec i (b :: bs) I1 L') as (i2 & E2 & R2 & W2 & L2 & S2).
      rewrite E2. cbn [obind].
      edestruct (IH (mkchan (c_out c) (produce i2 (length (b :: bs))) (c_wr c) (c_errno c) (c_wire c)) (got ++ b :: bs)) as (c' & rv & E3).
      { split; auto. cbn. destruct I1 as [J1 J2]. unfold can_write in L'. split; unfold produce; cbn [rd wr data length] in *; lia. }
      { intros; apply SM; right; auto. }
      exists c', rv. rewrite E3. now rewrite <- app_assoc.
    + apply (IH (mkchan (c_out c) i (c_wr c) EIntr (c_wire c))); [split; auto|]. intros; apply SM; right; auto.
Qed.
