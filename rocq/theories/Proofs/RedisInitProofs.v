(** The start of a redis connection. *)
From Verif.Model Require Import Common Decimal Resp RedisInit.
From Verif.Spec Require Import RespSpec RedisInitSpec.
From Verif.Proofs Require Import Tac DecimalProofs RespProofs RespRound RespSvc.
Open Scope Z_scope.

Lemma accepted_ok v : accepted v <-> is_ok v = true.
Proof.
  split.
  - intros [r ->]. reflexivity.
  - destruct v as [|s| | | |]; try discriminate. cbn [is_ok]. intro H.
    destruct s as [|x s]; [discriminate|].
    assert (x = 79) by (destruct x as [|p|p]; try discriminate; repeat (destruct p; try discriminate); reflexivity).
    subst x. destruct s as [|y s]; [discriminate|].
    assert (y = 75) by (destruct y as [|p|p]; try discriminate; repeat (destruct p; try discriminate); reflexivity).
    subst y. now exists s.
Qed.

Lemma events_after es : forall v, init_events (mkist v false false) es =
  obind (svc_run v es) (fun '(o, v) => Ok (map IOut o, mkist v false false)).
Proof.
  induction es as [|[id n|b] es IH]; intro v; cbn [init_events svc_run obind i_svc w_auth w_db]; [reflexivity| |].
  - destruct (submit v (id, n)) as [v2| |]; cbn [obind]; auto.
  - unfold init_data. cbn [w_auth w_db i_svc orb]. destruct (on_data v b) as [[o v2]| |]; cbn [obind]; auto.
    rewrite IH. destruct (svc_run v2 es) as [[o2 v3]| |]; cbn [obind]; auto. now rewrite map_app.
Qed.

Lemma wf_srun fu d p ws l fs : (length p < fu)%nat -> wfl (absl d) -> wff (frames d) ->
  srun (absl d) (rev (frames d)) p = SOk ws false l fs -> wfl l /\ wff fs.
Proof.
  intros _ Hl Hw E. assert (F := feed_f_sim (S (length p)) d p ltac:(lia) Hl Hw). rewrite E in F. cbn [feed_sim] in F.
  destruct F as (? & _ & _ & _ & ? & ?). auto.
Qed.

(** While replies are missing nothing is reported. *)
Lemma waiting_quiet chunks : forall d cur cnt ws l fs a b, a || b = true -> wfl (absl d) -> wff (frames d) ->
  0 < cnt < 2 ^ 32 -> Z.of_nat (length ws) < cnt ->
  srun (absl d) (rev (frames d)) (concat chunks) = SOk ws false l fs ->
  exists d', init_events (mkist (mkrsvc d cnt cur [] [] None) a b) (map Data chunks) =
    Ok ([], mkist (mkrsvc d' (cnt - Z.of_nat (length ws)) (cur ++ ws) [] [] None) a b) /\ absl d' = l /\ frames d' = rev fs.
Proof.
  induction chunks as [|p rest IH]; intros d cur cnt ws l fs a b Hab Hl Hw Hc Hlt Hs.
  - cbn [concat srun map init_events] in *. inv Hs. rewrite rev_involutive. cbn [length]. rewrite Z.sub_0_r, app_nil_r. eauto.
  - cbn [concat map init_events] in *. rewrite srun_app in Hs.
    destruct (srun (absl d) (rev (frames d)) p) as [vs e l1 fs1|] eqn:E; [|discriminate].
    destruct e; [discriminate|].
    destruct (srun l1 fs1 (concat rest)) as [us e l2 f2|] eqn:E2; [|discriminate]. inv Hs.
    destruct (wf_srun (S (length p)) d p vs l1 fs1 ltac:(lia) Hl Hw E) as [W1 W2].
    rewrite app_length in *.
    unfold init_data. cbn [w_auth w_db i_svc]. rewrite Hab. cbn [ndec next_incoming current inbuf waiting ing app].
    set (fu := (2 + length p)%nat). assert (Hfu : (length p < fu)%nat) by lia. clearbody fu.
    destruct (recv_ok fu d p cnt cur [] None vs l1 fs1 Hfu Hl Hw) as (d2 & -> & Hl2 & Hf2); auto; try lia.
    cbn [obind next_incoming].
    destruct (cnt - Z.of_nat (length vs) =? 0) eqn:E3; b2p; [lia|]. cbn [obind].
    destruct (IH d2 (cur ++ vs) (cnt - Z.of_nat (length vs)) us l fs a b) as (d' & -> & ? & ?); auto.
    { now rewrite Hl2. } { rewrite Hf2. now apply wff_rev. } { lia. } { lia. }
    { now rewrite Hl2, Hf2, rev_involutive. }
    cbn [obind]. exists d'. split; auto. rewrite <- app_assoc. do 4 f_equal. lia.
Qed.

Definition verdict_out (ok : bool) : iout := if ok then IReady else IClosed.

Lemma init_done chunks : forall d cur ws a b ok, a || b = true -> wfl (absl d) -> wff (frames d) -> ws <> [] ->
  Z.of_nat (length ws) < 2 ^ 32 -> init_verdict a b (cur ++ ws) = Ok ok ->
  srun (absl d) (rev (frames d)) (concat chunks) = SOk ws false LStart [] ->
  exists s', init_events (mkist (mkrsvc d (Z.of_nat (length ws)) cur [] [] None) a b) (map Data chunks) =
    Ok ([verdict_out ok], mkist s' false false) /\ idle s'.
Proof.
  induction chunks as [|p rest IH]; intros d cur ws a b ok Hab Hl Hw Hne Hlt Hv Hs.
  - cbn [concat srun] in Hs. inv Hs. congruence.
  - cbn [concat map init_events] in *. rewrite srun_app in Hs.
    destruct (srun (absl d) (rev (frames d)) p) as [vs e l fs|] eqn:E; [|discriminate].
    destruct e; [discriminate|].
    destruct (srun l fs (concat rest)) as [us e l2 f2|] eqn:E2; [|discriminate]. inv Hs.
    destruct (wf_srun (S (length p)) d p vs l fs ltac:(lia) Hl Hw E) as [W1 W2].
    unfold init_data. cbn [w_auth w_db i_svc]. rewrite Hab. cbn [ndec next_incoming current inbuf waiting ing app].
    set (fu := (2 + length p)%nat). assert (Hfu : (length p < fu)%nat) by lia. clearbody fu.
    destruct us as [|u us].
    + rewrite app_nil_r in *.
      destruct (classic_nil (concat rest)) as [Er|Er].
      * rewrite Er in E2. cbn [srun] in E2. inv E2.
        destruct (recv_ok fu d p (Z.of_nat (length vs)) cur [] None vs LStart [] Hfu Hl Hw) as (d2 & -> & Hl2 & Hf2); auto; try lia.
        { destruct vs; [congruence|cbn [length] in *; lia]. }
        { intro; split; reflexivity. }
        cbn [obind next_incoming current]. rewrite Z.sub_diag. change (0 =? 0) with true. cbv iota. rewrite Hv.
        cbn [obind ndec inbuf waiting ing].
        destruct (data_many_done (length rest) (mkrsvc d2 0 [] [] [] None)) as (s' & R & I').
        { exists d2. auto. }
        rewrite <- (concat_nil_repeat rest Er) in R.
        rewrite events_after, R. cbn [obind map app]. exists s'. split; auto.
      * exfalso. eapply srun_busy; [|exact E2|split; reflexivity]. right. exact Er.
    + destruct (recv_ok fu d p (Z.of_nat (length (vs ++ u :: us))) cur [] None vs l fs Hfu Hl Hw) as (d2 & -> & Hl2 & Hf2); auto.
      { rewrite app_length in *. cbn [length] in *. lia. }
      { rewrite app_length. lia. }
      { intro A. rewrite app_length in A. cbn [length] in A. lia. }
      cbn [obind next_incoming]. rewrite app_length in *. cbn [length] in *.
      destruct (Z.of_nat (length vs + S (length us)) - Z.of_nat (length vs) =? 0) eqn:E3; b2p; [lia|]. cbn [obind].
      replace (Z.of_nat (length vs + S (length us)) - Z.of_nat (length vs)) with (Z.of_nat (length (u :: us))) by (cbn [length]; lia).
      destruct (IH d2 (cur ++ vs) (u :: us) a b ok) as (s' & R & I'); auto.
      { now rewrite Hl2. } { rewrite Hf2. now apply wff_rev. } { discriminate. } { cbn [length]. lia. }
      { now rewrite <- app_assoc. }
      { now rewrite Hl2, Hf2, rev_involutive. }
      rewrite R. cbn [obind]. exists s'. split; auto.
Qed.

Lemma start_spec passwd db : Z.of_nat (length passwd) < 2 ^ 32 -> Z.of_nat (length db) < 2 ^ 32 ->
  exists a b, init_start passwd db =
    match init_commands passwd db with
    | [] => Ok ([IReady], mkist new_rsvc false false)
    | cs => Ok ([ISent (concat (map wire cs))], mkist (mkrsvc new_dec (Z.of_nat (length cs)) [] [] [] None) a b)
    end /\
    (init_commands passwd db <> [] -> a || b = true) /\
    forall rs, length rs = length (init_commands passwd db) ->
      exists ok, init_verdict a b rs = Ok ok /\ (ok = true <-> Forall accepted rs).
Proof.
  intros Hp Hd.
  assert (A : encode_cmd cmd_auth [passwd] = wire (RArray [RBulk cmd_auth; RBulk passwd])).
  { apply (encode_cmd_wire cmd_auth [passwd]); [repeat constructor; auto; cbn; lia|cbn; lia]. }
  assert (B : encode_cmd cmd_select [db] = wire (RArray [RBulk cmd_select; RBulk db])).
  { apply (encode_cmd_wire cmd_select [db]); [repeat constructor; auto; cbn; lia|cbn; lia]. }
  exists (match passwd with [] => false | _ => true end), (match db with [] => false | _ => true end).
  unfold init_start, init_request, init_commands.
  destruct passwd as [|p0 p], db as [|d0 d]; repeat (destruct list_eq_dec; [try congruence|try congruence]);
    cbn [app length add_cmd new_rreq cmd_counter body].
  - split; [reflexivity|]. split; [congruence|]. intros [|] H; [|discriminate]. exists true. split; [reflexivity|]. split; auto.
  - split; [|split; [reflexivity|]].
    + rewrite B. cbn [map concat]. rewrite app_nil_r. reflexivity.
    + intros [|v [|]] H; try discriminate. cbn [init_verdict]. eexists. split; [reflexivity|].
      rewrite <- accepted_ok. split; intro H2; [auto|now inversion H2].
  - split; [|split; [reflexivity|]].
    + rewrite A. cbn [map concat]. rewrite app_nil_r. reflexivity.
    + intros [|v [|]] H; try discriminate. cbn [init_verdict]. exists (is_ok v). split; [now destruct (is_ok v)|].
      rewrite <- accepted_ok. split; intro H2; [auto|now inversion H2].
  - split; [|split; [reflexivity|]].
    + rewrite A, B. cbn [map concat]. rewrite app_nil_r. reflexivity.
    + intros [|v [|w [|]]] H; try discriminate. cbn [init_verdict]. exists (is_ok v && is_ok w).
      split; [now destruct (is_ok v), (is_ok w)|].
      rewrite andb_true_iff, <- !accepted_ok. split; intro H2; [destruct H2; auto|]. inversion H2 as [|? ? ? H3]. inversion H3. auto.
Qed.

Lemma commands_len passwd db : (length (init_commands passwd db) <= 2)%nat.
Proof. unfold init_commands. destruct list_eq_dec, list_eq_dec; cbn; lia. Qed.

(** All replies in: one verdict; then the connection serves requests. *)
Lemma all_in passwd db rs chunks : Z.of_nat (length passwd) < 2 ^ 32 -> Z.of_nat (length db) < 2 ^ 32 ->
  init_commands passwd db <> [] -> Forall wf_rval rs -> length rs = length (init_commands passwd db) ->
  concat chunks = concat (map wire rs) ->
  exists s ok, init_run passwd db (map Data chunks) =
    Ok ([ISent (concat (map wire (init_commands passwd db))); verdict_out ok], mkist s false false) /\ idle s /\
    (ok = true <-> Forall accepted rs).
Proof.
  intros Hp Hd Hne Hwf Hlen Hc. destruct (start_spec passwd db Hp Hd) as (a & b & E & Hab & Hv).
  unfold init_run. rewrite E. destruct (init_commands passwd db) as [|c cs] eqn:EC; [congruence|].
  destruct (Hv rs Hlen) as (ok & Hok & Hiff).
  assert (L := commands_len passwd db). rewrite EC in L.
  cbn [obind]. rewrite <- Hlen.
  destruct (init_done chunks new_dec [] rs a b ok (Hab Hne)) as (s & R & I); auto.
  - exact I.
  - constructor.
  - intros ->. discriminate.
  - rewrite Hlen. cbn [length] in *. lia.
  - rewrite Hc. rewrite <- (app_nil_r (concat (map wire rs))). change (absl new_dec) with LStart.
    change (rev (frames new_dec)) with (@nil (Z * list rval)). rewrite srun_wires by auto. cbn [srun]. now rewrite app_nil_r.
  - rewrite R. cbn [obind app]. exists s, ok. auto.
Qed.

(** A proper prefix of the replies: nothing yet. *)
Lemma not_all_in passwd db rs chunks more : Z.of_nat (length passwd) < 2 ^ 32 -> Z.of_nat (length db) < 2 ^ 32 ->
  init_commands passwd db <> [] -> Forall wf_rval rs -> length rs = length (init_commands passwd db) ->
  concat chunks ++ more = concat (map wire rs) -> more <> [] ->
  exists s, init_run passwd db (map Data chunks) =
    Ok ([ISent (concat (map wire (init_commands passwd db)))], s).
Proof.
  intros Hp Hd Hne Hwf Hlen Hc Hm. destruct (start_spec passwd db Hp Hd) as (a & b & E & Hab & Hv).
  unfold init_run. rewrite E. destruct (init_commands passwd db) as [|c cs] eqn:EC; [congruence|].
  assert (L := commands_len passwd db). rewrite EC in L. cbn [obind].
  assert (S : srun LStart [] (concat chunks ++ more) = SOk rs false LStart []).
  { rewrite Hc. rewrite <- (app_nil_r (concat (map wire rs))). rewrite srun_wires by auto. cbn [srun]. now rewrite app_nil_r. }
  rewrite srun_app in S.
  destruct (srun LStart [] (concat chunks)) as [vs e l fs|] eqn:E1; [|discriminate]. destruct e; [discriminate|].
  destruct (srun l fs more) as [us e l2 f2|] eqn:E2; [|discriminate]. inv S.
  destruct us as [|u us].
  { exfalso. eapply srun_busy; [|exact E2|split; reflexivity]. now right. }
  destruct (waiting_quiet chunks new_dec [] (Z.of_nat (length (c :: cs))) vs l fs a b (Hab Hne)) as (d' & R & _); auto.
  - exact I.
  - constructor.
  - cbn [length] in *. lia.
  - rewrite app_length in Hlen. cbn [length] in *. lia.
  - rewrite R. cbn [obind app]. eauto.
Qed.

Lemma init_events_app a : forall s b,
  init_events s (a ++ b) = obind (init_events s a) (fun '(o, s) => obind (init_events s b) (fun '(o2, s) => Ok (o ++ o2, s))).
Proof.
  induction a as [|[id n|x] a IH]; intros s b; cbn [app init_events obind].
  - destruct (init_events s b) as [[o s2]| |]; reflexivity.
  - destruct (submit (i_svc s) (id, n)) as [s2| |]; cbn [obind]; auto.
  - destruct (init_data s x) as [[o s2]| |]; cbn [obind]; auto. rewrite IH.
    destruct (init_events s2 a) as [[o2 s3]| |]; cbn [obind]; auto.
    destruct (init_events s3 b) as [[o3 s4]| |]; cbn [obind]; auto. now rewrite app_assoc.
Qed.

(** Requests sent after the connection became ready. *)
Lemma then_requests passwd db rs chunks xs : Z.of_nat (length passwd) < 2 ^ 32 -> Z.of_nat (length db) < 2 ^ 32 ->
  Forall wf_rval rs -> Forall accepted rs -> length rs = length (init_commands passwd db) ->
  concat chunks = concat (map wire rs) -> Forall good_exchange xs ->
  exists s, init_run passwd db (map Data chunks ++ sequential xs) =
    Ok ((if list_eq_dec Z.eq_dec (passwd ++ db) [] then [] else [ISent (concat (map wire (init_commands passwd db)))]) ++
        IReady :: map (fun x => IOut (Done (xid x) (replies x))) xs, s).
Proof.
  intros Hp Hd Hwf Hok Hlen Hc Hx.
  destruct (list_eq_dec Z.eq_dec (passwd ++ db) []) as [e|e].
  - apply app_eq_nil in e. destruct e as [-> ->]. cbn in Hlen. destruct rs; [|discriminate]. cbn [map concat] in Hc.
    unfold init_run, init_start, init_request. cbn [new_rreq cmd_counter obind app]. change (0 =? 0) with true. cbv iota.
    cbn [obind]. rewrite events_after, svc_run_app.
    destruct (data_many_done (length chunks) new_rsvc new_idle) as (s1 & R & I1). rewrite <- (concat_nil_repeat _ Hc) in R.
    rewrite R. cbn [obind]. destruct (sequential_ok xs Hx s1 I1) as (s2 & R2 & _). rewrite R2. cbn [obind app].
    eexists. rewrite map_map. reflexivity.
  - assert (Hne : init_commands passwd db <> []).
    { unfold init_commands. destruct list_eq_dec as [->|], list_eq_dec as [->|]; try discriminate. now intros _. }
    destruct (all_in passwd db rs chunks Hp Hd Hne Hwf Hlen Hc) as (s & ok & R & I1 & Hiff).
    assert (ok = true) by now apply Hiff. subst ok.
    unfold init_run in *. destruct (init_start passwd db) as [[o s0]| |]; cbn [obind] in *; try discriminate.
    rewrite init_events_app. destruct (init_events s0 (map Data chunks)) as [[o1 s1]| |]; cbn [obind] in *; try discriminate.
    inversion R as [[Ho Hs]]. subst s1. rewrite events_after.
    destruct (sequential_ok xs Hx s I1) as (s2 & R2 & _). rewrite R2. cbn [obind].
    eexists. rewrite app_assoc, Ho, map_map. reflexivity.
Qed.
