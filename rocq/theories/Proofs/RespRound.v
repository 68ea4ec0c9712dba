(** Round trip of RESP values and commands. *)
From Verif.Model Require Import Common Decimal Resp.
From Verif.Spec Require Import RespSpec.
From Verif.Proofs Require Import Tac DecimalProofs RespProofs.
Open Scope Z_scope.

Lemma rval_ind' (P : rval -> Prop) :
  P RNull -> (forall s, P (RString s)) -> (forall s, P (RError s)) -> (forall n, P (RInt n)) ->
  (forall s, P (RBulk s)) -> (forall l, Forall P l -> P (RArray l)) -> forall v, P v.
Proof.
  intros H1 H2 H3 H4 H5 H6. fix IH 1. intros [|s|s|n|s|l]; [exact H1|apply H2|apply H3|apply H4|apply H5|].
  apply H6. induction l as [|a l IHl]; constructor; [apply IH|exact IHl].
Qed.

(** Running digits through one of the three number states. *)
Lemma run_num (mk mklf : list Z -> lex) ds : 
  (forall b c, lstep (mk b) c = num_step mk mklf b c) -> Forall numch ds ->
  forall b fs q, b ++ ds <> [] ->
  run (mk b) fs (ds ++ 13 :: q) = mshift (length ds + 1) (run (mklf (b ++ ds)) fs q).
Proof.
  intros Hm. induction 1 as [|c ds Hc Hd IH]; intros b fs q Hne.
  - cbn [app run length]. rewrite Hm. unfold num_step. change (13 =? 13) with true. cbv iota.
    rewrite app_nil_r in *. destruct b; [congruence|]. reflexivity.
  - cbn [app run length]. rewrite Hm. unfold num_step.
    assert (E : (c =? 13) = false).
    { apply Z.eqb_neq. destruct Hc as [Hc| ->]; [|lia]. unfold isdigit in Hc. b2p. lia. }
    assert (E2 : isdigit c || (c =? 45) = true) by (destruct Hc as [-> | ->]; [reflexivity|apply orb_true_r]).
    rewrite E, E2, IH.
    + rewrite mshift_add, <- app_assoc. reflexivity.
    + intro H. apply app_eq_nil in H. destruct H as [H _]. apply app_eq_nil in H. destruct H; discriminate.
Qed.

Lemma run_text (mk mklf : list Z -> lex) s :
  (forall b c, lstep (mk b) c = if c =? 13 then Lcont (mklf b) else if printable c then Lcont (mk (b ++ [c])) else Lerr) ->
  Forall (fun c => 32 <= c < 127) s ->
  forall b fs q, run (mk b) fs (s ++ 13 :: q) = mshift (length s + 1) (run (mklf (b ++ s)) fs q).
Proof.
  intros Hm. induction 1 as [|c s Hc Hs IH]; intros b fs q.
  - cbn [app run length]. rewrite Hm. change (13 =? 13) with true. cbv iota. now rewrite app_nil_r.
  - cbn [app run length]. rewrite Hm.
    assert (E : (c =? 13) = false) by (apply Z.eqb_neq; lia).
    assert (E2 : printable c = true) by (unfold printable; apply andb_true_intro; split; [apply Z.leb_le|apply Z.ltb_lt]; lia).
    rewrite E, E2, IH, mshift_add, <- app_assoc. reflexivity.
Qed.

Definition after (v : rval) (k : nat) (fs : frs) (q : list Z) : mres :=
  match complete v fs with inl w => MDone k w | inr fs' => mshift k (run LStart fs' q) end.

Lemma mshift_after j k v fs q : mshift j (after v k fs q) = after v (j + k) fs q.
Proof. unfold after. destruct (complete v fs); [reflexivity|apply mshift_add]. Qed.

Lemma run_val l c v fs q : lstep l c = Lval v -> run l fs (c :: q) = after v 1 fs q.
Proof. intro H. cbn [run]. rewrite H. reflexivity. Qed.

Definition wire_ok (v : rval) : Prop :=
  wf_rval v -> forall fs q, run LStart fs (wire v ++ q) = after v (length (wire v)) fs q.

Lemma parse_udec n : 0 <= n < 2 ^ 63 -> parse_num (udec n) = Ok n.
Proof.
  intro H. unfold parse_num. pose proof (udec_length20 n).
  destruct (32 <=? length (udec n))%nat eqn:E; b2p; [lia|]. now rewrite strtol_udec.
Qed.
Lemma parse_sdec n : - 2 ^ 63 <= n < 2 ^ 63 -> parse_num (sdec n) = Ok n.
Proof.
  intro H. unfold parse_num. pose proof (sdec_length n).
  destruct (32 <=? length (sdec n))%nat eqn:E; b2p; [lia|]. now rewrite strtol_sdec.
Qed.

Lemma run_array_body l : Forall wire_ok l -> Forall wf_rval l -> forall its fs q, l <> [] ->
  run LStart ((Z.of_nat (length l), its) :: fs) (concat (map wire l) ++ q) =
  after (RArray (its ++ l)) (length (concat (map wire l))) fs q.
Proof.
  induction 1 as [|v l Hv Hl IH]; intros W its fs q Hne; [congruence|]. inv W.
  cbn [map concat]. rewrite <- app_assoc, Hv by auto. unfold after at 1.
  cbn [complete]. destruct l as [|v2 l].
  - cbn [length map concat app]. change (Z.of_nat 1 =? 1) with true. cbv iota. rewrite app_nil_r.
    unfold after. reflexivity.
  - destruct (Z.of_nat (length (v :: v2 :: l)) =? 1) eqn:E; b2p; [cbn [length] in E; lia|].
    replace (Z.of_nat (length (v :: v2 :: l)) - 1) with (Z.of_nat (length (v2 :: l))) by (cbn [length]; lia).
    rewrite IH by (auto; discriminate). rewrite mshift_after, app_length, <- app_assoc. reflexivity.
Qed.

Lemma wire_ok_all v : wire_ok v.
Proof.
  induction v as [|s|s|n|s|l IH] using rval_ind'; intros W fs q.
  - change (run LStart fs (wire RNull ++ q)) with (mshift 1 (run (LBs []) fs ([45; 49] ++ 13 :: 10 :: q))).
    rewrite (run_num LBs LBsLf); [|reflexivity|constructor; [right; reflexivity|constructor; [left; reflexivity|constructor]]|discriminate].
    rewrite (run_val _ _ RNull) by reflexivity. rewrite !mshift_after. reflexivity.
  - inv W. cbn [wire]. unfold crlf. cbn [app run lstep]. change (43 =? 43) with true. cbv iota.
    rewrite <- app_assoc. cbn [app]. rewrite (run_text LStr LStrLf) by auto.
    rewrite (run_val _ _ (RString ([] ++ s))) by reflexivity. rewrite !mshift_after. f_equal.
    cbn [length]. rewrite app_length. cbn [length]. lia.
  - inv W. cbn [wire]. unfold crlf. cbn [app run lstep]. change (45 =? 43) with false. change (45 =? 45) with true. cbv iota.
    rewrite <- app_assoc. cbn [app]. rewrite (run_text LErrS LErrLf) by auto.
    rewrite (run_val _ _ (RError ([] ++ s))) by reflexivity. rewrite !mshift_after. f_equal.
    cbn [length]. rewrite app_length. cbn [length]. lia.
  - inv W. cbn [wire]. unfold crlf. cbn [app run lstep]. change (58 =? 43) with false. change (58 =? 45) with false.
    change (58 =? 58) with true. cbv iota.
    rewrite <- app_assoc. cbn [app]. rewrite (run_num LInt LIntLf); [|reflexivity|apply sdec_numch|apply sdec_nonempty].
    rewrite (run_val _ _ (RInt n)) by (cbn [lstep app]; change (10 =? 10) with true; cbv iota; now rewrite parse_sdec).
    rewrite !mshift_after. f_equal.
    cbn [length]. rewrite app_length. cbn [length]. lia.
  - inv W. cbn [wire]. unfold wire_bulk, crlf. cbn [app run lstep]. change (36 =? 43) with false. change (36 =? 45) with false.
    change (36 =? 58) with false. change (36 =? 36) with true. cbv iota.
    rewrite <- app_assoc. cbn [app].
    rewrite (run_num LBs LBsLf); [|reflexivity|apply udec_numch; lia|apply udec_nonempty].
    cbn [app run lstep]. change (10 =? 10) with true. cbv iota. rewrite parse_udec by lia.
    destruct (Z.of_nat (length s) =? -1) eqn:E1; b2p; [lia|].
    assert (FIN : forall k, mshift k (run (LBcr s) fs (13 :: 10 :: q)) = after (RBulk s) (k + 2) fs q).
    { intro k. change (run (LBcr s) fs (13 :: 10 :: q)) with (mshift 1 (run (LBlf s) fs (10 :: q))).
      rewrite (run_val _ _ (RBulk s)) by reflexivity. rewrite !mshift_after. reflexivity. }
    destruct (Z.of_nat (length s) =? 0) eqn:E2; b2p.
    + destruct s; [|cbn in E2; lia]. cbn [app]. rewrite !mshift_add, FIN. reflexivity.
    + destruct (Z.of_nat (length s) <? 0) eqn:E3; b2p; [lia|].
      rewrite run_bulk by lia. rewrite <- app_assoc. cbn [app].
      destruct (Z.of_nat (length (s ++ 13 :: 10 :: q)) <? Z.of_nat (length s)) eqn:E4; b2p.
      { rewrite app_length in E4. lia. }
      rewrite Nat2Z.id. rewrite firstn_app, firstn_all, Nat.sub_diag, skipn_app, skipn_all, Nat.sub_diag.
      cbn [firstn skipn app]. rewrite app_nil_r, !mshift_add, FIN. f_equal. cbn [length].
      rewrite !app_length. cbn [length]. rewrite app_length. cbn [length]. lia.
  - inv W. cbn [wire]. unfold crlf. cbn [app run lstep]. change (42 =? 43) with false. change (42 =? 45) with false.
    change (42 =? 58) with false. change (42 =? 36) with false. change (42 =? 42) with true. cbv iota.
    rewrite <- app_assoc. cbn [app].
    rewrite (run_num LAs LAsLf); [|reflexivity|apply udec_numch; lia|apply udec_nonempty].
    destruct l as [|v l].
    + change (concat (map wire []) ++ q) with q.
      rewrite (run_val _ _ (RArray [])) by reflexivity. rewrite !mshift_after. reflexivity.
    + cbn [app run lstep]. change (10 =? 10) with true. cbv iota. rewrite parse_udec by lia.
      destruct ((Z.of_nat (length (v :: l)) =? -1) || (Z.of_nat (length (v :: l)) =? 0)) eqn:E1; b2p.
      { apply orb_true_iff in E1. destruct E1; b2p; cbn [length] in *; lia. }
      destruct (Z.of_nat (length (v :: l)) <? 0) eqn:E3; b2p; [lia|].
      rewrite run_array_body by (auto; discriminate). rewrite !mshift_after. f_equal. cbn [length].
      rewrite !app_length. cbn [length]. lia.
Qed.

(** Decoding the wire image of a value, whatever follows. *)
Lemma decode_wire v q : wf_rval v -> forall d, absl d = LStart -> frames d = [] ->
  exists d', decode d (wire v ++ q) = Ok (RCompleted (length (wire v)) v, d') /\ absl d' = LStart /\ frames d' = [].
Proof.
  intros W d Hl Hf. assert (A := decode_sim d (wire v ++ q)). rewrite Hl, Hf in A.
  specialize (A I (Forall_nil _)). cbn [rev] in A. rewrite (wire_ok_all v W) in A. cbn [after complete] in A.
  unfold after in A. cbn [complete] in A. exact A.
Qed.

Lemma srun_wire v q : wf_rval v -> srun LStart [] (wire v ++ q) = scons v (srun LStart [] q).
Proof.
  intro W. destruct (srun_run (wire v ++ q) LStart []) as (l0 & f0 & E). rewrite E.
  rewrite (wire_ok_all v W). unfold after. cbn [complete]. f_equal. f_equal.
  rewrite skipn_app, skipn_all, Nat.sub_diag. reflexivity.
Qed.

Lemma srun_wires vs : Forall wf_rval vs -> forall q, srun LStart [] (concat (map wire vs) ++ q) =
  match srun LStart [] q with SOk ws e l f => SOk (vs ++ ws) e l f | SUB => SUB end.
Proof.
  induction 1 as [|v vs Hv Hvs IH]; intro q; cbn [map concat].
  - cbn [app]. destruct (srun LStart [] q); reflexivity.
  - rewrite <- app_assoc, srun_wire by auto. rewrite IH. destruct (srun LStart [] q); reflexivity.
Qed.

(** A whole stream, in any fragments, possibly cut inside a further reply. *)
Lemma stream_round chunks vs : Forall wf_rval vs -> concat chunks = concat (map wire vs) ->
  feed_all new_dec chunks = Ok (vs, false).
Proof.
  intros W H. rewrite (feed_all_sim chunks new_dec I (Forall_nil _)). rewrite H.
  rewrite <- (app_nil_r (concat (map wire vs))). change (absl new_dec) with LStart. change (rev (frames new_dec)) with (@nil (Z * list rval)).
  rewrite srun_wires by auto. cbn [srun]. now rewrite app_nil_r.
Qed.

Lemma encode_cmd_wire cmd args : Forall (fun a => Z.of_nat (length a) < 2 ^ 32) (cmd :: args) -> Z.of_nat (length args) + 1 < 2 ^ 32 ->
  encode_cmd cmd args = wire (RArray (map RBulk (cmd :: args))).
Proof.
  intros H Hn. unfold encode_cmd, append_size. cbn [wire]. cbn [app]. f_equal. rewrite map_length.
  replace (length args + 1)%nat with (length (cmd :: args)) by (cbn [length]; lia).
  rewrite Z.mod_small by (cbn [length]; lia). rewrite <- app_assoc. f_equal. unfold crlf. cbn [app]. f_equal. f_equal.
  rewrite map_map. f_equal. apply map_ext_in. intros a Ha. rewrite Forall_forall in H. specialize (H a Ha).
  unfold append_arg, append_size. cbn [wire]. unfold wire_bulk, crlf. cbn [app]. f_equal.
  rewrite Z.mod_small by lia. rewrite <- app_assoc. reflexivity.
Qed.
