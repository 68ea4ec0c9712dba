From Verif.Model Require Import Common IOBuffer LineCodec.
From Verif.Spec Require Import LineSpec ByteQueue.
From Verif.Proofs Require Import Tac IOBufferProofs.

Lemma search_cons a l :
  search_crlf (a :: l) =
  (if (a =? 13)%Z then match l with b :: _ => if (b =? 10)%Z then Some 0 else option_map S (search_crlf l) | [] => None end
   else option_map S (search_crlf l)).
Proof.
  destruct (Z.eqb_spec a 13).
  - subst. destruct l as [|b l]; [reflexivity|].
    destruct (Z.eqb_spec b 10); [subst; reflexivity|].
    cbn [search_crlf]. destruct b as [|p|p]; try reflexivity.
    do 4 (destruct p; try reflexivity). lia.
  - cbn [search_crlf]. destruct a as [|p|p]; try reflexivity.
    do 4 (destruct p; try reflexivity). lia.
Qed.

Lemma search_some l : forall n, search_crlf l = Some n ->
  l = firstn n l ++ crlf ++ skipn (n + 2) l /\ has_crlf (firstn n l ++ [13%Z]) = false.
Proof.
  induction l as [|a l IH]; intros n H; [discriminate|].
  rewrite search_cons in H. destruct (Z.eqb_spec a 13).
  - subst a. destruct l as [|b l]; [discriminate|]. destruct (Z.eqb_spec b 10).
    + inv H. split; reflexivity.
    + destruct (search_crlf (b :: l)) as [m|]; [|discriminate]. inv H.
      destruct (IH m eq_refl) as [E1 E2]. split.
      * change (S m + 2) with (S (m + 2)). cbn [firstn skipn app]. now rewrite <- E1.
      * cbn [firstn app has_crlf]. rewrite E2. destruct m; cbn [firstn app]; [reflexivity|].
        rewrite orb_false_r, Z.eqb_refl. cbn. now apply Z.eqb_neq.
  - destruct (search_crlf l) as [m|]; [|discriminate]. inv H.
    destruct (IH m eq_refl) as [E1 E2]. split.
    + change (S m + 2) with (S (m + 2)). cbn [firstn skipn app]. now rewrite <- E1.
    + cbn [firstn app has_crlf]. rewrite E2. destruct (firstn m l ++ [13%Z]) eqn:?; auto.
      apply Z.eqb_neq in n0. rewrite n0. reflexivity.
Qed.

Lemma search_none l : search_crlf l = None -> has_crlf l = false.
Proof.
  induction l as [|a l IH]; intros H; [reflexivity|].
  rewrite search_cons in H. cbn [has_crlf]. destruct (Z.eqb_spec a 13).
  - destruct l as [|b l]; [reflexivity|]. destruct (Z.eqb_spec b 10); [discriminate|].
    destruct (search_crlf (b :: l)); [discriminate|]. rewrite IH; auto.
  - destruct (search_crlf l); [discriminate|]. rewrite IH; auto. destruct l; auto.
Qed.

Lemma on_data_spec b m b' : binv b -> line_on_data b = (m, b') ->
  binv b' /\
  match m with
  | Some l => as_string b = l ++ crlf ++ as_string b' /\ is_line l
  | None => as_string b' = as_string b /\ has_crlf (as_string b) = false
  end.
Proof.
  intros Hb H. unfold line_on_data, find_crlf in H.
  destruct (can_read b =? 0) eqn:E; b2p.
  - inv H. repeat split; auto; try apply Hb.
    rewrite <- (as_string_length _ Hb) in E. now destruct (as_string b').
  - destruct (search_crlf (as_string b)) eqn:S; inv H.
    + destruct (consume_spec b (n + 2) Hb) as [I S']. apply search_some in S as [S1 S2].
      split; auto. rewrite S'. split; auto.
    + split; auto. split; auto. now apply search_none.
Qed.

Lemma line_run_spec cs : forall b, binv b ->
  exists ls b', line_run b cs = Ok (ls, b') /\ binv b' /\
    as_string b ++ concat cs = frames ls (as_string b') /\ Forall is_line ls.
Proof.
  induction cs as [|c cs IH]; intros b Hb; cbn [line_run].
  - exists [], b. split; auto. split; auto. split; auto. unfold frames. simpl. apply app_nil_r.
  - unfold line_event. destruct (write_spec b c Hb) as (b1 & E1 & I1 & S1).
    rewrite E1. cbn [obind]. destruct (line_on_data b1) as [m b2] eqn:E2.
    destruct (on_data_spec b1 m b2 I1 E2) as [I2 S2].
    destruct (IH b2 I2) as (ls & b3 & E3 & I3 & S3 & F3). cbn [obind]. rewrite E3. cbn [obind].
    cbn [concat]. rewrite app_assoc, <- S1.
    destruct m as [l|].
    + exists (l :: ls), b3. destruct S2 as [S2 L]. repeat split; auto; try apply I3.
      rewrite S2, <- !app_assoc, S3. unfold frames. cbn [map concat]. rewrite <- !app_assoc. reflexivity.
    + exists ls, b3. destruct S2 as [S2 L]. repeat split; auto; try apply I3.
      rewrite <- S2. exact S3.
Qed.

Lemma line_lossless cs :
  exists ls b, line_run new_buf cs = Ok (ls, b) /\
    concat cs = frames ls (as_string b) /\ Forall is_line ls.
Proof.
  destruct (line_run_spec cs new_buf binv_new) as (ls & b & E & I & S & F). eauto.
Qed.

(** uniqueness of the line decomposition *)
Lemma has_crlf_app_l a b : has_crlf (a ++ b) = false -> has_crlf a = false.
Proof.
  induction a as [|x a IH]; cbn [app has_crlf]; intro H; auto.
  b2p. rewrite (IH H0). destruct a; auto. cbn [app] in H. now rewrite H.
Qed.

Lemma line_split l1 : forall l2 r1 r2, is_line l1 -> is_line l2 ->
  l1 ++ crlf ++ r1 = l2 ++ crlf ++ r2 -> l1 = l2 /\ r1 = r2.
Proof.
  unfold is_line.
  induction l1 as [|a l1 IH]; intros [|b l2] r1 r2 H1 H2 E.
  - inv E. auto.
  - cbn in E. inv E. destruct l2 as [|c l2]; cbn in *; [inv H3|].
    inv H3. discriminate.
  - cbn in E. inv E. destruct l1 as [|c l1]; cbn in *; [inv H3|].
    inv H3. discriminate.
  - cbn [app] in E. inv E. destruct (IH l2 r1 r2) as [-> ->]; auto.
    + cbn [app has_crlf] in H1. b2p. auto.
    + cbn [app has_crlf] in H2. b2p. auto.
Qed.

Lemma no_crlf_line l r : has_crlf r = false -> is_line l -> forall q, r <> l ++ crlf ++ q.
Proof.
  intros H L q ->. unfold crlf in H.
  enough (has_crlf (l ++ [13; 10]%Z ++ q) = true) by congruence.
  clear. induction l; cbn [app has_crlf]; [reflexivity|]. cbn [app] in IHl. rewrite IHl. apply orb_true_r.
Qed.

(** The lines delivered are an initial segment of the lines in the stream. *)
Lemma line_in_order ls : forall ms rest r, Forall is_line ls -> Forall is_line ms ->
  has_crlf rest = false -> frames ls r = frames ms rest ->
  exists more, ms = ls ++ more /\ r = frames more rest.
Proof.
  unfold frames.
  induction ls as [|l ls IH]; intros ms rest r F1 F2 R E; cbn [map concat app] in *.
  - exists ms. auto.
  - inv F1. destruct ms as [|m ms]; cbn [map concat app] in E.
    + exfalso. symmetry in E. rewrite <- !app_assoc in E. now apply (no_crlf_line _ _ R H1) in E.
    + inv F2. rewrite <- !app_assoc in E. apply line_split in E; auto. destruct E as [-> E].
      destruct (IH ms rest r) as (more & -> & ->); auto. exists more. auto.
Qed.

Lemma line_prefix cs ms rest : concat cs = frames ms rest -> Forall is_line ms -> has_crlf rest = false ->
  exists ls b more, line_run new_buf cs = Ok (ls, b) /\ ms = ls ++ more /\ as_string b = frames more rest.
Proof.
  intros E F R. destruct (line_lossless cs) as (ls & b & E1 & E2 & E3).
  rewrite E in E2. symmetry in E2.
  destruct (line_in_order ls ms rest (as_string b)) as (more & -> & ?); auto. eauto 6.
Qed.


Lemma prompt_refuted : ~ forall chunks lines b,
  line_run new_buf chunks = Ok (lines, b) -> has_crlf (as_string b) = false.
Proof.
  intro H. specialize (H [[97; 13; 10; 98; 13; 10]%Z]).
  destruct (line_run new_buf [[97; 13; 10; 98; 13; 10]%Z]) as [[ls b]| |] eqn:E; vm_compute in E; try discriminate.
  injection E as <- <-. specialize (H _ _ eq_refl). vm_compute in H. discriminate.
Qed.

Lemma count_zero l : has_crlf l = false <-> count_crlf l = 0.
Proof.
  induction l as [|a l IH]; cbn [has_crlf count_crlf]; [tauto|].
  rewrite orb_false_iff, IH. destruct l as [|b l]; [intuition|].
  destruct ((a =? 13) && (b =? 10))%Z; intuition (discriminate || lia).
Qed.

Lemma count_frame l r : is_line l -> count_crlf (l ++ crlf ++ r) = S (count_crlf r).
Proof.
  unfold is_line. induction l as [|a l IH]; intro H.
  - cbn. destruct r; reflexivity.
  - cbn [app has_crlf] in H. b2p. cbn [app count_crlf]. rewrite <- IH by auto. cbn [app] in *.
    destruct l as [|b l]; cbn [app crlf] in *; [now rewrite andb_false_r|rewrite H; reflexivity].
Qed.

Lemma count_frames ls r : Forall is_line ls -> count_crlf (frames ls r) = length ls + count_crlf r.
Proof.
  unfold frames. induction 1 as [|l ls L F IH]; cbn [map concat app length]; [reflexivity|].
  rewrite <- !app_assoc, count_frame, IH by auto. lia.
Qed.

Lemma line_run_snoc cs c : forall b ls b1, line_run b cs = Ok (ls, b1) ->
  line_run b (cs ++ [c]) =
  obind (line_event b1 c) (fun '(m, b2) => Ok (ls ++ match m with Some l => [l] | None => [] end, b2)).
Proof.
  induction cs as [|d cs IH]; intros b ls b1 H; cbn [line_run app] in *.
  - inv H. destruct (line_event b1 c) as [[m b2]| |]; cbn [obind]; auto.
  - destruct (line_event b d) as [[m b2]| |]; cbn [obind] in *; try discriminate.
    destruct (line_run b2 cs) as [[ms b3]| |] eqn:E; cbn [obind] in *; try discriminate.
    inv H. rewrite (IH _ _ _ E). destruct (line_event b1 c) as [[m' b4]| |]; cbn [obind]; auto.
    destruct m; reflexivity.
Qed.

Lemma prompt_partial chunks : forall lines b,
  (forall k, count_crlf (concat (firstn (S k) chunks)) <= S (count_crlf (concat (firstn k chunks)))) ->
  line_run new_buf chunks = Ok (lines, b) ->
  has_crlf (as_string b) = false /\ length lines = count_crlf (concat chunks).
Proof.
  induction chunks as [|c cs IH] using rev_ind; intros lines b H E.
  - cbn in E. inv E. split; reflexivity.
  - destruct (line_run_spec cs new_buf binv_new) as (ls1 & b1 & E1 & I1 & S1 & F1).
    assert (Hc : forall k, count_crlf (concat (firstn (S k) cs)) <= S (count_crlf (concat (firstn k cs)))).
    { intro k. destruct (le_lt_dec (S k) (length cs)) as [Hk|Hk].
      - specialize (H k). rewrite !firstn_app in H.
        replace (S k - length cs) with 0 in H by lia. replace (k - length cs) with 0 in H by lia.
        simpl (firstn 0 [c]) in H. rewrite !app_nil_r in H. exact H.
      - rewrite !firstn_all2 by lia. lia. }
    destruct (IH _ _ Hc E1) as [N1 L1].
    pose proof (line_run_spec (cs ++ [c]) new_buf binv_new) as (ls & b' & E' & I' & S' & F').
    rewrite E in E'. injection E' as <- <-.
    change (as_string new_buf) with (@nil Z) in *. cbn [app] in S', S1.
    assert (Hcount : count_crlf (concat (cs ++ [c])) <= S (length ls1)).
    { specialize (H (length cs)). rewrite firstn_all2 in H by (rewrite app_length; simpl; lia).
      rewrite firstn_app, firstn_all, Nat.sub_diag, app_nil_r in H. lia. }
    rewrite (line_run_snoc _ _ _ _ _ E1) in E. unfold line_event in E.
    destruct (write_spec b1 c I1) as (b2 & E2 & I2 & S2). rewrite E2 in E. cbn [obind] in E.
    destruct (line_on_data b2) as [m b3] eqn:E3. injection E as <- <-.
    destruct (on_data_spec b2 m b3 I2 E3) as [I3 S3].
    rewrite S' in Hcount |- *. rewrite count_frames in Hcount |- * by auto.
    destruct m as [l|].
    + rewrite app_length in *. simpl in *. assert (count_crlf (as_string b3) = 0) by lia.
      split; [now apply count_zero|lia].
    + destruct S3 as [S3 N3]. rewrite S3 in *. split; auto. apply count_zero in N3. lia.
Qed.
