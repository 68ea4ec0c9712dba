(** Response header fields, response sizes, pushes. *)
From Verif.Model Require Import Common Http StrUtil H2Token H2Conn.
From Verif.Spec Require Import H2Spec.
From Verif.Proofs Require Import Tac HttpHeaders HttpDefaults H2Proofs H2Proofs2 H2Proofs3.
Local Open Scope Z_scope.

Lemma case_eq a b : tolower b = b -> (toupper a =? toupper b) = (tolower a =? b).
Proof.
  unfold toupper, tolower. intros H.
  destruct (65 <=? b) eqn:B1, (b <=? 90) eqn:B2, (97 <=? b) eqn:B3, (b <=? 122) eqn:B4, (65 <=? a) eqn:A1, (a <=? 90) eqn:A2, (97 <=? a) eqn:A3, (a <=? 122) eqn:A4;
    cbn [andb] in *; b2p; try lia; apply eq_true_iff_eq; rewrite !Z.eqb_eq; lia.
Qed.
Lemma ignore_case n : forall p, map tolower p = p -> apart n p -> IgnoreCaseEquals n p = Ok (same_name n p).
Proof.
  unfold same_name. induction n as [|a n IH]; intros [|b p] P A; cbn in *.
  - reflexivity.
  - destruct (A (b :: p)) as [A1 _]; [discriminate|]. exfalso. apply A1. reflexivity.
  - destruct (A (tolower a :: map tolower n)) as [_ A1]; [discriminate|]. exfalso. apply A1. reflexivity.
  - injection P as P1 P2. rewrite (case_eq a b P1). destruct (tolower a =? b) eqn:E.
    + apply Z.eqb_eq in E. rewrite IH; [|exact P2|].
      * reflexivity.
      * intros l L. destruct (A l L) as [X Y]. split; intros Q; [apply X|apply Y]; cbn; rewrite E, Q; reflexivity.
    + reflexivity.
Qed.
Lemma nvs_plain r : plain r -> nvs (r_headers r) = Ok (h2_fields (r_headers r)).
Proof.
  unfold plain. destruct r as [c hs b]. cbn [r_headers]. induction hs as [|[k v] hs IH]; intros P; [reflexivity|].
  destruct (P (k, v) (or_introl eq_refl)) as [P1 P2]. cbn [fst] in P1, P2. cbn [nvs].
  rewrite (ignore_case k s_connection eq_refl P1), (ignore_case k s_content_length eq_refl P2). cbn [obind]. unfold h2_fields. cbn [filter fst].
  rewrite IH by (intros f I; apply P; right; exact I).
  destruct (same_name k s_connection); [reflexivity|]. destruct (same_name k s_content_length); reflexivity.
Qed.

(** A connection survives when its answers are small. *)
Lemma send_small c sid r lim c' ok s : SendResponse c sid r lim = Ok (c', ok) -> find sid (ctxs c) = Some s -> x_resp s = Some r ->
  (List.length (r_body r) <= lim)%nat -> ok = true /\ h_dead c' = h_dead c.
Proof.
  unfold SendResponse. intros H F X L. destruct (nvs (r_headers r)); cbn [obind] in H; try discriminate.
  destruct (existsb _ _); [inv H; auto|]. destruct (r_body r) eqn:B; [inv H; auto|]. cbn [ctxs emit] in H. rewrite F in H. unfold provider_len in H. rewrite X, B in H.
  assert (Q : Nat.ltb lim (if x_sent s then O else List.length (z :: l)) = false) by (apply Nat.ltb_ge; destruct (x_sent s); lia). rewrite Q in H. inv H. auto.
Qed.
Lemma dispatch_small handler c sid lim c' : dispatch handler c sid lim = Ok c' -> h_dead c = false -> (forall q, List.length (r_body (handler q)) <= lim)%nat -> h_dead c' = false.
Proof.
  unfold dispatch. intros H D L. destruct (find sid (ctxs c)) as [s|] eqn:F; [|inv H; exact D].
  match type of H with obind (SendResponse ?x _ ?r _) _ = _ => set (c1 := x) in *; set (r1 := r) in * end.
  assert (F1 : find sid (ctxs c1) = Some (Stream (x_req s) (Some r1) (x_sent s))).
  { unfold c1. cbn [ctxs set_ctxs note]. rewrite find_upd, Z.eqb_refl, F. reflexivity. }
  destruct (SendResponse c1 sid r1 lim) as [[c2 ok]| |] eqn:R; cbn [obind] in H; try discriminate.
  destruct (send_small _ _ _ _ _ _ _ R F1 eq_refl (L _)) as [-> E]. injection H as <-. rewrite E. exact D.
Qed.
Lemma send_dead c sid r lim c' ok : SendResponse c sid r lim = Ok (c', ok) -> h_dead c' = h_dead c.
Proof.
  unfold SendResponse. intros H. destruct (nvs (r_headers r)); cbn [obind] in H; try discriminate.
  destruct (existsb _ _); [inv H; reflexivity|]. destruct (r_body r); [inv H; reflexivity|]. cbn [ctxs emit] in H. destruct (Nat.ltb _ _); [inv H; reflexivity|].
  destruct (find sid (ctxs c)); inv H; reflexivity.
Qed.
Lemma step_small handler c e c' : step handler c e = Ok c' -> h_dead c = false ->
  (forall lim q, room e = Some lim -> List.length (r_body (handler q)) <= lim)%nat -> h_dead c' = false.
Proof.
  unfold step. intros H D R. rewrite D in H. destruct e as [k|k n v|k f lim|k b|k f lim|k f|k|k pid m p r lim]; try (inv H; exact D).
  - apply (dispatch_small _ _ _ _ _ H D). intros q. apply R. reflexivity.
  - destruct f; [|inv H; exact D]. apply (dispatch_small _ _ _ _ _ H D). intros q. apply R. reflexivity.
  - unfold PushPromise in H. destruct (find k (ctxs c)); [|inv H; exact D]. destruct pid as [pid|]; [|inv H; exact D]. destruct (find pid (ctxs c)); [discriminate|].
    match type of H with obind (SendResponse ?x _ ?r _) _ = _ => destruct (SendResponse x pid r lim) as [[c2 ok]| |] eqn:E end; cbn [obind] in H; try discriminate.
    injection H as <-. apply send_dead in E. cbn. rewrite E. exact D.
Qed.
Lemma run_small handler es : (forall e lim q, In e es -> room e = Some lim -> List.length (r_body (handler q)) <= lim)%nat ->
  forall c c', run handler c es = Ok c' -> h_dead c = false -> h_dead c' = false.
Proof.
  induction es as [|e es IH]; intros R c c' H D; cbn in H; [inv H; exact D|].
  destruct (step handler c e) as [c1| |] eqn:E; cbn in H; try discriminate.
  apply (IH ltac:(intros e' lim q I; apply R; right; exact I) c1 c' H).
  apply (step_small _ _ _ _ E D). intros lim q. apply R. left. reflexivity.
Qed.
(** One that is larger than the client takes at once closes the connection. *)
Lemma dispatch_large handler c sid lim s hs : find sid (ctxs c) = Some s -> x_sent s = false -> existsb (Z.eqb sid) (shut_wr c) = false ->
  nvs (r_headers (handler (x_req s))) = Ok hs -> (lim < List.length (r_body (handler (x_req s))))%nat ->
  exists c', dispatch handler c sid lim = Ok c' /\ h_dead c' = true /\ answer sid c' = answer sid c ++ [FHeaders sid (r_code (handler (x_req s))) hs false].
Proof.
  intros F X S N L. unfold dispatch. rewrite F. cbn zeta. unfold SendResponse. rewrite N. cbn [obind shut_wr set_ctxs note]. rewrite S.
  destruct (r_body (handler (x_req s))) as [|b l] eqn:B; [cbn in L; lia|]. cbn [ctxs emit set_ctxs note]. rewrite find_upd, Z.eqb_refl, F. cbn [option_map].
  unfold provider_len. cbn [x_sent x_resp]. rewrite X, B. assert (Q : Nat.ltb lim (List.length (b :: l)) = true) by (apply Nat.ltb_lt; exact L). rewrite Q. cbn [obind].
  eexists. split; [reflexivity|]. split; [reflexivity|]. unfold answer. cbn. rewrite filter_app. cbn. rewrite Z.eqb_refl. reflexivity.
Qed.
