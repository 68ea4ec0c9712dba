(** Streams do not interfere; what a whole request does. *)
From Verif.Model Require Import Common Http StrUtil H2Token H2Conn.
From Verif.Spec Require Import H2Spec.
From Verif.Proofs Require Import Tac H2Proofs H2Proofs2.
Local Open Scope Z_scope.

(** Lookup after the three changes of the map. *)
Lemma find_upd sid k f l : find sid (upd k f l) = if k =? sid then option_map f (find sid l) else find sid l.
Proof.
  induction l as [|[k' s] l IH]; cbn; [destruct (k =? sid); reflexivity|]. destruct (k' =? k) eqn:E.
  - apply Z.eqb_eq in E. subst k'. cbn. destruct (k =? sid); reflexivity.
  - cbn. destruct (k' =? sid) eqn:F; [|exact IH]. apply Z.eqb_eq in F. subst k'. rewrite Z.eqb_sym, E. reflexivity.
Qed.
Lemma find_del sid k l : find sid (del k l) = if k =? sid then None else find sid l.
Proof.
  unfold del. induction l as [|[k' s] l IH]; cbn; [destruct (k =? sid); reflexivity|]. destruct (k' =? k) eqn:E; cbn.
  - apply Z.eqb_eq in E. subst k'. rewrite IH. destruct (k =? sid); reflexivity.
  - rewrite IH. destruct (k' =? sid) eqn:F; [|reflexivity]. apply Z.eqb_eq in F. subst k'. rewrite Z.eqb_sym, E. reflexivity.
Qed.
Lemma find_add sid k s l : find sid (add k s l) = match find sid l with Some x => Some x | None => if k =? sid then Some s else None end.
Proof.
  unfold add. destruct (find k l) eqn:E; cbn.
  - destruct (find sid l) eqn:F; [reflexivity|]. destruct (k =? sid) eqn:G; [|reflexivity]. apply Z.eqb_eq in G. subst. congruence.
  - destruct (k =? sid) eqn:G; [|destruct (find sid l); reflexivity]. apply Z.eqb_eq in G. subst. rewrite E. reflexivity.
Qed.

(** All there is to see of one stream. *)
Record view := View { v_st : option stream; v_shut : bool; v_reqs : list request; v_ans : list frame }.
Definition look (sid : Z) (c : h2) : view := View (find sid (ctxs c)) (existsb (Z.eqb sid) (shut_wr c)) (requests sid c) (answer sid c).
Section Sid.
Variable handler : request -> response.
Variable sid : Z.
Definition vmap (f : stream -> stream) (v : view) : view := View (option_map f (v_st v)) (v_shut v) (v_reqs v) (v_ans v).
Definition fields_of (r : response) : kvmap := match nvs (r_headers r) with Ok hs => hs | _ => [] end.
Definition vsend (v : view) (s : stream) (r : response) : view :=
  if v_shut v then View None true (v_reqs v) (v_ans v ++ [FRst sid])
  else View (match r_body r with [] => Some s | _ => Some (Stream (x_req s) (x_resp s) true) end) true (v_reqs v) (v_ans v ++ carries sid r (fields_of r)).
Definition vdispatch (v : view) : view :=
  match v_st v with
  | None => v
  | Some s => let r := handler (x_req s) in
      let s := Stream (x_req s) (Some r) (x_sent s) in
      vsend (View (Some s) (v_shut v) (v_reqs v ++ [x_req s]) (v_ans v)) s r
  end.
Definition vstep (v : view) (e : event) : view :=
  match e with
  | EBegin _ => View (match v_st v with Some s => Some s | None => Some (Stream new_request None false) end) (v_shut v) (v_reqs v) (v_ans v)
  | EHeader _ n w => vmap (on_req (on_header n w)) v
  | EHeaders _ _ _ => vdispatch v
  | EChunk _ b => vmap (on_req (on_chunk b)) v
  | EData _ fin _ => if fin then vdispatch v else v
  | ETrailers _ _ => v
  | EClose _ => View None (v_shut v) (v_reqs v) (v_ans v)
  | EPush _ _ _ _ _ _ => v
  end.

Lemma ans_app k c fs : answer k (emit c fs) = answer k c ++ filter (answer_frame k) fs.
Proof. unfold answer. cbn. apply filter_app. Qed.
(** A response goes to its own stream. *)
Lemma send_look c k r lim c' ok s : SendResponse c k r lim = Ok (c', ok) -> ok = true -> find k (ctxs c) = Some s ->
  (existsb (Z.eqb k) (shut_wr c) = false -> x_sent s = false) -> x_resp s = Some r ->
  h_dead c' = h_dead c /\ handled c' = handled c /\ look sid c' = if k =? sid then vsend (look sid c) s r else look sid c.
Proof.
  unfold SendResponse, vsend, fields_of. intros H -> F X P. destruct (nvs (r_headers r)) as [hs| |] eqn:N; cbn [obind] in H; try discriminate.
  destruct (existsb (Z.eqb k) (shut_wr c)) eqn:Sh.
  - inv H. split; [reflexivity|]. split; [reflexivity|]. unfold look. cbn [ctxs shut_wr set_ctxs emit]. rewrite find_del.
    destruct (k =? sid) eqn:E.
    + apply Z.eqb_eq in E. subst k. cbn. rewrite Sh. f_equal. unfold answer. cbn. rewrite filter_app. cbn. rewrite Z.eqb_refl. reflexivity.
    + f_equal. unfold answer. cbn. rewrite filter_app. cbn. rewrite E, app_nil_r. reflexivity.
  - unfold carries. destruct (r_body r) as [|b bs] eqn:B.
    + inv H. split; [reflexivity|]. split; [reflexivity|]. unfold look. cbn [ctxs shut_wr shut set_ctxs emit existsb].
      destruct (k =? sid) eqn:E.
      * apply Z.eqb_eq in E. subst k. cbn. rewrite Sh, Z.eqb_refl, F. cbn. f_equal. unfold answer. cbn. rewrite filter_app. cbn. rewrite Z.eqb_refl. reflexivity.
      * rewrite Z.eqb_sym, E. cbn. f_equal. unfold answer. cbn. rewrite filter_app. cbn. rewrite E, app_nil_r. reflexivity.
    + cbn [ctxs emit] in H. rewrite F in H. unfold provider_len, payload in H. rewrite (X eq_refl), P, B in H. destruct (Nat.ltb _ _); inv H.
      split; [reflexivity|]. split; [reflexivity|]. unfold look. cbn [ctxs shut_wr shut set_ctxs emit existsb]. rewrite find_upd.
      destruct (k =? sid) eqn:E.
      * apply Z.eqb_eq in E. subst k. cbn. rewrite Sh, Z.eqb_refl, F. cbn. f_equal. unfold answer. cbn. rewrite !filter_app. cbn. rewrite Z.eqb_refl.
        rewrite <- app_assoc. reflexivity.
      * rewrite Z.eqb_sym, E. cbn. f_equal. unfold answer. cbn. rewrite !filter_app. cbn. rewrite E, !app_nil_r. reflexivity.
Qed.
(** A stream is marked as answered only when its sending side is closed. *)
Definition settled (c : h2) : Prop := forall k s, find k (ctxs c) = Some s -> x_sent s = true -> existsb (Z.eqb k) (shut_wr c) = true.
Lemma settled_unsent c k s : settled c -> find k (ctxs c) = Some s -> existsb (Z.eqb k) (shut_wr c) = false -> x_sent s = false.
Proof. intros S F E. destruct (x_sent s) eqn:X; [|reflexivity]. rewrite (S k s F X) in E. discriminate. Qed.
Lemma send_settled c k r lim c' ok : SendResponse c k r lim = Ok (c', ok) -> settled c -> settled c'.
Proof.
  unfold SendResponse. intros H S. destruct (nvs (r_headers r)) as [hs| |]; cbn [obind] in H; try discriminate.
  destruct (existsb _ _) eqn:Sh.
  - inv H. intros j s F X. cbn [ctxs set_ctxs emit shut_wr] in *. rewrite find_del in F. destruct (k =? j); [discriminate|]. exact (S j s F X).
  - assert (G : forall c0, shut_wr c0 = shut_wr c -> ctxs c0 = ctxs c -> settled c0) by (intros c0 A B j s F X; rewrite A; rewrite B in F; exact (S j s F X)).
    destruct (r_body r) as [|b bs].
    + inv H. intros j s F X. cbn in *. rewrite (S j s F X). apply orb_true_r.
    + destruct (Nat.ltb _ _); [inv H; apply G; reflexivity|]. cbn [ctxs emit] in H. destruct (find k (ctxs c)) eqn:Fk; inv H; [|apply G; reflexivity].
      intros j s' F X. cbn [ctxs set_ctxs emit shut_wr shut existsb] in *. rewrite find_upd in F. destruct (j =? k) eqn:E; [reflexivity|].
      rewrite Z.eqb_sym, E in F. exact (S j s' F X).
Qed.
Lemma upd_settled c k f : (forall s, x_sent (f s) = x_sent s) -> settled c -> settled (set_ctxs c (upd k f (ctxs c))).
Proof.
  intros P S j s F X. cbn [ctxs set_ctxs shut_wr] in *. rewrite find_upd in F. destruct (k =? j) eqn:E; [|exact (S j s F X)].
  destruct (find j (ctxs c)) eqn:G; [|discriminate]. injection F as <-. rewrite P in X. exact (S j _ G X).
Qed.
Lemma add_settled c k st : x_sent st = false -> settled c -> settled (set_ctxs c (add k st (ctxs c))).
Proof.
  intros P S j s F X. cbn [ctxs set_ctxs shut_wr] in *. rewrite find_add in F. destruct (find j (ctxs c)) eqn:G.
  - injection F as <-. exact (S j _ G X).
  - destruct (k =? j); [|discriminate]. injection F as <-. congruence.
Qed.
Lemma look_set c f k : look sid (set_ctxs c (upd k f (ctxs c))) = if k =? sid then vmap f (look sid c) else look sid c.
Proof. unfold look, vmap. cbn [ctxs set_ctxs shut_wr]. rewrite find_upd. destruct (k =? sid); reflexivity. Qed.
Lemma dispatch_look c k lim c' : dispatch handler c k lim = Ok c' -> settled c -> h_dead c = false -> h_dead c' = false ->
  settled c' /\ look sid c' = if k =? sid then vdispatch (look sid c) else look sid c.
Proof.
  unfold dispatch, vdispatch. intros H S A D. destruct (find k (ctxs c)) as [s|] eqn:F.
  2:{ inv H. split; [exact S|]. destruct (k =? sid) eqn:E; [|reflexivity]. apply Z.eqb_eq in E. subst k. cbn. rewrite F. reflexivity. }
  set (r := handler (x_req s)) in *.
  match type of H with obind (SendResponse ?x _ _ _) _ = _ => set (c1 := x) in * end.
  assert (S1 : settled c1). { apply (upd_settled (note c k (x_req s)) k); [reflexivity|exact S]. }
  assert (F1 : find k (ctxs c1) = Some (Stream (x_req s) (Some r) (x_sent s))).
  { unfold c1. cbn [ctxs set_ctxs note]. rewrite find_upd, Z.eqb_refl, F. reflexivity. }
  destruct (SendResponse c1 k r lim) as [[c2 ok]| |] eqn:R; cbn [obind] in H; try discriminate. injection H as <-.
  assert (S2 := send_settled _ _ _ _ _ _ R S1). destruct ok; [|discriminate].
  split; [exact S2|]. destruct (send_look _ _ _ _ _ _ _ R eq_refl F1 (settled_unsent _ _ _ S1 F1) eq_refl) as (_ & _ & L). rewrite L.
  assert (Q : requests sid c1 = requests sid c ++ if k =? sid then [x_req s] else []).
  { unfold requests, c1. cbn [handled set_ctxs note]. rewrite filter_app, map_app. cbn [filter fst]. destruct (k =? sid); reflexivity. }
  destruct (k =? sid) eqn:E.
  - apply Z.eqb_eq in E. subst k. cbn [look v_st]. rewrite F. unfold vsend. cbn [look v_shut v_reqs v_ans]. rewrite Q. reflexivity.
  - rewrite app_nil_r in Q. unfold look. rewrite Q. unfold c1. cbn [ctxs set_ctxs note shut_wr]. rewrite find_upd, E. reflexivity.
Qed.
Lemma send_other c k r lim c' ok : SendResponse c k r lim = Ok (c', ok) -> (k =? sid) = false -> h_dead c' = h_dead c /\ look sid c' = look sid c.
Proof.
  unfold SendResponse. intros H E. destruct (nvs (r_headers r)) as [hs| |] eqn:N; cbn [obind] in H; try discriminate.
  assert (E' : (sid =? k) = false) by (rewrite Z.eqb_sym; exact E).
  destruct (existsb (Z.eqb k) (shut_wr c)) eqn:Sh.
  - inv H. split; [reflexivity|]. unfold look. cbn [ctxs shut_wr set_ctxs emit]. rewrite find_del, E. f_equal. unfold answer. cbn. rewrite filter_app. cbn. rewrite E, app_nil_r. reflexivity.
  - destruct (r_body r) as [|b bs] eqn:B.
    + inv H. split; [reflexivity|]. unfold look. cbn [ctxs shut_wr shut set_ctxs emit existsb]. rewrite E'. cbn. f_equal. unfold answer. cbn. rewrite filter_app. cbn. rewrite E, app_nil_r. reflexivity.
    + cbn [ctxs emit] in H. destruct (Nat.ltb _ _); [inv H; split; [reflexivity|]; unfold look; cbn [ctxs shut_wr emit]; f_equal; unfold answer; cbn; rewrite filter_app; cbn; rewrite E, app_nil_r; reflexivity|].
      destruct (find k (ctxs c)); inv H; (split; [reflexivity|]); unfold look; cbn [ctxs shut_wr shut set_ctxs emit existsb]; rewrite ?find_upd, ?E, ?E'; cbn; f_equal; unfold answer; cbn;
        rewrite !filter_app; cbn; rewrite E, !app_nil_r; reflexivity.
Qed.
Definition pushes (e : event) : bool := match e with EPush _ _ _ _ _ _ => true | _ => false end.
Lemma step_look c e c' : (concerns sid e = true -> pushes e = false) -> step handler c e = Ok c' -> settled c -> h_dead c = false -> h_dead c' = false ->
  settled c' /\ look sid c' = if concerns sid e then vstep (look sid c) e else look sid c.
Proof.
  unfold step. intros NP H S A D. rewrite A in H. destruct e as [k|k n v|k fin lim|k b|k fin lim|k fin|k|k [pid|] m p r lim]; cbn [concerns vstep].
  - inv H. split; [apply add_settled; [reflexivity|exact S]|]. unfold look. cbn [ctxs set_ctxs shut_wr v_st v_shut v_reqs v_ans]. rewrite find_add.
    destruct (k =? sid); [reflexivity|]. destruct (find sid (ctxs c)); reflexivity.
  - inv H. split; [apply upd_settled; [reflexivity|exact S]|]. apply look_set.
  - exact (dispatch_look _ _ _ _ H S A D).
  - inv H. split; [apply upd_settled; [reflexivity|exact S]|]. apply look_set.
  - destruct fin; [exact (dispatch_look _ _ _ _ H S A D)|]. inv H. split; [exact S|]. destruct (k =? sid); reflexivity.
  - inv H. split; [exact S|]. destruct (k =? sid); reflexivity.
  - inv H. split.
    + intros j s F X. cbn [ctxs set_ctxs shut_wr] in *. rewrite find_del in F. destruct (k =? j); [discriminate|]. exact (S j s F X).
    + unfold look. cbn [ctxs set_ctxs shut_wr v_shut v_reqs v_ans]. rewrite find_del. destruct (k =? sid); reflexivity.
  - cbn in NP. destruct (pid =? sid) eqn:E; [discriminate (NP eq_refl)|]. unfold PushPromise in H. destruct (find k (ctxs c)) eqn:Fk; [|inv H; split; [exact S|reflexivity]].
    destruct (find pid (ctxs c)) eqn:Fp; [discriminate|].
    match type of H with obind (SendResponse ?x _ _ _) _ = _ => set (c1 := x) in * end.
    assert (S1 : settled c1). { apply (add_settled (emit c [FPush k pid m p])); [reflexivity|exact S]. }
    destruct (SendResponse c1 pid r lim) as [[c2 ok]| |] eqn:R; cbn [obind] in H; try discriminate. injection H as <-.
    split; [exact (send_settled _ _ _ _ _ _ R S1)|]. destruct (send_other _ _ _ _ _ _ R E) as [_ L]. change (look sid c2 = look sid c). rewrite L.
    unfold look, c1. cbn [ctxs set_ctxs emit shut_wr]. rewrite find_add, E. f_equal; [destruct (find sid (ctxs c)); reflexivity|].
    unfold answer. cbn. rewrite filter_app. cbn. rewrite app_nil_r. reflexivity.
  - unfold PushPromise in H. destruct (find k (ctxs c)); inv H; (split; [exact S|reflexivity]).
Qed.
Lemma dead_run es : forall c, h_dead c = true -> run handler c es = Ok c.
Proof. induction es as [|e es IH]; intros c D; [reflexivity|]. cbn. unfold step. rewrite D. cbn. apply IH. exact D. Qed.
Lemma run_look es : (forall e, In e (on_stream sid es) -> pushes e = false) -> forall c c', run handler c es = Ok c' -> settled c -> h_dead c' = false ->
  settled c' /\ look sid c' = fold_left vstep (on_stream sid es) (look sid c).
Proof.
  induction es as [|e es IH]; intros NP c c' H S D; cbn in H.
  - inv H. split; [exact S|reflexivity].
  - destruct (h_dead c) eqn:A.
    { unfold step in H. rewrite A in H. cbn in H. rewrite dead_run in H by exact A. inv H. congruence. }
    destruct (step handler c e) as [c1| |] eqn:E; cbn in H; try discriminate.
    assert (D1 : h_dead c1 = false). { destruct (h_dead c1) eqn:D1; [|reflexivity]. rewrite dead_run in H by exact D1. inv H. congruence. }
    unfold on_stream in *. cbn [filter] in *.
    destruct (step_look c e c1) as [S1 L1]; try assumption.
    { intros Co. apply NP. rewrite Co. left. reflexivity. }
    destruct (IH ltac:(intros e' I; apply NP; destruct (concerns sid e); [right; exact I|exact I]) _ _ H S1 D) as [S2 L2].
    split; [exact S2|]. rewrite L2, L1. destruct (concerns sid e); reflexivity.
Qed.

(** A whole request, on a stream that was not seen before. *)
Definition fresh : view := View None false [] [].
Lemma look_new : look sid new_h2 = fresh. Proof. reflexivity. Qed.
Lemma settled_new : settled new_h2. Proof. intros k s F. discriminate F. Qed.
Definition answer_to (q : request) : list frame := carries sid (handler q) (fields_of (handler q)).
Lemma fold_fields fields : forall s sh rs an, fold_left vstep (map (fun f => EHeader sid (fst f) (snd f)) fields) (View (Some s) sh rs an) =
  View (Some (on_req (fill fields) s)) sh rs an.
Proof.
  induction fields as [|[n v] fields IH]; intros s sh rs an; cbn [map fold_left].
  - destruct s as [q r x]. reflexivity.
  - exact (IH (on_req (on_header n v) s) sh rs an).
Qed.
Definition marked (q : request) : option stream :=
  Some (Stream q (Some (handler q)) (match r_body (handler q) with [] => false | _ => true end)).
Lemma fold_head fields fin lim : let q := fill fields new_request in
  fold_left vstep (head sid fields fin lim) fresh = View (marked q) true [q] (answer_to q).
Proof.
  cbn zeta. unfold head. cbn [fold_left]. change (vstep fresh (EBegin sid)) with (View (Some (Stream new_request None false)) false [] []).
  rewrite fold_left_app, fold_fields. cbn [fold_left vstep].
  unfold vdispatch, vsend. cbn [v_st v_shut v_reqs v_ans on_req x_req x_sent x_resp app]. unfold marked, answer_to.
  destruct (r_body (handler (fill fields new_request))); reflexivity.
Qed.
Lemma chunk_chunk a b q : on_chunk b (on_chunk a q) = on_chunk (a ++ b) q.
Proof. unfold on_chunk. cbn. rewrite app_assoc. reflexivity. Qed.
Lemma chunk_nil q : on_chunk [] q = q.
Proof. destruct q. unfold on_chunk. cbn. rewrite app_nil_r. reflexivity. Qed.
Lemma fold_chunks bs : forall s sh rs an, fold_left vstep (map (EChunk sid) bs) (View (Some s) sh rs an) = View (Some (on_req (on_chunk (concat bs)) s)) sh rs an.
Proof.
  induction bs as [|b bs IH]; intros s sh rs an; cbn [map fold_left concat].
  - unfold on_req. rewrite chunk_nil. destruct s; reflexivity.
  - change (fold_left vstep (map (EChunk sid) bs) (View (Some (on_req (on_chunk b) s)) sh rs an) = View (Some (on_req (on_chunk (b ++ concat bs)) s)) sh rs an).
    rewrite IH. unfold on_req. cbn [x_req x_resp x_sent]. rewrite chunk_chunk. reflexivity.
Qed.
Lemma fold_frames frames : forall s sh rs an, fold_left vstep (concat (map (data_frame sid false 0) frames)) (View (Some s) sh rs an) =
  View (Some (on_req (on_chunk (body_of frames)) s)) sh rs an.
Proof.
  unfold body_of. induction frames as [|f frames IH]; intros s sh rs an; cbn [map concat].
  - cbn. unfold on_req. rewrite chunk_nil. destruct s; reflexivity.
  - rewrite fold_left_app. unfold data_frame at 2. rewrite fold_left_app, fold_chunks. cbn [fold_left vstep]. rewrite IH, concat_app.
    unfold on_req. cbn [x_req x_resp x_sent]. rewrite chunk_chunk. reflexivity.
Qed.
Lemma fold_with_body fields lim frames last lim' : let q := fill fields new_request in let q' := on_chunk (body_of frames ++ concat last) q in
  fold_left vstep (with_body sid fields lim frames last lim') fresh = View None true [q; q'] (answer_to q ++ [FRst sid]).
Proof.
  cbn zeta. unfold with_body. rewrite fold_left_app, fold_head. unfold marked. rewrite fold_left_app, fold_frames. unfold data_frame. rewrite fold_left_app, fold_chunks.
  cbn [fold_left vstep]. unfold vdispatch, vsend. cbn [v_st v_shut v_reqs v_ans on_req x_req]. rewrite chunk_chunk. reflexivity.
Qed.
Lemma fold_trailers fields lim frames : let q := fill fields new_request in
  exists st, fold_left vstep (with_trailers sid fields lim frames) fresh = View st true [q] (answer_to q).
Proof.
  cbn zeta. unfold with_trailers. rewrite fold_left_app, fold_head. unfold marked. rewrite fold_left_app, fold_frames. cbn [fold_left vstep]. eexists. reflexivity.
Qed.
End Sid.
