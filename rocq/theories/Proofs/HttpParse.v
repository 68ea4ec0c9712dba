(** The callback context. *)
From Coq Require Import String.
From Verif.Model Require Import Common Http.
From Verif.Spec Require Import HttpSpec.
From Verif.Proofs Require Import Tac HttpHeaders.
Open Scope Z_scope.

Section P.
Variable req : bool.
Variable gunzip inflate : list Z -> option (list Z).
Notation run := (on_events req gunzip inflate).
Notation step := (on_event req gunzip inflate).

Lemma run_app a : forall b s, run s (a ++ b) = obind (run s a) (fun s => run s b).
Proof.
  induction a as [|e a IH]; intros b s; cbn [app on_events]; [reflexivity|].
  destruct (step s e); cbn [obind]; auto.
Qed.
Lemma run_app_ok a b s s' : run s a = Ok s' -> run s (a ++ b) = run s' b.
Proof. intro H. rewrite run_app, H. reflexivity. Qed.
Lemma run_err es : forall s, p_err s = true -> run s es = Ok s.
Proof. induction es as [|e es IH]; intros s H; cbn [on_events]; [reflexivity|]. unfold on_event. rewrite H. cbn [obind]. auto. Qed.

Lemma run_urls us : req = true -> forall m fl f v out,
  run (mkpst (Some m) fl f v false out) (map EUrl us) = Ok (mkpst (Some (append_url m (concat us))) fl f v false out).
Proof.
  intro R. induction us as [|u us IH]; intros m fl f v out; cbn [map on_events concat].
  - unfold append_url. rewrite app_nil_r. destruct m; reflexivity.
  - assert (E : step (mkpst (Some m) fl f v false out) (EUrl u) = Ok (mkpst (Some (append_url m u)) fl f v false out))
      by (unfold on_event; cbn [p_err]; rewrite R; reflexivity).
    rewrite E. cbn [obind]. rewrite IH. unfold append_url. cbn. rewrite app_assoc. reflexivity.
Qed.
Lemma run_body us : forall m fl f v out,
  run (mkpst (Some m) fl f v false out) (map EBody us) =
  Ok (mkpst (Some (set_body m (m_body m ++ concat us))) fl f v false out).
Proof.
  induction us as [|u us IH]; intros m fl f v out; cbn [map on_events concat].
  - unfold set_body. rewrite app_nil_r. destruct m; reflexivity.
  - change (step (mkpst (Some m) fl f v false out) (EBody u)) with
      (Ok (mkpst (Some (set_body m (m_body m ++ u))) fl f v false out)).
    cbn [obind]. rewrite IH. unfold set_body. cbn. rewrite app_assoc. reflexivity.
Qed.
Lemma run_fields fs : forall m f v out,
  run (mkpst (Some m) false f v false out) (map EField fs) = Ok (mkpst (Some m) false (f ++ concat fs) v false out).
Proof.
  induction fs as [|u us IH]; intros m f v out; cbn [map on_events concat].
  - rewrite app_nil_r. reflexivity.
  - change (step (mkpst (Some m) false f v false out) (EField u)) with (Ok (mkpst (Some m) false (f ++ u) v false out)).
    cbn [obind]. rewrite IH, app_assoc. reflexivity.
Qed.
Lemma run_values fs : forall m fl f v out, fs <> [] ->
  run (mkpst (Some m) fl f v false out) (map EValue fs) = Ok (mkpst (Some m) true f (v ++ concat fs) false out).
Proof.
  induction fs as [|u us IH]; intros m fl f v out N; [congruence|]. cbn [map on_events concat].
  change (step (mkpst (Some m) fl f v false out) (EValue u)) with (Ok (mkpst (Some m) true f (v ++ u) false out)).
  cbn [obind]. destruct us as [|u' us].
  - cbn. rewrite app_nil_r. reflexivity.
  - rewrite IH by discriminate. rewrite app_assoc. reflexivity.
Qed.

Definition hmap (m : msg) (k v : list Z) : msg := set_headers m (insert_header k v (m_headers m)).
Definition put (m : msg) (hs : list (list Z * list Z)) : msg := set_headers m (hins hs (m_headers m)).
Lemma put_nil m : put m [] = m. Proof. destruct m; reflexivity. Qed.
Lemma put_app m a b : put (put m a) b = put m (a ++ b).
Proof. unfold put. cbn. rewrite hins_app. reflexivity. Qed.

(** one pair, starting with no pending value *)
Lemma run_pair0 ps k v m f0 v0 out : pieces_of ps (k, v) ->
  run (mkpst (Some m) false f0 v0 false out) (pair_events ps) = Ok (mkpst (Some m) true (f0 ++ k) (v0 ++ v) false out).
Proof.
  intros (H1 & H2 & H3 & H4). cbn [fst snd] in *. subst. unfold pair_events.
  rewrite (run_app_ok _ _ _ _ (run_fields _ _ _ _ _)). apply run_values. assumption.
Qed.
(** one pair, with a pending one *)
Lemma run_pair1 ps k v m f0 v0 out : pieces_of ps (k, v) ->
  run (mkpst (Some m) true f0 v0 false out) (pair_events ps) = Ok (mkpst (Some (put m [(f0, v0)])) true k v false out).
Proof.
  intros (H1 & H2 & H3 & H4). cbn [fst snd] in *. subst. unfold pair_events. destruct (fst ps) as [|p fs]; [congruence|].
  cbn [map app on_events].
  change (step (mkpst (Some m) true f0 v0 false out) (EField p)) with
    (Ok (mkpst (Some (put m [(f0, v0)])) false p [] false out)).
  cbn [obind]. rewrite (run_app_ok _ _ _ _ (run_fields _ _ _ _ _)). rewrite run_values by assumption. reflexivity.
Qed.
(** any number of pairs after a pending one *)
Lemma run_pairs1 pss : forall hs m f0 v0 out, Forall2 pieces_of pss hs ->
  run (mkpst (Some m) true f0 v0 false out) (concat (map pair_events pss)) =
  Ok (mkpst (Some (put m (removelast ((f0, v0) :: hs)))) true
        (fst (last hs (f0, v0))) (snd (last hs (f0, v0))) false out).
Proof.
  induction pss as [|ps pss IH]; intros hs m f0 v0 out H; inversion H; subst.
  - cbn. rewrite put_nil. reflexivity.
  - destruct y as [k v]. cbn [map concat]. rewrite (run_app_ok _ _ _ _ (run_pair1 _ _ _ _ _ _ _ H2)).
    rewrite (IH l'); [|assumption]. rewrite put_app. change (removelast ((f0, v0) :: (k, v) :: l')) with
      ((f0, v0) :: removelast ((k, v) :: l')). cbn [app].
    replace (last ((k, v) :: l') (f0, v0)) with (last l' (k, v)); [reflexivity|].
    clear. revert k v. induction l' as [|[k' v'] l IH]; intros k v; [reflexivity|].
    change (last ((k, v) :: (k', v') :: l) (f0, v0)) with (last ((k', v') :: l) (f0, v0)). rewrite <- IH.
    destruct l as [|x l]; [reflexivity|].
    change (last ((k', v') :: x :: l) (k, v)) with (last (x :: l) (k, v)).
    clear. revert x. induction l as [|y l IH]; intro x; [reflexivity|]. 
    change (last (y :: l) (k, v) = last (y :: l) (k', v')). apply IH.
Qed.

(** What is left in half_hdr_value_ after a message with these trailers. *)
Definition carry (ts : list (list Z * list Z)) : list Z := snd (last ts ([], [])).
(** The header list a message gets when [c] was left over. *)
Definition prefixed (c : list Z) (hs : list (list Z * list Z)) : list (list Z * list Z) :=
  match hs with [] => [] | (k, v) :: hs => (k, c ++ v) :: hs end.

Lemma last_cons {A} (x : A) l d d' : last (x :: l) d = last (x :: l) d'.
Proof. revert x. induction l as [|y l IH]; intro x; [reflexivity|]. exact (IH y). Qed.
Lemma last_default {A} (l : list A) d d' : l <> [] -> last l d = last l d'.
Proof. destruct l; [congruence|]. intros _. apply last_cons. Qed.
Lemma removelast_last {A} (l : list A) d : l <> [] -> removelast l ++ [last l d] = l.
Proof. intro H. symmetry. apply app_removelast_last. assumption. Qed.
Lemma insert_empty v m : insert_header [] v m = m. Proof. reflexivity. Qed.

(** The header section. *)
Lemma run_headers pss hs m c out : Forall2 pieces_of pss hs -> Forall (fun kv => fst kv <> []) hs ->
  run (mkpst (Some m) false [] c false out) (concat (map pair_events pss) ++ [EHeadersDone]) =
  Ok (mkpst (Some (put m (prefixed c hs))) (match hs with [] => false | _ => true end) [] [] false out).
Proof.
  intros H G. destruct H as [|ps [k v] pss hs Hp H].
  - cbn. rewrite put_nil. reflexivity.
  - cbn [map concat]. rewrite <- app_assoc. rewrite (run_app_ok _ _ _ _ (run_pair0 _ _ _ _ _ _ _ Hp)). cbn [app].
    rewrite (run_app_ok _ _ _ _ (run_pairs1 _ _ _ _ _ _ H)). inversion G as [|? ? Gk G']; subst. cbn [fst] in Gk.
    cbn [on_events prefixed].
    set (L := (k, c ++ v) :: hs). assert (LN : L <> []) by discriminate.
    assert (E : last hs (k, c ++ v) = last L ([], [])).
    { unfold L. destruct hs as [|x hs]; [reflexivity|]. change (last (x :: hs) (k, c ++ v) = last (x :: hs) ([], [])).
      apply last_cons. }
    rewrite E. assert (Hin : In (last L ([], [])) L).
    { rewrite (app_removelast_last ([], []) LN) at 2. apply in_or_app. right. left. reflexivity. }
    assert (NE : fst (last L ([], [])) <> []).
    { unfold L in Hin at 2. destruct Hin as [Hin|Hin]; [rewrite <- Hin; exact Gk|].
      rewrite Forall_forall in G'. apply G'. assumption. }
    destruct (last L ([], [])) as [k1 v1] eqn:EL. cbn [fst snd] in *.
    unfold on_event. cbn [p_err p_field p_value p_cur p_flag p_out]. destruct k1 as [|x k1]; [congruence|].
    cbn [obind].
    assert (PE : put m L = put (put m (removelast L)) [(x :: k1, v1)]).
    { rewrite put_app. rewrite <- EL. rewrite (removelast_last L ([], []) LN). reflexivity. }
    rewrite PE. reflexivity.
Qed.

(** Trailers, after the header section. *)
Lemma run_trailers pss ts m fl out : Forall2 pieces_of pss ts ->
  exists fl' f, run (mkpst (Some m) fl [] [] false out) (concat (map pair_events pss)) =
    Ok (mkpst (Some (put m (removelast ts))) fl' f (carry ts) false out).
Proof.
  intro H. destruct H as [|ps [k v] pss hs Hp H].
  - exists fl, []. cbn. rewrite put_nil. reflexivity.
  - exists true, (fst (last hs (k, v))). cbn [map concat].
    assert (E1 : run (mkpst (Some m) fl [] [] false out) (pair_events ps) = Ok (mkpst (Some m) true k v false out)).
    { destruct fl; [|rewrite (run_pair0 _ _ _ _ _ _ _ Hp); reflexivity].
      rewrite (run_pair1 _ _ _ _ _ _ _ Hp). unfold put, hins. cbn [fold_left fst snd]. rewrite insert_empty.
      destruct m; reflexivity. }
    rewrite (run_app_ok _ _ _ _ E1). rewrite (run_pairs1 _ _ _ _ _ _ H). unfold carry.
    replace (last ((k, v) :: hs) ([], [])) with (last hs (k, v)); [reflexivity|].
    destruct hs as [|x hs]; [reflexivity|]. change (last (x :: hs) (k, v) = last (x :: hs) ([], [])). apply last_cons.
Qed.

(** The message built from [w] when [c] was left over. *)
Definition built (c : list Z) (w : wmsg) : msg :=
  set_body (put (append_url new_msg (w_url w)) (prefixed c (w_headers w) ++ removelast (w_trailers w))) (w_body w).

Lemma set_body_put m hs b : put (set_body m b) hs = set_body (put m hs) b.
Proof. reflexivity. Qed.

Lemma run_msg w es s : reports w es -> Forall (fun kv => fst kv <> []) (w_headers w) -> (req = false -> w_url w = []) ->
  p_err s = false -> exists fl f,
  run s es = match on_message_parsed req gunzip inflate (built (p_value s) w) (w_info w) with
             | Some m => Ok (mkpst None fl f (carry (w_trailers w)) false (p_out s ++ [m]))
             | None => Ok (mkpst (Some (built (p_value s) w)) fl f (carry (w_trailers w)) true (p_out s))
             end.
Proof.
  intros (us & ps & bp & ts & E & Eu & Eu0 & Eh & Eb & Et) Hn Hr He. subst es.
  destruct (run_trailers ts (w_trailers w) (set_body (put (append_url new_msg (w_url w)) (prefixed (p_value s) (w_headers w))) (w_body w))
            (match w_headers w with [] => false | _ => true end) (p_out s) Et) as (fl & f & Ht).
  exists fl, f.
  assert (Eb1 : run s [EBegin] = Ok (mkpst (Some new_msg) false [] (p_value s) false (p_out s))).
  { cbn [on_events]. unfold on_event. rewrite He. reflexivity. }
  change (EBegin :: map EUrl us ++ ?x) with ([EBegin] ++ map EUrl us ++ x).
  rewrite (run_app_ok _ _ _ _ Eb1).
  assert (EU : run (mkpst (Some new_msg) false [] (p_value s) false (p_out s)) (map EUrl us) =
               Ok (mkpst (Some (append_url new_msg (w_url w))) false [] (p_value s) false (p_out s))).
  { destruct req eqn:R.
    - pose proof (run_urls us) as HU. rewrite R in HU. rewrite HU by reflexivity. rewrite Eu. reflexivity.
    - rewrite Hr by reflexivity. rewrite Eu0 by auto. reflexivity. }
  rewrite (run_app_ok _ _ _ _ EU). 
  change (EHeadersDone :: ?x) with ([EHeadersDone] ++ x). rewrite app_assoc.
  rewrite (run_app_ok _ _ _ _ (run_headers _ _ _ _ _ Eh Hn)).
  rewrite (run_app_ok _ _ _ _ (run_body _ _ _ _ _ _)).
  change (m_body (put (append_url new_msg (w_url w)) (prefixed (p_value s) (w_headers w)))) with (@nil Z).
  rewrite Eb. cbn [app]. rewrite (run_app_ok _ _ _ _ Ht). rewrite set_body_put, put_app. fold (built (p_value s) w).
  cbn [on_events]. unfold on_event. cbn [p_err p_cur p_flag p_field p_value p_out].
  destruct (on_message_parsed req gunzip inflate (built (p_value s) w) (w_info w)); reflexivity.
Qed.

Lemma is_prefix_spec p : forall l, is_prefix p l = true <-> exists b, l = p ++ b.
Proof.
  induction p as [|x p IH]; intro l; cbn [is_prefix app]; [split; eauto|]. destruct l as [|y l].
  - split; [discriminate|]. intros (b & H). discriminate.
  - rewrite andb_true_iff, IH, Z.eqb_eq. split.
    + intros (-> & b & ->). eauto.
    + intros (b & H). inv H. eauto.
Qed.
Lemma contains_spec p l : contains p l = true <-> occurs p l.
Proof.
  unfold occurs. induction l as [|y l IH]; cbn [contains]; rewrite orb_true_iff, is_prefix_spec.
  - split; [intros [(b & H)|H]; [exists [], b; assumption|discriminate]|]. intros (a & b & H). left.
    destruct a; [exists b; exact H|discriminate].
  - rewrite IH. split.
    + intros [(b & H)|(a & b & H)]; [exists [], b; assumption|]. exists (y :: a), b. cbn. congruence.
    + intros (a & b & H). destruct a as [|z a]; [left; exists b; exact H|]. inv H. right. eauto.
Qed.

Lemma nonul_ce : ~ In 0 (bs "Content-Encoding").
Proof. vm_compute. intro H. repeat (destruct H as [H|H]; [discriminate|]). destruct H. Qed.

Lemma enc_cases hs : namedok hs ->
  (exists v, first_value hs (bs "Content-Encoding") v /\ get_header (hins hs []) (bs "Content-Encoding") = v) \/
  ((forall v, ~ first_value hs (bs "Content-Encoding") v) /\ get_header (hins hs []) (bs "Content-Encoding") = []).
Proof.
  intro H. unfold get_header. rewrite hins_find; [|apply sorted_nil|apply namedok_ne; assumption].
  cbn [map_find]. destruct (assoc_ci (bs "Content-Encoding") hs) as [v|] eqn:E.
  - left. exists v. split; [|reflexivity]. apply assoc_first; [assumption|apply nonul_ce|assumption].
  - right. split; [|reflexivity]. intros v C. apply assoc_first in C; [|assumption|apply nonul_ce]. congruence.
Qed.
Lemma first_value_fun hs n v v' : namedok hs -> ~ In 0 n -> first_value hs n v -> first_value hs n v' -> v = v'.
Proof. intros H N A B. apply assoc_first in A, B; try assumption. congruence. Qed.

Definition plain (w : wmsg) : wmsg := mkw (w_info w) (w_url w) (w_headers w) (w_body w) [].

Lemma parsed_spec w : namedok (w_headers w) ->
  match on_message_parsed req gunzip inflate (built [] (plain w)) (w_info w) with
  | Some m => delivers req gunzip inflate w m
  | None => forall b, ~ decodes gunzip inflate w b
  end.
Proof.
  intro Hok.
  assert (Hh : m_headers (built [] (plain w)) = hins (w_headers w) []).
  { unfold built, put, set_body, plain. cbn [w_url w_headers w_trailers removelast]. rewrite app_nil_r.
    unfold prefixed. destruct (w_headers w) as [|[k v] hs]; reflexivity. }
  assert (Hb : m_body (built [] (plain w)) = w_body w) by reflexivity.
  assert (Hu : m_url (built [] (plain w)) = w_url w) by reflexivity.
  set (mm := built [] (plain w)) in *. clearbody mm. destruct mm as [a1 a2 a3 a4 a5 a6 hh bb]. cbn [m_headers m_body m_url] in *.
  subst hh bb a5. unfold on_message_parsed. set (i := w_info w) in *.
  replace (m_headers (if req then _ else _)) with (hins (w_headers w) []) by (destruct req; reflexivity).
  replace (m_body (if req then _ else _)) with (w_body w) by (destruct req; reflexivity).
  cbn [m_major m_minor m_alive m_method m_url m_code m_headers m_body].
  set (H0 := hins (w_headers w) []) in *.
  assert (HL : forall n, n <> [] -> ~ In 0 n ->
     (forall v, first_value (w_headers w) n v -> has_header H0 n = true /\ get_header H0 n = v) /\
     (no_value (w_headers w) n -> has_header H0 n = false /\ get_header H0 n = [])).
  { intros n N1 N2. unfold has_header, get_header, H0. rewrite hins_find; [|apply sorted_nil|apply namedok_ne; assumption].
    cbn [map_find]. split.
    - intros v F. apply assoc_first in F; [|assumption|assumption]. rewrite F. auto.
    - intro F. apply assoc_none in F; [|assumption|assumption]. rewrite F. auto. }
  assert (HS : sorted H0) by (apply hins_sorted, sorted_nil).
  assert (HL2 : forall n, n <> [] -> ~ In 0 n -> (req = true \/ ~ ci_eq n (bs "Content-Encoding")) ->
     let hh := if req then H0 else remove_header H0 (bs "Content-Encoding") in
     (forall v, first_value (w_headers w) n v -> has_header hh n = true /\ get_header hh n = v) /\
     (no_value (w_headers w) n -> has_header hh n = false /\ get_header hh n = [])).
  { intros n N1 N2 N3. cbv zeta. destruct req; [apply HL; assumption|]. destruct N3 as [N3|N3]; [discriminate|].
    specialize (HL n N1 N2). unfold has_header, get_header, remove_header in *.
    rewrite map_find_erase; [exact HL|exact HS|]. intro C. apply N3. apply ci_eq_lower; [assumption|apply nonul_ce|assumption]. }
  assert (HD : forall b, decodes gunzip inflate w b -> delivers req gunzip inflate w
     (if req then mkmsg (i_major i) (i_minor i) (i_alive i) (i_method i) (w_url w) a6 H0 b
      else mkmsg (i_major i) (i_minor i) (i_alive i) a4 (w_url w) (i_code i) (remove_header H0 (bs "Content-Encoding")) b)).
  { intros b D. unfold delivers. fold i. destruct req; cbn [m_major m_minor m_alive m_method m_url m_code m_headers m_body]; repeat (split; [auto; fail|]); exact HL2. }
  assert (HD0 : decodes gunzip inflate w (w_body w) -> delivers req gunzip inflate w
     (if req then mkmsg (i_major i) (i_minor i) (i_alive i) (i_method i) (w_url w) a6 H0 (w_body w)
      else mkmsg (i_major i) (i_minor i) (i_alive i) a4 (w_url w) (i_code i) H0 (w_body w))).
  { intros D. unfold delivers. fold i. destruct req; cbn [m_major m_minor m_alive m_method m_url m_code m_headers m_body]; repeat (split; [auto; fail|]); intros n N1 N2 _; apply HL; assumption. }
  destruct (enc_cases (w_headers w) Hok) as [(v & Fv & Ev)|[Fv Ev]]; fold H0 in Ev; rewrite Ev.
  - assert (FU : forall v', first_value (w_headers w) (bs "Content-Encoding") v' -> v' = v)
      by (intros v' F'; eapply first_value_fun; [exact Hok|exact nonul_ce|exact F'|exact Fv]).
    destruct (contains (bs "gzip") v) eqn:G.
    + apply contains_spec in G. destruct (gunzip (w_body w)) as [b|] eqn:Z1.
      * pose proof (HD b ltac:(left; exists v; auto)) as X. destruct req; exact X.
      * intros b [(v' & F' & O' & Z')|[(v' & F' & O' & _)|(Q & _)]]; [congruence| |].
        -- apply FU in F'. subst v'. contradiction.
        -- destruct (Q v Fv). contradiction.
    + assert (G' : ~ occurs (bs "gzip") v) by (intro C; apply contains_spec in C; congruence).
      destruct (contains (bs "deflate") v) eqn:D.
      * apply contains_spec in D. destruct (inflate (w_body w)) as [b|] eqn:Z1.
        -- pose proof (HD b ltac:(right; left; exists v; auto)) as X. destruct req; exact X.
        -- intros b [(v' & F' & O' & Z')|[(v' & F' & O' & _ & Z')|(Q & _)]]; [|congruence|].
           ++ apply FU in F'. subst v'. contradiction.
           ++ destruct (Q v Fv). contradiction.
      * assert (D' : ~ occurs (bs "deflate") v) by (intro C; apply contains_spec in C; congruence).
        apply HD0. right; right. split; [|reflexivity]. intros v' F'. apply FU in F'. subst. auto.
  - change (contains (bs "gzip") []) with false. change (contains (bs "deflate") []) with false. cbv iota.
    apply HD0. right; right. split; [|reflexivity]. intros v' F'. destruct (Fv v' F').
Qed.
End P.
