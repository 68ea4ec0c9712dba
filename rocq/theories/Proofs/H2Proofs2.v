(** The request built from header fields and data. *)
From Coq Require Import String.
From Verif.Model Require Import Common Http StrUtil H2Token H2Conn.
From Verif.Spec Require Import H2Spec.
From Verif.Proofs Require Import Tac HttpHeaders HttpDefaults H2Proofs.
Local Open Scope Z_scope.

Lemma lookup_iff name t s : In (bs s, t) names -> (forall s' t', In (s', t') names -> t' = t -> s' = bs s) -> (lookup_token name = Some t <-> name = bs s).
Proof.
  intros I U. split.
  - intros H. apply lookup_sound in H. exact (U _ _ H eq_refl).
  - intros ->. apply lookup_complete. exact I.
Qed.
Ltac tok := apply lookup_iff; [vm_compute; repeat (first [left; reflexivity|right])|
  let H := fresh in intros s' t' H; cbn in H; repeat (destruct H as [H|H]; [injection H as <- <-; (discriminate || reflexivity)|]); destruct H].
Lemma is_method name : lookup_token name = Some HD__METHOD <-> name = bs ":method"%string. Proof. tok. Qed.
Lemma is_path name : lookup_token name = Some HD__PATH <-> name = bs ":path"%string. Proof. tok. Qed.
Lemma is_scheme name : lookup_token name = Some HD__SCHEME <-> name = bs ":scheme"%string. Proof. tok. Qed.
Lemma is_authority name : lookup_token name = Some HD__AUTHORITY <-> name = bs ":authority"%string. Proof. tok. Qed.
Lemma is_host name : lookup_token name = Some HD_HOST <-> name = bs "host"%string. Proof. tok. Qed.

Definition fill (fields : list (list Z * list Z)) (q : request) : request := fold_left (fun q f => on_header (fst f) (snd f) q) fields q.
(** The key under which a field is stored. *)
Definition key (name : list Z) : option (list Z) :=
  match lookup_token name with
  | Some HD__METHOD | Some HD__PATH => None
  | Some HD__SCHEME => Some s_scheme
  | Some HD__AUTHORITY => Some s_authority
  | _ => Some name
  end.
Definition key_is (n : list Z) (f : list Z * list Z) : bool := match key (fst f) with Some k => beqb n k | None => false end.
Definition stored (n : list Z) (f : list Z * list Z) (o : option (list Z)) : option (list Z) :=
  match o with Some x => Some x | None => if key_is n f then Some (snd f) else None end.

Lemma ins1 h k v n : sorted h -> lower_case k -> to_lower n = n ->
  map_find n (insert_header k v h) = match map_find n h with Some x => Some x | None => if beqb n k then Some v else None end.
Proof. intros S [N L] Ln. rewrite <- Ln at 1. rewrite fnd_ins by assumption. rewrite Ln, L. reflexivity. Qed.
Lemma low_scheme : lower_case s_scheme. Proof. split; [discriminate|reflexivity]. Qed.
Lemma low_authority : lower_case s_authority. Proof. split; [discriminate|reflexivity]. Qed.
Lemma low_host : lower_case s_host. Proof. split; [discriminate|reflexivity]. Qed.
Lemma on_header_headers name v q n : sorted (q_headers q) -> lower_case name -> to_lower n = n ->
  sorted (q_headers (on_header name v q)) /\ map_find n (q_headers (on_header name v q)) = stored n (name, v) (map_find n (q_headers q)).
Proof.
  intros S L N. unfold on_header, stored, key_is, key. cbn [fst snd].
  assert (D : sorted (insert_header name v (q_headers q)) /\ map_find n (insert_header name v (q_headers q)) =
    match map_find n (q_headers q) with Some x => Some x | None => if beqb n name then Some v else None end).
  { split; [apply ins_sorted; exact S|apply ins1; assumption]. }
  destruct (lookup_token name) as [t|] eqn:T; [|exact D].
  destruct t; try exact D; cbn [q_headers].
  - assert (E : name = s_host) by (apply is_host; exact T). subst name. split; [apply ins_sorted, ins_sorted; exact S|].
    rewrite ins1, ins1; try assumption; [|apply ins_sorted; exact S]. destruct (map_find n (q_headers q)); [reflexivity|]. destruct (beqb n s_host); reflexivity.
  - split; [exact S|]. destruct (map_find n (q_headers q)); reflexivity.
  - split; [exact S|]. destruct (map_find n (q_headers q)); reflexivity.
  - split; [apply ins_sorted; exact S|apply ins1; [exact S|exact low_scheme|exact N]].
  - split; [apply ins_sorted; exact S|apply ins1; [exact S|exact low_authority|exact N]].
Qed.
Lemma fill_headers fields : Forall (fun f => lower_case (fst f)) fields -> forall q n, sorted (q_headers q) -> to_lower n = n ->
  sorted (q_headers (fill fields q)) /\
  map_find n (q_headers (fill fields q)) = match map_find n (q_headers q) with Some x => Some x | None => hd_error (map snd (filter (key_is n) fields)) end.
Proof.
  induction 1 as [|[k v] fields L _ IH]; intros q n S N; cbn [fill fold_left fst snd].
  - split; [exact S|]. destruct (map_find n (q_headers q)); reflexivity.
  - destruct (on_header_headers k v q n S L N) as [S' M]. destruct (IH _ n S' N) as [S2 M2]. split; [exact S2|].
    unfold fill in M2. rewrite M2, M. unfold stored. destruct (map_find n (q_headers q)); [reflexivity|]. cbn [filter]. destruct (key_is n (k, v)); reflexivity.
Qed.
Lemma fill_other fields : forall q, q_body (fill fields q) = q_body q /\
  q_method (fill fields q) = last (map to_upper (values (bs ":method"%string) fields)) (q_method q) /\
  q_url (fill fields q) = last (values (bs ":path"%string) fields) (q_url q).
Proof.
  induction fields as [|[k v] fields IH]; intros q; cbn [fill fold_left]; [tauto|]. destruct (IH (on_header k v q)) as (A & B & C). unfold fill in *.
  cbn [fst snd]. rewrite A, B, C. unfold values. cbn [filter fst].
  assert (Lst : forall (l : list (list Z)) a b, last (a :: l) b = last l a).
  { clear. induction l as [|x l IH]; intros a b; [reflexivity|]. rewrite (IH x a). cbn [last] in *. destruct l; [reflexivity|]. rewrite <- (IH x b). reflexivity. }
  assert (Hm : beqb (bs ":method"%string) k = true <-> lookup_token k = Some HD__METHOD) by (rewrite beqb_eq, is_method; split; congruence).
  assert (Hp : beqb (bs ":path"%string) k = true <-> lookup_token k = Some HD__PATH) by (rewrite beqb_eq, is_path; split; congruence).
  split.
  { unfold on_header. destruct (lookup_token k) as [t|]; [destruct t|]; reflexivity. }
  split.
  - destruct (beqb (bs ":method"%string) k) eqn:E.
    + cbn [map snd]. rewrite Lst. f_equal. unfold on_header. rewrite (proj1 Hm eq_refl). reflexivity.
    + f_equal. unfold on_header. destruct (lookup_token k) as [t|]; [destruct t|]; try reflexivity. discriminate (proj2 Hm eq_refl).
  - destruct (beqb (bs ":path"%string) k) eqn:E.
    + cbn [map snd]. rewrite Lst. f_equal. unfold on_header. rewrite (proj1 Hp eq_refl). reflexivity.
    + f_equal. unfold on_header. destruct (lookup_token k) as [t|]; [destruct t|]; try reflexivity. discriminate (proj2 Hp eq_refl).
Qed.
Lemma upper_same v : no_small_letters v -> to_upper v = v.
Proof.
  induction 1 as [|c v H _ IH]; [reflexivity|]. cbn. destruct (c =? 0); [reflexivity|]. rewrite IH. f_equal. unfold toupper.
  destruct (97 <=? c) eqn:A, (c <=? 122) eqn:B; cbn; try reflexivity. b2p. lia.
Qed.
Lemma fill_describes fields body q : Forall (fun f => lower_case (fst f)) fields ->
  q = on_chunk body (fill fields new_request) -> describes q fields body.
Proof.
  intros L ->. destruct (fill_other fields new_request) as (A & B & C).
  assert (M : forall n, to_lower n = n -> map_find n (q_headers (fill fields new_request)) = hd_error (map snd (filter (key_is n) fields))).
  { intros n N. apply (proj2 (fill_headers fields L new_request n sorted_nil N)). }
  assert (Hd : forall l : list (list Z), match hd_error l with Some v => v | None => [] end = hd [] l) by (intros []; reflexivity).
  unfold describes, get_header. cbn [q_body q_method q_url q_headers on_chunk]. split; [rewrite A; reflexivity|].
  split; [intros v V S; rewrite B, V; cbn; apply upper_same; exact S|].
  split; [intros v V; rewrite C, V; reflexivity|].
  split; [|split].
  - intros v V E. change (to_lower s_scheme) with s_scheme. rewrite (M s_scheme eq_refl), Hd.
    replace (filter (key_is s_scheme) fields) with (filter (fun f => beqb (bs ":scheme"%string) (fst f)) fields); [unfold values in V; rewrite V; reflexivity|].
    apply filter_ext_in. intros [k w] I. unfold key_is, key. cbn [fst].
    assert (N : k <> s_scheme).
    { intros ->. assert (X : In w (values s_scheme fields)); [|rewrite E in X; destruct X]. unfold values. apply in_map_iff. exists (s_scheme, w). split; [reflexivity|].
      apply filter_In. split; [exact I|apply beqb_refl]. }
    destruct (beqb (bs ":scheme"%string) k) eqn:Q.
    + apply beqb_eq in Q. subst k. reflexivity.
    + apply beqb_neq in Q. destruct (lookup_token k) as [t|] eqn:T; [destruct t|]; symmetry; try reflexivity; try (apply beqb_neq; congruence).
      apply is_scheme in T. congruence.
  - intros v V E. change (to_lower s_authority) with s_authority. rewrite (M s_authority eq_refl), Hd.
    replace (filter (key_is s_authority) fields) with (filter (fun f => beqb (bs ":authority"%string) (fst f)) fields); [unfold values in V; rewrite V; reflexivity|].
    apply filter_ext_in. intros [k w] I. unfold key_is, key. cbn [fst].
    assert (N : k <> s_authority).
    { intros ->. assert (X : In w (values s_authority fields)); [|rewrite E in X; destruct X]. unfold values. apply in_map_iff. exists (s_authority, w). split; [reflexivity|].
      apply filter_In. split; [exact I|apply beqb_refl]. }
    destruct (beqb (bs ":authority"%string) k) eqn:Q.
    + apply beqb_eq in Q. subst k. reflexivity.
    + apply beqb_neq in Q. destruct (lookup_token k) as [t|] eqn:T; [destruct t|]; symmetry; try reflexivity; try (apply beqb_neq; congruence).
      apply is_authority in T. congruence.
  - intros n ((N1 & N2) & N3 & N4 & N5). rewrite N2, (M n N2), Hd. unfold values. f_equal. f_equal. apply filter_ext_in. intros [k w] I. unfold key_is, key. cbn [fst].
    destruct (lookup_token k) as [t|] eqn:T; [destruct t|]; try reflexivity.
    + apply is_path in T. subst k. symmetry. apply beqb_neq. intros ->. apply N3. reflexivity.
    + apply is_method in T. subst k. symmetry. apply beqb_neq. intros ->. apply N3. reflexivity.
    + apply is_scheme in T. subst k. transitivity false; [apply beqb_neq; exact N4|]. symmetry. apply beqb_neq. intros ->. apply N3. reflexivity.
    + apply is_authority in T. subst k. transitivity false; [apply beqb_neq; exact N5|]. symmetry. apply beqb_neq. intros ->. apply N3. reflexivity.
Qed.
