(** Lemmas about address parsing. *)
From Verif.Model Require Import Common Decimal StrUtil UrlUtils.
From Verif.Spec Require Import StrSpec UrlSpec.
From Verif.Proofs Require Import Tac StrProofs.
Open Scope Z_scope.

Lemma find_at_shift pat : forall s k j, find_at pat s (j + k) = option_map (Nat.add j) (find_at pat s k).
Proof.
  induction s as [|c s IH]; intros k j; cbn [find_at]; destruct (prefixb pat _); try reflexivity.
  rewrite <- (IH (S k) j). now rewrite Nat.add_succ_r.
Qed.

Lemma sfind_shift pat pre s : sfind pat (pre ++ s) (length pre) = option_map (Nat.add (length pre)) (sfind pat s 0).
Proof.
  unfold sfind. rewrite app_length. replace (length pre <=? length pre + length s)%nat with true by (symmetry; apply Nat.leb_le; lia).
  cbn [Nat.leb skipn]. rewrite skipn_app, skipn_all, Nat.sub_diag. cbn [skipn app].
  rewrite <- (Nat.add_0_r (length pre)) at 1. apply find_at_shift.
Qed.

Lemma sfind_char d a b : ~ In d a -> sfind [d] (a ++ d :: b) 0 = Some (length a).
Proof.
  intro H. destruct (sfind [d] (a ++ d :: b) 0) as [i|] eqn:F.
  - apply sfind0_some in F. destruct F as (a' & b' & E & L & M). f_equal. subst i.
    assert (X := M a b eq_refl). destruct (Nat.eq_dec (length a') (length a)) as [e|n]; [exact e|]. exfalso. apply H.
    assert (P : firstn (S (length a')) (a ++ d :: b) = a' ++ [d]).
    { rewrite E. change (a' ++ [d] ++ b') with (a' ++ [d] ++ b'). rewrite app_assoc, firstn_app.
      replace (S (length a')) with (length (a' ++ [d])) by (rewrite app_length; simpl; lia). rewrite Nat.sub_diag, firstn_O, app_nil_r. apply firstn_all. }
    rewrite firstn_app in P. replace (S (length a') - length a)%nat with 0%nat in P by lia. rewrite firstn_O, app_nil_r in P.
    rewrite <- (firstn_skipn (S (length a')) a), P, in_app_iff. left. rewrite in_app_iff. right. now left.
  - exfalso. apply (sfind0_none _ _ F). exists a, b. reflexivity.
Qed.

Lemma sfind_char_none d s : ~ In d s -> sfind [d] s 0 = None.
Proof.
  intro H. destruct (sfind [d] s 0) as [i|] eqn:F; [|reflexivity]. apply sfind0_some in F. destruct F as (a & b & -> & _).
  exfalso. apply H. rewrite !in_app_iff. right. left. now left.
Qed.

Lemma sfind_none_iff pat s : ~ occurs pat s -> sfind pat s 0 = None.
Proof. intro H. destruct (sfind pat s 0) as [i|] eqn:F; [|reflexivity]. apply sfind0_some in F. destruct F as (a & b & E & _). exfalso. apply H. exists a, b. exact E. Qed.

Lemma sfind_scheme_here a b : ~ In 58 a -> sfind s_scheme (a ++ s_scheme ++ b) 0 = Some (length a).
Proof.
  intro H. destruct (sfind s_scheme (a ++ s_scheme ++ b) 0) as [i|] eqn:F.
  - apply sfind0_some in F. destruct F as (a' & b' & E & L & M). f_equal. subst i.
    assert (X := M a b eq_refl). pose proof (sfind_char 58 a (47 :: 47 :: b) H) as Y.
    apply sfind0_some in Y. destruct Y as (a2 & b2 & E2 & L2 & M2). specialize (M2 a' (47 :: 47 :: b')).
    rewrite L2 in M2. unfold s_scheme in E. cbn [app] in E, M2. specialize (M2 E). lia.
  - exfalso. apply (sfind0_none _ _ F). exists a, b. reflexivity.
Qed.

Lemma zsub_mid pre a post n : n = Z.of_nat (length a) -> zsub (pre ++ a ++ post) (length pre) n = a.
Proof.
  intros ->. unfold zsub. rewrite skipn_app, skipn_all, Nat.sub_diag. cbn [skipn app]. rewrite app_length.
  destruct (Z.leb_spec (Z.of_nat (length a + length post)) (Z.of_nat (length a))) as [L|L].
  - destruct post; [apply app_nil_r|]. simpl in L. lia.
  - rewrite Nat2Z.id, firstn_app, Nat.sub_diag, firstn_O, app_nil_r. apply firstn_all.
Qed.
Lemma zsub_all pre a n : Z.of_nat (length a) <= n -> zsub (pre ++ a) (length pre) n = a.
Proof.
  intro H. unfold zsub. rewrite skipn_app, skipn_all, Nat.sub_diag. cbn [skipn app]. apply Z.leb_le in H. now rewrite H.
Qed.

Lemma split_fields d s ts : fields_of d s ts -> Split s [d] false = Some ts.
Proof.
  intro H. destruct (split_loop_false d [] s (S (length s)) 0 []) as (ts' & A & N & J & F & _); [lia|lia|].
  unfold Split. rewrite A. f_equal. cbn [app]. eapply fields_unique; [|exact H]. split; [assumption|split; [now apply F|exact J]].
Qed.

Lemma splitchar_fields d s ts : fields_of d s ts -> last ts [] <> [] -> SplitChar s d = ts.
Proof.
  intros H L. destruct (split_lines_spec d (length s) s (le_n _)) as [X|X]; pose proof (fields_unique d _ _ _ X H) as E; [exact E|].
  exfalso. apply L. rewrite <- E. apply last_last.
Qed.

Lemma beq_dec k k' : beq k k' = if list_eq_dec Z.eq_dec k k' then true else false.
Proof.
  destruct (list_eq_dec Z.eq_dec k k') as [->|n]; [now apply beq_eq|]. destruct (beq k k') eqn:E; [|reflexivity]. apply beq_eq in E. contradiction.
Qed.

Lemma q_find_insert k v m k' : q_find k' (q_insert k v m) =
  match q_find k' m with Some w => Some w | None => if list_eq_dec Z.eq_dec k' k then Some v else None end.
Proof.
  unfold q_insert. destruct (q_find k m) as [w|] eqn:E.
  - destruct (q_find k' m) eqn:E'; [reflexivity|]. destruct (list_eq_dec Z.eq_dec k' k) as [->|]; [congruence|reflexivity].
  - unfold q_find in *. clear E. induction m as [|(a, b) m IH]; cbn [find app].
    + cbn [fst]. rewrite beq_dec. destruct (list_eq_dec Z.eq_dec k' k); reflexivity.
    + destruct (beq k' (fst (a, b))); [reflexivity|apply IH].
Qed.

Lemma fold_queries q : Forall (fun kv => free_of [38; 61] (fst kv) /\ free_of [38; 61] (snd kv)) q ->
  forall m k, q_find k (fold_left (fun m q => parse_query q m) (map (fun kv => fst kv ++ 61 :: snd kv) q) m) =
    match q_find k m with Some w => Some w | None => first_value k q end.
Proof.
  induction 1 as [|(a, b) q (Ha & Hb) Hq IH]; intros m k; cbn [map fold_left].
  - cbn [first_value]. destruct (q_find k m); reflexivity.
  - rewrite IH. cbn [fst snd first_value] in *. unfold parse_query at 1, s_eq.
    rewrite (split_fields 61 (a ++ 61 :: b) [a; b]).
    2: { split; [discriminate|]. split; [|reflexivity]. repeat constructor; [apply Ha|apply Hb]; right; now left. }
    rewrite q_find_insert. destruct (q_find k m); [reflexivity|]. destruct (list_eq_dec Z.eq_dec k a); reflexivity.
Qed.

Lemma query_fields q : q <> [] -> Forall (fun kv => free_of [38; 61] (fst kv) /\ free_of [38; 61] (snd kv)) q ->
  SplitChar (render_query q) c_amp = map (fun kv => fst kv ++ 61 :: snd kv) q.
Proof.
  intros N F. apply splitchar_fields.
  - split; [destruct q; [congruence|discriminate]|]. split; [|reflexivity].
    apply Forall_map. eapply Forall_impl; [|exact F]. intros (a, b) (Ha & Hb). cbn [fst snd] in *.
    intro I. apply in_app_or in I. destruct I as [I|[I|I]]; [eapply Ha; [left; reflexivity|exact I]|discriminate|eapply Hb; [left; reflexivity|exact I]].
  - assert (G : forall l : list (list Z * list Z), l <> [] -> last (map (fun kv => fst kv ++ 61 :: snd kv) l) [] <> []).
    { induction l as [|x l IH]; [congruence|]. intros _. destruct l as [|y l]; [cbn; destruct (fst x); discriminate|]. apply IH. discriminate. }
    apply G, N.
Qed.

Lemma user_fields x p : free_of [58; 64] x -> (forall pw, p = Some pw -> free_of [58; 64] pw) ->
  fields_of 58 (render_user (x, p)) (x :: match p with Some pw => [pw] | None => [] end).
Proof.
  intros Hx Hp. unfold render_user. cbn [fst snd]. destruct p as [pw|]; cbn [ropt].
  - split; [discriminate|]. split; [|reflexivity]. repeat constructor; [apply Hx; now left|apply (Hp pw eq_refl); now left].
  - rewrite app_nil_r. split; [discriminate|]. split; [|reflexivity]. repeat constructor. apply Hx. now left.
Qed.

Lemma numeral_not t n c : numeral t n -> ~ (48 <= c <= 57) -> ~ In c t.
Proof. intros (_ & F & _) H I. rewrite Forall_forall in F. apply F in I. unfold digit in I. lia. Qed.

Lemma not_in_user x p c : ~ In c x -> (forall pw, p = Some pw -> ~ In c pw) -> c <> 58 -> ~ In c (render_user (x, p)).
Proof.
  intros Hx Hp Hc I. unfold render_user in I. apply in_app_or in I. destruct I as [I|I]; [auto|]. destruct p as [pw|]; [|destruct I].
  destruct I as [I|I]; [congruence|]. cbn [snd] in I. now apply (Hp pw eq_refl).
Qed.
