(** Lemmas about the string helpers. *)
From Verif.Model Require Import Common Decimal StrUtil.
From Verif.Spec Require Import StrSpec.
From Verif.Proofs Require Import Tac DecimalProofs.
Open Scope Z_scope.

Lemma beq_eq a : forall b, beq a b = true <-> a = b.
Proof.
  induction a as [|x a IH]; intros [|y b]; cbn [beq]; split; intro H; try discriminate; auto.
  - b2p. apply IH in H0. now subst.
  - inv H. rewrite Z.eqb_refl. cbn [andb]. now apply IH.
Qed.

Lemma prefixb_app p : forall s, prefixb p s = true <-> exists r, s = p ++ r.
Proof.
  induction p as [|x p IH]; intros s; cbn [prefixb].
  - split; [exists s; reflexivity|reflexivity].
  - destruct s as [|y s]; [split; [discriminate|intros (r & E); discriminate]|].
    split.
    + intro H. b2p. apply IH in H0. destruct H0 as (r & ->). exists r. now subst.
    + intros (r & E). inv E. rewrite Z.eqb_refl. cbn [andb]. apply IH. eauto.
Qed.

Lemma find_at_some pat : forall s k i, find_at pat s k = Some i ->
  (k <= i)%nat /\ exists a b, s = a ++ pat ++ b /\ length a = (i - k)%nat /\
  (forall a' b', s = a' ++ pat ++ b' -> (length a <= length a')%nat).
Proof.
  induction s as [|c s IH]; intros k i; cbn [find_at]; destruct (prefixb pat _) eqn:E.
  - intro H. inv H. split; [lia|]. apply prefixb_app in E. destruct E as (r & E). exists [], r. split; [assumption|]. split; [simpl; lia|]. simpl. lia.
  - discriminate.
  - intro H. inv H. split; [lia|]. apply prefixb_app in E. destruct E as (r & E). exists [], r. split; [assumption|]. split; [simpl; lia|]. simpl. lia.
  - intro H. apply IH in H. destruct H as (L & a & b & -> & La & Min). split; [lia|].
    exists (c :: a), b. split; [reflexivity|]. split; [simpl; lia|].
    intros [|c' a'] b' Eq.
    + exfalso. cbn [app] in Eq. rewrite (proj2 (prefixb_app pat (c :: a ++ pat ++ b))) in E; [discriminate|]. exists b'. exact Eq.
    + cbn [app] in Eq. inv Eq. simpl. assert (X := Min a' b'). rewrite H1 in X. specialize (X eq_refl). lia.
Qed.

Lemma find_at_none pat : forall s k, find_at pat s k = None -> ~ occurs pat s.
Proof.
  induction s as [|c s IH]; intros k; cbn [find_at]; destruct (prefixb pat _) eqn:E; try discriminate.
  - intros _ (a & b & Eq). symmetry in Eq. apply app_eq_nil in Eq. destruct Eq as (-> & Eq). apply app_eq_nil in Eq. destruct Eq as (-> & ->). discriminate.
  - intros H (a & b & Eq). destruct a as [|c' a].
    + cbn [app] in Eq. rewrite (proj2 (prefixb_app pat (c :: s))) in E; [discriminate|]. exists b. exact Eq.
    + cbn [app] in Eq. inv Eq. eapply IH; [eassumption|]. exists a, b. reflexivity.
Qed.

Lemma sfind0_some pat s i : sfind pat s 0 = Some i ->
  exists a b, s = a ++ pat ++ b /\ length a = i /\ (forall a' b', s = a' ++ pat ++ b' -> (length a <= length a')%nat).
Proof.
  unfold sfind. cbn [Nat.leb skipn]. intro H. apply find_at_some in H. destruct H as (_ & a & b & A & B & C).
  exists a, b. rewrite Nat.sub_0_r in B. auto.
Qed.
Lemma sfind0_none pat s : sfind pat s 0 = None -> ~ occurs pat s.
Proof. unfold sfind. cbn [Nat.leb skipn]. apply find_at_none. Qed.

Lemma sfind_some pat s pos i : sfind pat s pos = Some i ->
  (pos <= i)%nat /\ exists a b, skipn pos s = a ++ pat ++ b /\ length a = (i - pos)%nat /\ (pos <= length s)%nat /\
  (forall a' b', skipn pos s = a' ++ pat ++ b' -> (length a <= length a')%nat).
Proof.
  unfold sfind. destruct (pos <=? length s)%nat eqn:E; [|discriminate]. apply Nat.leb_le in E.
  intro H. apply find_at_some in H. destruct H as (L & a & b & A & B & C). split; [assumption|]. exists a, b. auto.
Qed.
Lemma sfind_none pat s pos : sfind pat s pos = None -> (pos <= length s)%nat -> ~ occurs pat (skipn pos s).
Proof.
  unfold sfind. intros H L. apply Nat.leb_le in L. rewrite L in H. eapply find_at_none; eauto.
Qed.

Lemma rfind_at_some pat : forall s k i, rfind_at pat s k = Some i ->
  (k <= i)%nat /\ exists a b, s = a ++ pat ++ b /\ length a = (i - k)%nat /\
  (forall a' b', s = a' ++ pat ++ b' -> (length a' <= length a)%nat).
Proof.
  induction s as [|c s IH]; intros k i; cbn [rfind_at].
  - destruct (prefixb pat []) eqn:E; [|discriminate]. intro H. inv H. split; [lia|].
    apply prefixb_app in E. destruct E as (r & E). symmetry in E. apply app_eq_nil in E. destruct E as (-> & ->).
    exists [], []. split; [reflexivity|]. split; [simpl; lia|]. intros a' b' Eq. symmetry in Eq. apply app_eq_nil in Eq. destruct Eq as (-> & _). simpl; lia.
  - destruct (rfind_at pat s (S k)) as [j|] eqn:R.
    + intro H. inv H. apply IH in R. destruct R as (L & a & b & -> & La & Max). split; [lia|]. exists (c :: a), b.
      split; [reflexivity|]. split; [simpl; lia|]. intros [|c' a'] b' Eq; [simpl; lia|]. cbn [app] in Eq. inv Eq.
      simpl. assert (X := Max a' b' H1). lia.
    + destruct (prefixb pat (c :: s)) eqn:E; [|discriminate]. intro H. inv H. split; [lia|].
      apply prefixb_app in E. destruct E as (r & E). exists [], r. split; [exact E|]. split; [simpl; lia|].
      intros [|c' a'] b' Eq; [simpl; lia|]. exfalso. cbn [app] in Eq. injection Eq as _ Eq.
      clear - R Eq. revert R. generalize (S i). subst s. induction a' as [|x a' IH2]; intros k R.
      * cbn [app] in R. destruct (pat ++ b') as [|y l] eqn:P; cbn [rfind_at] in R.
        -- rewrite (proj2 (prefixb_app pat [])) in R; [discriminate|]. exists b'. now symmetry.
        -- destruct (rfind_at pat l (S k)); [discriminate|].
           rewrite (proj2 (prefixb_app pat (y :: l))) in R; [discriminate|]. exists b'. now symmetry.
      * cbn [app rfind_at] in R. destruct (rfind_at pat (a' ++ pat ++ b') (S k)) eqn:R2; [discriminate|]. eapply IH2; eassumption.
Qed.

Lemma rfind_at_none pat : forall s k, rfind_at pat s k = None -> ~ occurs pat s.
Proof.
  induction s as [|c s IH]; intros k; cbn [rfind_at].
  - destruct (prefixb pat []) eqn:E; [discriminate|]. intros _ (a & b & Eq). symmetry in Eq. apply app_eq_nil in Eq. destruct Eq as (-> & Eq). apply app_eq_nil in Eq. destruct Eq as (-> & ->). discriminate.
  - destruct (rfind_at pat s (S k)) eqn:R; [discriminate|]. destruct (prefixb pat (c :: s)) eqn:E; [discriminate|].
    intros _ (a & b & Eq). destruct a as [|c' a].
    + cbn [app] in Eq. rewrite (proj2 (prefixb_app pat (c :: s))) in E; [discriminate|]. exists b. exact Eq.
    + cbn [app] in Eq. inv Eq. eapply IH; [eassumption|]. exists a, b. reflexivity.
Qed.

(** * Split *)
Lemma skipn_skipn' {A} (l : list A) : forall i j, skipn i (skipn j l) = skipn (i + j) l.
Proof. induction l as [|x l IH]; intros i j; [now rewrite !skipn_nil|]. destruct j; [now rewrite Nat.add_0_r|]. rewrite Nat.add_succ_r. cbn [skipn]. apply IH. Qed.

Lemma join_cons d t ts : ts <> [] -> join d (t :: ts) = t ++ d ++ join d ts.
Proof. destruct ts; [congruence|reflexivity]. Qed.

Lemma split_loop_false x dl text : forall fuel prev tk, (prev <= length text)%nat -> (length text - prev < fuel)%nat ->
  exists ts, split_loop fuel text (x :: dl) false prev tk = Some (tk ++ ts) /\ ts <> [] /\ join [x] ts = skipn prev text /\
    (dl = [] -> Forall (fun t => ~ In x t) ts) /\ (~ occurs (x :: dl) (skipn prev text) -> ts = [skipn prev text]).
Proof.
  induction fuel as [|f IH]; intros prev tk Hp Hf; [lia|].
  cbn [split_loop]. destruct (sfind (x :: dl) text prev) as [cur|] eqn:F.
  - apply sfind_some in F. destruct F as (L & a & b & E & La & _ & Min).
    assert (Lt : length (skipn prev text) = (length text - prev)%nat) by apply skipn_length.
    assert (Lc : (cur < length text)%nat).
    { rewrite E, !app_length in Lt. cbn [length] in Lt. lia. }
    unfold ssubstr. replace (prev <=? length text)%nat with true by (symmetry; now apply Nat.leb_le).
    assert (Et : firstn (cur - prev) (skipn prev text) = a).
    { rewrite E, <- La. rewrite firstn_app, Nat.sub_diag, firstn_O, app_nil_r. apply firstn_all. }
    rewrite Et.
    assert (Es : skipn (S cur) text = dl ++ b).
    { replace (S cur) with (S (length a) + prev)%nat by lia. rewrite <- skipn_skipn', E.
      replace (a ++ (x :: dl) ++ b) with ((a ++ [x]) ++ dl ++ b) by (rewrite <- app_assoc; reflexivity).
      replace (S (length a)) with (length (a ++ [x])) by (rewrite app_length; simpl; lia).
      rewrite skipn_app, skipn_all, Nat.sub_diag. reflexivity. }
    assert (T : (if (prev <? cur)%nat then tk ++ [a] else if negb false then tk ++ [a] else tk) = tk ++ [a]) by (destruct (prev <? cur)%nat; reflexivity).
    rewrite T. destruct (IH (S cur) (tk ++ [a])) as (ts & R & N & J & D & _); [lia|lia|].
    exists (a :: ts). rewrite R, <- app_assoc. split; [reflexivity|]. split; [discriminate|]. split.
    + rewrite join_cons by assumption. rewrite J, Es, E. reflexivity.
    + split.
      * intros ->. constructor; [|apply D; reflexivity]. intro I. apply in_split in I. destruct I as (a1 & a2 & ->).
        assert (X := Min a1 (a2 ++ [x] ++ b)). rewrite E, <- !app_assoc in X. cbn [app] in X. specialize (X eq_refl).
        rewrite app_length in X. cbn [length] in X. lia.
      * intro NO. exfalso. apply NO. exists a, b. exact E.
  - unfold ssubstr. replace (prev <=? length text)%nat with true by (symmetry; now apply Nat.leb_le).
    exists [skipn prev text]. split; [reflexivity|]. split; [discriminate|]. split; [reflexivity|]. split; [|reflexivity].
    intros ->. constructor; [|constructor]. intro I. apply in_split in I. destruct I as (a1 & a2 & E).
    apply (sfind_none _ _ _ F Hp). exists a1, a2. exact E.
Qed.

Lemma split_loop_true delims text : forall fuel prev tk ts,
  split_loop fuel text delims false prev [] = Some ts ->
  split_loop fuel text delims true prev tk =
    Some (tk ++ filter (fun t => match t with [] => false | _ => true end) (removelast ts) ++ [last ts []]).
Proof.
  assert (G : forall fuel prev tk ts, split_loop fuel text delims false prev tk = Some ts ->
            exists t, ts = tk ++ t /\ t <> [] /\ forall tk', split_loop fuel text delims false prev tk' = Some (tk' ++ t)).
  { induction fuel as [|f IH]; intros prev tk ts; cbn [split_loop].
    - destruct (sfind delims text prev); [discriminate|]. destruct (ssubstr text prev None) as [t|]; [|discriminate]. intro H. inv H.
      exists [t]. split; [reflexivity|]. split; [discriminate|reflexivity].
    - destruct (sfind delims text prev) as [cur|].
      + destruct (ssubstr text prev (Some (cur - prev)%nat)) as [t|]; [|discriminate].
        assert (T : forall tk : list (list Z), (if (prev <? cur)%nat then tk ++ [t] else if negb false then tk ++ [t] else tk) = tk ++ [t])
          by (intro; destruct (prev <? cur)%nat; reflexivity).
        rewrite T. intro H. apply IH in H. destruct H as (t' & -> & N & H). exists (t :: t'). rewrite <- app_assoc. split; [reflexivity|].
        split; [discriminate|]. intro tk'. rewrite T, H, <- app_assoc. reflexivity.
      + destruct (ssubstr text prev None) as [t|]; [|discriminate]. intro H. inv H.
        exists [t]. split; [reflexivity|]. split; [discriminate|reflexivity]. }
  induction fuel as [|f IH]; intros prev tk ts; cbn [split_loop].
  - destruct (sfind delims text prev); [discriminate|]. destruct (ssubstr text prev None) as [t|]; [|discriminate]. intro H. inv H. reflexivity.
  - destruct (sfind delims text prev) as [cur|] eqn:F.
    + destruct (ssubstr text prev (Some (cur - prev)%nat)) as [t|] eqn:Sb; [|discriminate].
      assert (T : forall tk : list (list Z), (if (prev <? cur)%nat then tk ++ [t] else if negb false then tk ++ [t] else tk) = tk ++ [t])
          by (intro; destruct (prev <? cur)%nat; reflexivity).
      rewrite T. intro H. apply G in H. destruct H as (t' & -> & N & H). cbn [app]. specialize (H []). cbn [app] in H.
      rewrite (IH _ _ _ H). destruct t' as [|u t']; [congruence|].
      change (removelast (t :: u :: t')) with (t :: removelast (u :: t')). change (last (t :: u :: t') []) with (last (u :: t') []).
      cbn [filter negb]. f_equal.
      apply sfind_some in F. destruct F as (L & a & b & E & La & Lp & _).
      assert (X : (prev <? cur)%nat = match t with [] => false | _ => true end).
      { unfold ssubstr in Sb. rewrite (proj2 (Nat.leb_le _ _) Lp) in Sb. injection Sb as <-.
        rewrite E, <- La, firstn_app, Nat.sub_diag, firstn_O, app_nil_r, firstn_all.
        destruct a as [|z a]; cbn [length] in La; [apply Nat.ltb_ge; lia|apply Nat.ltb_lt; lia]. }
      rewrite X. destruct t; [reflexivity|rewrite <- app_assoc; reflexivity].
    + destruct (ssubstr text prev None) as [t|]; [|discriminate]. intro H. inv H. reflexivity.
Qed.

(** Fields are determined by the text. *)
Lemma fields_unique d : forall ts1 ts2 s, fields_of d s ts1 -> fields_of d s ts2 -> ts1 = ts2.
Proof.
  assert (U : forall (t u : list Z) r1 r2, ~ In d t -> ~ In d u -> t ++ d :: r1 = u ++ d :: r2 -> t = u /\ r1 = r2).
  { induction t as [|x t IH]; intros [|y u] r1 r2 Ht Hu E; cbn [app] in E.
    - inv E. auto.
    - exfalso. inv E. apply Hu. now left.
    - exfalso. inv E. apply Ht. now left.
    - injection E as -> E. destruct (IH u r1 r2) as (-> & ->); auto; [intro; apply Ht; now right|intro; apply Hu; now right]. }
  assert (V : forall (t u : list Z) r, ~ In d t -> t <> u ++ d :: r).
  { intros t u r Ht ->. apply Ht. rewrite in_app_iff. right. now left. }
  induction ts1 as [|t ts1 IH]; intros ts2 s (N1 & F1 & J1) (N2 & F2 & J2); [congruence|].
  destruct ts2 as [|u ts2]; [congruence|]. inv F1. inv F2.
  destruct ts1 as [|t1 ts1]; destruct ts2 as [|u1 ts2].
  - cbn [join] in J2. now subst.
  - exfalso. rewrite join_cons in J2 by discriminate. cbn [join app] in J2. eapply V; [|symmetry; exact J2]. assumption.
  - exfalso. rewrite (join_cons [d] t) in J2 by discriminate. cbn [join app] in J2. eapply V; [|exact J2]. assumption.
  - rewrite (join_cons [d] t) in J2 by discriminate. rewrite (join_cons [d] u) in J2 by discriminate. cbn [app] in J2.
    apply U in J2; auto. destruct J2 as (-> & J2). f_equal. apply (IH _ (join [d] (t1 :: ts1))); split; try discriminate; auto.
Qed.

Lemma until_delim_spec d : forall s t r, until_delim s d = (t, r) ->
  ~ In d t /\ ((s = t ++ d :: r) \/ (s = t /\ r = [])) /\ (s <> [] -> (length r < length s)%nat).
Proof.
  induction s as [|c s IH]; intros t r; cbn [until_delim].
  - intro H. inv H. split; [intros []|]. split; [right; auto|congruence].
  - destruct (Z.eqb_spec c d) as [->|n].
    + intro H. inv H. split; [intros []|]. split; [left; reflexivity|]. simpl. lia.
    + destruct (until_delim s d) as (t', r') eqn:E. intro H. inv H. destruct (IH _ _ eq_refl) as (A & B & C). split.
      * intros [X|X]; [congruence|contradiction].
      * split; [destruct B as [->|(-> & ->)]; [left; reflexivity|right; auto]|].
        intros _. simpl. destruct s as [|z s]; [cbn [until_delim] in E; inv E; simpl; lia|]. specialize (C ltac:(discriminate)). simpl in *. lia.
Qed.

Lemma split_lines_spec d : forall fuel s, (length s <= fuel)%nat ->
  fields_of d s (split_lines fuel s d) \/ (fields_of d s (split_lines fuel s d ++ [[]])).
Proof.
  induction fuel as [|f IH]; intros s Hf; cbn [split_lines].
  - destruct s; [|simpl in Hf; lia]. right. repeat split; [discriminate|]. repeat constructor. intros [].
  - destruct s as [|c s].
    + right. repeat split; [discriminate|]. repeat constructor. intros [].
    + destruct (until_delim (c :: s) d) as (t, r) eqn:E. apply until_delim_spec in E. destruct E as (A & B & C).
      specialize (C ltac:(discriminate)). destruct B as [B|(B & ->)].
      * rewrite B. destruct (IH r ltac:(lia)) as [(N & F & J)|(N & F & J)]; [left|right].
        -- split; [discriminate|]. split; [constructor; assumption|]. rewrite join_cons by assumption. rewrite J. reflexivity.
        -- split; [discriminate|]. cbn [app]. split; [constructor; assumption|]. rewrite join_cons by assumption. rewrite J. reflexivity.
      * left. replace (split_lines f [] d) with (@nil (list Z)) by (destruct f; reflexivity). split; [discriminate|]. split; [constructor; [assumption|constructor]|].
        rewrite B. reflexivity.
Qed.

(** * Trim *)
Lemma isin_iff chars c : isin chars c = true <-> In c chars.
Proof.
  unfold isin. rewrite existsb_exists. split; [intros (x & A & B); b2p; subst; assumption|intro H; exists c; split; [assumption|apply Z.eqb_refl]].
Qed.

Lemma trimleft_spec chars : forall s, exists pre, s = pre ++ TrimLeft s chars /\ Forall (fun c => In c chars) pre /\
  (forall c r, TrimLeft s chars = c :: r -> ~ In c chars).
Proof.
  induction s as [|c s (pre & E & F & G)]; [exists []; repeat split; [constructor|discriminate]|].
  cbn [TrimLeft]. destruct (isin chars c) eqn:I.
  - apply isin_iff in I. exists (c :: pre). split; [cbn [app]; congruence|]. split; [constructor; assumption|assumption].
  - exists []. split; [reflexivity|]. split; [constructor|]. intros c' r H. inv H. rewrite <- isin_iff, I. discriminate.
Qed.

Lemma trimright_spec chars : forall s, exists post, s = TrimRight s chars ++ post /\ Forall (fun c => In c chars) post /\
  (forall c r, TrimRight s chars = r ++ [c] -> ~ In c chars).
Proof.
  induction s as [|c s IH]; [exists []; repeat split; [constructor|intros c r H; destruct r; discriminate]|].
  destruct IH as (post & E & F & G). unfold TrimRight in *. cbn [find_last_not_of].
  destruct (find_last_not_of s chars) as [i|] eqn:L.
  - exists post. change (firstn (S (S i)) (c :: s)) with (c :: firstn (S i) s). split; [cbn [app]; congruence|]. split; [assumption|].
    intros c' [|y r] H; cbn [app] in H.
    + exfalso. injection H as _ H. destruct s; [discriminate L|]. discriminate H.
    + injection H as _ H. eapply G. exact H.
  - destruct (isin chars c) eqn:I.
    + exists (c :: s). split; [reflexivity|]. split; [constructor; [now apply isin_iff|]|intros c' r H; destruct r; discriminate].
      cbn [app] in E. rewrite E. assumption.
    + exists s. split; [reflexivity|]. split; [cbn [app] in E; rewrite E; assumption|].
      intros c' [|y r] H; cbn [app firstn] in H.
      * injection H as <-. rewrite <- isin_iff, I. discriminate.
      * injection H as _ H. destruct r; discriminate.
Qed.

(** * Case *)
Lemma ci_length a b : ci_equal a b -> length a = length b.
Proof. induction 1; [reflexivity|]. simpl. congruence. Qed.

Lemma toupper_ci x y : toupper x = toupper y <-> ci x y.
Proof.
  unfold toupper, ci. destruct (97 <=? x) eqn:A, (x <=? 122) eqn:B, (97 <=? y) eqn:C, (y <=? 122) eqn:D; b2p; cbn [andb]; lia.
Qed.

Lemma ice_spec : forall a b,
  (IgnoreCaseEquals a b = Ok true <-> exists b1 b2, b = b1 ++ b2 /\ ci_equal a b1) /\
  (IgnoreCaseEquals a b = UB <-> exists a1 a2, a = a1 ++ a2 /\ a2 <> [] /\ ci_equal a1 b) /\
  IgnoreCaseEquals a b <> CheckFail.
Proof.
  induction a as [|x a IH]; intros b; cbn [IgnoreCaseEquals].
  - split; [split; [exists [], b; split; [reflexivity|constructor]|reflexivity]|]. split; [|discriminate].
    split; [discriminate|]. intros (a1 & a2 & E & N & _). symmetry in E. apply app_eq_nil in E. destruct E. contradiction.
  - destruct b as [|y b].
    + split; [|split; [|discriminate]].
      * split; [discriminate|]. intros (b1 & b2 & E & F). symmetry in E. apply app_eq_nil in E. destruct E as (-> & ->). inv F.
      * split; [|reflexivity]. intros _. exists [], (x :: a). split; [reflexivity|]. split; [discriminate|constructor].
    + destruct (Z.eqb_spec (toupper x) (toupper y)) as [E|E].
      * destruct (IH b) as (A & B & C). split; [|split; [|assumption]].
        -- rewrite A. split.
           ++ intros (b1 & b2 & -> & F). exists (y :: b1), b2. split; [reflexivity|]. constructor; [now apply toupper_ci|assumption].
           ++ intros (b1 & b2 & Eb & F). inv F. cbn [app] in Eb. inv Eb. eauto.
        -- rewrite B. split.
           ++ intros (a1 & a2 & -> & N & F). exists (x :: a1), a2. split; [reflexivity|]. split; [assumption|]. constructor; [now apply toupper_ci|assumption].
           ++ intros (a1 & a2 & Ea & N & F). inv F. cbn [app] in Ea. inv Ea. eauto.
      * split; [|split; [|discriminate]].
        -- split; [discriminate|]. intros (b1 & b2 & Eb & F). exfalso. inv F. cbn [app] in Eb. inv Eb. apply E. now apply toupper_ci.
        -- split; [discriminate|]. intros (a1 & a2 & Ea & N & F). exfalso. inv F. cbn [app] in Ea. inv Ea. apply E. now apply toupper_ci.
Qed.

(** * Numbers *)
Lemma isdigit_iff c : isdigit c = true <-> digit c.
Proof. unfold isdigit, digit. destruct (48 <=? c) eqn:A, (c <=? 57) eqn:B; b2p; cbn [andb]; split; intro; try lia; auto; discriminate. Qed.

Lemma digits_spec : forall s, let (d, r) := digits s in s = d ++ r /\ Forall digit d /\ (forall c r', r = c :: r' -> ~ digit c).
Proof.
  induction s as [|c s IH]; cbn [digits]; [repeat split; [constructor|discriminate]|].
  destruct (isdigit c) eqn:I.
  - destruct (digits s) as (d, r). destruct IH as (-> & F & G). split; [reflexivity|]. split; [constructor; [now apply isdigit_iff|assumption]|assumption].
  - split; [reflexivity|]. split; [constructor|]. intros c' r' H. inv H. rewrite <- isdigit_iff, I. discriminate.
Qed.

Lemma digits_app d r : Forall digit d -> (forall c r', r = c :: r' -> ~ digit c) -> digits (d ++ r) = (d, r).
Proof.
  induction 1 as [|c d Hc Hd IH]; intro G.
  - cbn [app]. destruct r as [|c r]; [reflexivity|]. cbn [digits]. destruct (isdigit c) eqn:I; [|reflexivity].
    exfalso. apply (G c r eq_refl). now apply isdigit_iff.
  - cbn [app digits]. rewrite (proj2 (isdigit_iff c) Hc), IH by assumption. reflexivity.
Qed.

Lemma strtol_digits_fold : forall d acc, Forall digit d -> strtol_digits acc d = fold_left (fun a c => 10 * a + (c - 48)) d acc.
Proof.
  induction d as [|c d IH]; intros acc H; [reflexivity|]. inv H. cbn [strtol_digits fold_left].
  rewrite (proj2 (isdigit_iff c) H2), IH by assumption. f_equal. lia.
Qed.

Lemma digit_not_space c : digit c -> isspace c = false.
Proof. unfold digit, isspace. intro H. destruct (c =? 32) eqn:A, (9 <=? c) eqn:B, (c <=? 13) eqn:C; b2p; cbn [orb andb]; auto; lia. Qed.

Lemma isspace_iff c : isspace c = true <-> space c.
Proof. unfold isspace, space. destruct (c =? 32) eqn:A, (9 <=? c) eqn:B, (c <=? 13) eqn:C; b2p; cbn [orb andb]; split; intro; try lia; auto; try discriminate. Qed.

Lemma skip_ws_app w s : Forall space w -> (forall c r, s = c :: r -> ~ space c) -> skip_ws (w ++ s) = s.
Proof.
  induction 1 as [|c w Hc Hw IH]; intro G.
  - cbn [app]. destruct s as [|c s]; [reflexivity|]. cbn [skip_ws]. destruct (isspace c) eqn:I; [|reflexivity]. exfalso. apply (G c s eq_refl). now apply isspace_iff.
  - cbn [app skip_ws]. rewrite (proj2 (isspace_iff c) Hc). now apply IH.
Qed.

Lemma skip_ws_spec s : exists w, s = w ++ skip_ws s /\ Forall space w /\ (forall c r, skip_ws s = c :: r -> ~ space c).
Proof.
  induction s as [|c s (w & E & F & G)]; [exists []; repeat split; [constructor|discriminate]|].
  cbn [skip_ws]. destruct (isspace c) eqn:I.
  - exists (c :: w). split; [cbn [app]; congruence|]. split; [constructor; [now apply isspace_iff|assumption]|assumption].
  - exists []. split; [reflexivity|]. split; [constructor|]. intros c' r H. inv H. rewrite <- isspace_iff, I. discriminate.
Qed.

Lemma numeral_nonneg s n : numeral s n -> 0 <= n.
Proof.
  intros (_ & F & ->). assert (forall d acc, 0 <= acc -> Forall digit d -> 0 <= fold_left (fun a c => 10 * a + (c - 48)) d acc).
  { induction d as [|c d IH]; intros acc Ha Hd; [assumption|]. inv Hd. cbn [fold_left]. apply IH; [|assumption]. unfold digit in *. lia. }
  apply H; [lia|assumption].
Qed.

Lemma numeral_head s n : numeral s n -> exists c r, s = c :: r /\ digit c /\ Forall digit r.
Proof. intros (N & F & _). destruct s as [|c r]; [congruence|]. inv F. eauto. Qed.

(** Extraction from a numeral followed by a non-digit or nothing. *)
Lemma extract_numeral bits s n r : numeral s n -> (forall c r', r = c :: r' -> ~ digit c) ->
  extract_uint bits (s ++ r) =
    if n <? 2 ^ bits then mkEx (Some n) false (match r with [] => true | _ => false end)
    else mkEx (Some (2 ^ bits - 1)) true (match r with [] => true | _ => false end).
Proof.
  intros H G. destruct (numeral_head _ _ H) as (c & q & -> & Hc & Hq). unfold extract_uint.
  cbn [app skip_ws]. rewrite (digit_not_space c Hc). unfold sign_of.
  replace (c =? 45) with false by (symmetry; apply Z.eqb_neq; unfold digit in Hc; lia).
  replace (c =? 43) with false by (symmetry; apply Z.eqb_neq; unfold digit in Hc; lia).
  change (c :: q ++ r) with ((c :: q) ++ r). rewrite (digits_app (c :: q) r) by (try constructor; assumption).
  rewrite strtol_digits_fold by (constructor; assumption). destruct H as (_ & _ & <-). destruct (n <? 2 ^ bits); reflexivity.
Qed.

Lemma toint_numeral bits s n r (neg : bool) : numeral s n -> (forall c r', r = c :: r' -> ~ digit c) ->
  let m := if neg then - n else n in
  ToInt bits ((if neg then [45] else []) ++ s ++ r) =
    if (- 2 ^ (bits - 1) <=? m) && (m <? 2 ^ (bits - 1)) then Some m else None.
Proof.
  intros H G m. destruct (numeral_head _ _ H) as (c & q & -> & Hc & Hq). unfold ToInt.
  assert (D : digits ((c :: q) ++ r) = (c :: q, r)) by (apply digits_app; [constructor|]; assumption).
  assert (V : strtol_digits 0 (c :: q) = n) by (rewrite strtol_digits_fold by (constructor; assumption); destruct H as (_ & _ & <-); reflexivity).
  destruct neg; cbn [app skip_ws].
  - change (isspace 45) with false. cbn [sign_of]. change (45 =? 45) with true. cbv iota.
    change (c :: q ++ r) with ((c :: q) ++ r). rewrite D. cbv iota. rewrite V. reflexivity.
  - rewrite (digit_not_space c Hc). unfold sign_of.
    replace (c =? 45) with false by (symmetry; apply Z.eqb_neq; unfold digit in Hc; lia).
    replace (c =? 43) with false by (symmetry; apply Z.eqb_neq; unfold digit in Hc; lia).
    change (c :: q ++ r) with ((c :: q) ++ r). rewrite D. cbv iota. rewrite V. reflexivity.
Qed.

Lemma udec_numeral n : 0 <= n < 2 ^ 64 -> numeral (udec n) n.
Proof.
  intro H. assert (D : Forall digit (udec n)).
  { eapply Forall_impl; [|apply (udec_digits 20 n); lia]. intros a Ha. now apply isdigit_iff. }
  split; [apply udec_nonempty|]. split; [assumption|]. rewrite <- strtol_digits_fold by assumption.
  symmetry. apply udec_val. assert (2 ^ 64 < 10 ^ Z.of_nat 20) by reflexivity. lia.
Qed.
