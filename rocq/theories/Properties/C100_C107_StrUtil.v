(** C100-C107: string helpers (StrUtil). *)
From Verif.Model Require Import Common Decimal StrUtil.
From Verif.Spec Require Import StrSpec.
From Verif.Proofs Require Import Tac DecimalProofs StrProofs.
Open Scope Z_scope.

(** C100.  Splitting at a one-character delimiter gives exactly the fields of the text: none contains
    the delimiter and joining them gives the text back; there is only one such list. *)
Theorem C100_split_fields text d :
  exists ts, Split text [d] false = Some ts /\ fields_of d text ts /\ (forall ts', fields_of d text ts' -> ts' = ts).
Proof.
  destruct (split_loop_false d [] text (S (length text)) 0 []) as (ts & A & N & J & F & _); [lia|lia|].
  exists ts. assert (X : fields_of d text ts) by (split; [assumption|split; [now apply F|exact J]]).
  split; [exact A|]. split; [assumption|]. intros ts' H. eapply fields_unique; eassumption.
Qed.
(** "10.0.0.1::80" at ':'. *)
Example C100_nonvacuous : Split [49;48;58;58;56;48] [58] false = Some [[49;48]; []; [56;48]].
Proof. reflexivity. Qed.

(** C101.  Delimiters of several characters, and ignore_empty. What a caller expects: *)
Definition C101_statement : Prop := forall text delims ts,
  delims <> [] -> Split text delims false = Some ts -> join delims ts = text.
Definition C101_ignore_empty_statement : Prop := forall text d ts,
  Split text [d] true = Some ts -> Forall (fun t => t <> []) ts.
(** "a::b" at "::" gives "a" and ":b". *)
Theorem C101_statement_refuted : ~ C101_statement.
Proof. intro H. specialize (H [97;58;58;98] [58;58] [[97];[58;98]] ltac:(discriminate) eq_refl). discriminate. Qed.
(** "a," at "," without empty fields gives "a" and "". *)
Theorem C101_ignore_empty_statement_refuted : ~ C101_ignore_empty_statement.
Proof. intro H. specialize (H [97;44] 44 [[97];[]] eq_refl). inv H. inv H3. congruence. Qed.
(** What holds for every non-empty delimiter: no exception, nothing of the text is lost except the
    first character of each delimiter, and a text without the delimiter comes back whole. *)
Theorem C101_split_partial text x dl :
  exists ts, Split text (x :: dl) false = Some ts /\ join [x] ts = text /\ (~ occurs (x :: dl) text -> ts = [text]).
Proof.
  destruct (split_loop_false x dl text (S (length text)) 0 []) as (ts & A & N & J & _ & U); [lia|lia|]. exists ts. auto.
Qed.
(** An empty delimiter throws. *)
Theorem C101_empty_delimiter_throws text ign : Split text [] ign = None.
Proof.
  unfold Split. assert (G : forall fuel prev tk, (prev <= length text)%nat -> (length text - prev < fuel)%nat -> split_loop fuel text [] ign prev tk = None).
  { induction fuel as [|f IH]; intros prev tk Hp Hf; [lia|]. cbn [split_loop]. unfold sfind.
    rewrite (proj2 (Nat.leb_le _ _) Hp). replace (find_at [] (skipn prev text) prev) with (Some prev) by (destruct (skipn prev text); reflexivity).
    unfold ssubstr. rewrite (proj2 (Nat.leb_le _ _) Hp).
    destruct (Nat.eq_dec prev (length text)) as [->|n]; [|apply IH; lia].
    destruct f as [|f]; cbn [split_loop]; unfold sfind; replace (S (length text) <=? length text)%nat with false by (symmetry; apply Nat.leb_gt; lia);
      unfold ssubstr; replace (S (length text) <=? length text)%nat with false by (symmetry; apply Nat.leb_gt; lia); reflexivity. }
  apply G; lia.
Qed.
(** ignore_empty removes exactly the empty fields other than the last one. *)
Theorem C101_ignore_empty_partial text d ts :
  Split text [d] false = Some ts ->
  Split text [d] true = Some (filter (fun t => match t with [] => false | _ => true end) (removelast ts) ++ [last ts []]).
Proof. apply (split_loop_true [d] text _ 0%nat []). Qed.
Example C101_nonvacuous : Split [44;97;44;44;98] [44] true = Some [[97];[98]].
Proof. reflexivity. Qed.

(** C102.  Split at a character (getline): the same fields, except that an empty last field is left out. *)
Theorem C102_split_char s d :
  Split s [d] false = Some (SplitChar s d) \/ Split s [d] false = Some (SplitChar s d ++ [[]]).
Proof.
  destruct (C100_split_fields s d) as (ts & A & _ & U). rewrite A.
  destruct (split_lines_spec d (length s) s (le_n _)) as [H|H]; apply U in H; [left|right]; now rewrite <- H.
Qed.
Theorem C102_last_field_dropped_iff s d :
  Split s [d] false = Some (SplitChar s d ++ [[]]) <-> (s = [] \/ exists p, s = p ++ [d]).
Proof.
  destruct (C100_split_fields s d) as (ts & A & F & U). rewrite A. split.
  - intro H. inv H. destruct F as (_ & _ & J). destruct (SplitChar s d) as [|t l] eqn:E; [left; now rewrite <- J|right].
    assert (G : forall l t, exists p, join [d] ((t :: l) ++ [[]]) = p ++ [d]).
    { induction l0 as [|u l0 IH]; intro t0.
      - exists t0. reflexivity.
      - destruct (IH u) as (p & Hp). exists (t0 ++ [d] ++ p). cbn [app]. rewrite join_cons by discriminate. cbn [app] in Hp. rewrite Hp. rewrite <- app_assoc. reflexivity. }
    destruct (G l t) as (p & Hp). exists p. congruence.
  - intro H. destruct (C102_split_char s d) as [X|X]; [|congruence]. rewrite A in X. inv X. exfalso.
    assert (G : forall f s, fields_of d s (split_lines f s d) -> s = [] \/ (exists p, s = p ++ [d]) -> (length s <= f)%nat -> False);
      [|exact (G (length s) s F H (le_n _))].
    clear. induction f as [|f IH]; intros s (N & F & J) H L; cbn [split_lines] in *; [congruence|].
    destruct s as [|c s]; [congruence|]. destruct (until_delim (c :: s) d) as (t, r) eqn:E.
    pose proof (until_delim_spec d _ _ _ E) as (P & Q & R). specialize (R ltac:(discriminate)).
    destruct (split_lines f r d) as [|t2 l2] eqn:S2.
    + cbn [join] in J. subst t. destruct H as [H|(p & H)]; [discriminate|]. apply P. rewrite H, in_app_iff. right. now left.
    + rewrite join_cons in J by discriminate. destruct Q as [Q|(Q & ->)].
      * rewrite Q in J. cbn [app] in J. apply app_inv_head in J. assert (J2 : join [d] (t2 :: l2) = r) by (injection J; auto). apply (IH r).
        -- rewrite S2. apply Forall_inv_tail in F. split; [discriminate|]. split; [assumption|exact J2].
        -- destruct H as [H|(p & H)]; [discriminate|]. destruct r as [|y r] using rev_ind; [left; reflexivity|right]. exists r.
           rewrite H in Q. change (d :: r ++ [y]) with ((d :: r) ++ [y]) in Q. rewrite app_assoc in Q. apply app_inj_tail in Q. destruct Q as (_ & <-). reflexivity.
        -- lia.
      * destruct f; discriminate S2.
Qed.
Example C102_nonvacuous : SplitChar [97;38;98] 38 = [[97];[98]] /\ SplitChar [97;38;38] 38 = [[97];[]] /\ SplitChar [] 38 = [].
Proof. repeat split. Qed.

(** C103.  Prefix and suffix tests, replacing, trimming. *)
Theorem C103_starts_with s p : StartsWith s p = true <-> exists r, s = p ++ r.
Proof.
  unfold StartsWith. split.
  - intro H. b2p. apply beq_eq in H0. exists (skipn (length p) s). rewrite <- (firstn_skipn (length p) s) at 1. now rewrite H0.
  - intros (r & ->). rewrite app_length. replace (length p <=? length p + length r)%nat with true by (symmetry; apply Nat.leb_le; lia).
    cbn [andb]. apply beq_eq. rewrite firstn_app, Nat.sub_diag, firstn_O, app_nil_r. apply firstn_all.
Qed.
Theorem C103_ends_with s p : EndsWith s p = true <-> exists r, s = r ++ p.
Proof.
  unfold EndsWith. split.
  - intro H. b2p. apply beq_eq in H0. exists (firstn (length s - length p) s).
    assert (E : skipn (length s - length p) s = p).
    { transitivity (firstn (length p) (skipn (length s - length p) s)); [|exact H0]. symmetry. apply firstn_all2. rewrite skipn_length. lia. }
    rewrite <- (firstn_skipn (length s - length p) s) at 1. now rewrite E.
  - intros (r & ->). rewrite app_length. replace (length p <=? length r + length p)%nat with true by (symmetry; apply Nat.leb_le; lia).
    cbn [andb]. apply beq_eq. replace (length r + length p - length p)%nat with (length r) by lia.
    rewrite skipn_app, skipn_all, Nat.sub_diag. cbn [skipn app]. apply firstn_all.
Qed.
(** The first (last) occurrence is replaced, nothing else changes; without one the string is unchanged. *)
Lemma sreplace_app a from b to : sreplace (a ++ from ++ b) (length a) (length from) to = a ++ to ++ b.
Proof.
  unfold sreplace. rewrite firstn_app, Nat.sub_diag, firstn_O, app_nil_r, firstn_all. do 2 f_equal.
  rewrite app_assoc, <- app_length, skipn_app, skipn_all, Nat.sub_diag. reflexivity.
Qed.
Theorem C103_replace s from to :
  match Replace s from to with
  | (true, s') => exists a b, s = a ++ from ++ b /\ s' = a ++ to ++ b /\ (forall a' b', s = a' ++ from ++ b' -> (length a <= length a')%nat)
  | (false, s') => s' = s /\ ~ occurs from s
  end.
Proof.
  unfold Replace. destruct (sfind from s 0) as [p|] eqn:F.
  - apply sfind0_some in F. destruct F as (a & b & -> & <- & M). exists a, b. rewrite sreplace_app. auto.
  - split; [reflexivity|]. now apply sfind0_none.
Qed.
Theorem C103_replace_last s from to :
  match ReplaceLast s from to with
  | (true, s') => exists a b, s = a ++ from ++ b /\ s' = a ++ to ++ b /\ (forall a' b', s = a' ++ from ++ b' -> (length a' <= length a)%nat)
  | (false, s') => s' = s /\ ~ occurs from s
  end.
Proof.
  unfold ReplaceLast, srfind. destruct (rfind_at from s 0) as [p|] eqn:F.
  - apply rfind_at_some in F. destruct F as (_ & a & b & -> & L & M). rewrite Nat.sub_0_r in L. subst p. exists a, b. rewrite sreplace_app. auto.
  - split; [reflexivity|]. eapply rfind_at_none; eassumption.
Qed.
(** Trimming removes exactly the longest runs of the given characters at both ends. *)
Theorem C103_trim s chars :
  exists pre post, s = pre ++ Trim s chars ++ post /\ Forall (fun c => In c chars) pre /\ Forall (fun c => In c chars) post /\
    (forall c r, Trim s chars = c :: r -> ~ In c chars) /\ (forall c r, Trim s chars = r ++ [c] -> ~ In c chars).
Proof.
  unfold Trim. destruct (trimright_spec chars s) as (post & E1 & F1 & G1).
  destruct (trimleft_spec chars (TrimRight s chars)) as (pre & E2 & F2 & G2).
  exists pre, post. split; [rewrite app_assoc, <- E2; exact E1|]. split; [assumption|]. split; [assumption|]. split; [assumption|].
  intros c r H. apply (G1 c (pre ++ r)). rewrite <- app_assoc, <- H. exact E2.
Qed.
Theorem C103_trim_left s chars : exists pre, s = pre ++ TrimLeft s chars /\ Forall (fun c => In c chars) pre /\
  (forall c r, TrimLeft s chars = c :: r -> ~ In c chars).
Proof. apply trimleft_spec. Qed.
Theorem C103_trim_right s chars : exists post, s = TrimRight s chars ++ post /\ Forall (fun c => In c chars) post /\
  (forall c r, TrimRight s chars = r ++ [c] -> ~ In c chars).
Proof. apply trimright_spec. Qed.
Example C103_nonvacuous : Trim [32;97;32;98;9] [32;9] = [97;32;98] /\ Replace [1;2;1;2] [1;2] [3] = (true, [3;1;2]) /\
  ReplaceLast [1;2;1;2] [1;2] [3] = (true, [1;2;3]) /\ StartsWith [1;2] [1] = true /\ EndsWith [1;2] [1] = false.
Proof. repeat split. Qed.

(** C104.  Contains. *)
Definition C104_statement : Prop := forall s t, Contains s t = true <-> occurs t s.
(** The empty string does not contain the empty string. *)
Theorem C104_statement_refuted : ~ C104_statement.
Proof. intro H. destruct (H [] []) as (_ & X). assert (occurs [] []) by (exists [], []; reflexivity). specialize (X H0). discriminate. Qed.
Theorem C104_contains_partial s t : s <> [] \/ t <> [] -> (Contains s t = true <-> occurs t s).
Proof.
  intro N. unfold Contains. destruct (sfind t s 0) as [p|] eqn:F.
  - apply sfind0_some in F. destruct F as (a & b & E & L & M). subst p. split; [intros _; exists a, b; exact E|].
    intros _. apply negb_true_iff, Nat.eqb_neq. intro X.
    destruct t as [|c t].
    + assert (Y := M [] s eq_refl). cbn [length] in Y. destruct s; [destruct N; congruence|]. simpl in X. lia.
    + rewrite E, !app_length in X. cbn [length] in X. lia.
  - split; [discriminate|]. intro O. exfalso. now apply (sfind0_none _ _ F).
Qed.
Example C104_nonvacuous : Contains [1;2;3] [2;3] = true /\ Contains [1;2;3] [3;2] = false.
Proof. split; reflexivity. Qed.

(** C105.  Case-insensitive equality. *)
Definition C105_statement : Prop := forall a b, exists r, IgnoreCaseEquals a b = Ok r /\ (r = true <-> ci_equal a b).
(** The header name "Co" is taken for "connection" (h2_codec_service.cc:500) ... *)
Theorem C105_statement_refuted : ~ C105_statement.
Proof.
  intro H. destruct (H [67;111] [99;111;110;110;101;99;116;105;111;110]) as (r & A & B).
  assert (r = true) by (now inv A). apply B in H0. apply ci_length in H0. discriminate.
Qed.
(** ... and a longer first argument runs past the end of the second. *)
Theorem C105_reads_past_the_end : exists a b, IgnoreCaseEquals a b = UB.
Proof. exists [97;98], [97]. reflexivity. Qed.
(** What the function decides: whether the first argument is, up to case, a prefix of the second; it
    leaves the second string exactly when that one is, up to case, a proper prefix of the first. *)
Theorem C105_prefix_partial a b : IgnoreCaseEquals a b = Ok true <-> exists b1 b2, b = b1 ++ b2 /\ ci_equal a b1.
Proof. apply ice_spec. Qed.
Theorem C105_out_of_bounds_partial a b : IgnoreCaseEquals a b = UB <-> exists a1 a2, a = a1 ++ a2 /\ a2 <> [] /\ ci_equal a1 b.
Proof. apply ice_spec. Qed.
(** For strings of equal length it is case-insensitive equality. *)
Theorem C105_same_length_partial a b : length a = length b ->
  exists r, IgnoreCaseEquals a b = Ok r /\ (r = true <-> ci_equal a b).
Proof.
  intro L. destruct (ice_spec a b) as (A & B & C).
  destruct (IgnoreCaseEquals a b) as [r| |] eqn:E; [|exfalso|congruence].
  - exists r. split; [reflexivity|]. split.
    + intros ->. destruct (proj1 A eq_refl) as (b1 & b2 & -> & F). pose proof (ci_length _ _ F) as X. rewrite app_length in L.
      destruct b2 as [|y b2]; [|simpl in L; lia]. now rewrite app_nil_r.
    + intro F. assert (X : Ok r = Ok true) by (apply A; exists b, []; rewrite app_nil_r; auto). now inv X.
  - destruct (proj1 B eq_refl) as (a1 & a2 & -> & N & F). pose proof (ci_length _ _ F) as X. rewrite app_length in L.
    destruct a2; [congruence|]. simpl in L. lia.
Qed.
Example C105_nonvacuous : IgnoreCaseEquals [67;111] [99;79] = Ok true /\ IgnoreCaseEquals [67;111] [99;80] = Ok false.
Proof. split; reflexivity. Qed.

(** C106.  Parsing of unsigned numbers from a stream. *)
Definition C106_statement : Prop := forall bits s n old,
  numeral s n -> n < 2 ^ bits -> ParseTo bits s old = (true, n).
Definition C106_reject_statement : Prop := forall bits s old v,
  ParseTo bits s old = (true, v) -> numeral s v.
(** Every well-formed number is reported as a failure (its value is stored all the same), ... *)
Theorem C106_numeral_reported_as_failure bits s n old :
  numeral s n -> n < 2 ^ bits -> ParseTo bits s old = (false, n).
Proof.
  intros H L. unfold ParseTo. rewrite <- (app_nil_r s). rewrite (extract_numeral bits s n [] H) by discriminate.
  replace (n <? 2 ^ bits) with true by (symmetry; now apply Z.ltb_lt). reflexivity.
Qed.
Theorem C106_statement_refuted : ~ C106_statement.
Proof.
  intro H. assert (N : numeral [56] 8) by (repeat split; [discriminate|repeat constructor; lia]).
  specialize (H 32 [56] 8 0 N ltac:(reflexivity)). rewrite (C106_numeral_reported_as_failure 32 [56] 8 0 N) in H by reflexivity. discriminate.
Qed.
(** ... and the flag is set exactly for inputs with something after the number: "8x" is a success. *)
Theorem C106_reject_statement_refuted : ~ C106_reject_statement.
Proof. intro H. specialize (H 32 [56;120] 0 8 eq_refl). destruct H as (_ & F & _). inv F. inv H2. unfold digit in *. lia. Qed.
Theorem C106_success_partial bits s old v : ParseTo bits s old = (true, v) ->
  exists w sg ds c r m, s = w ++ sg ++ ds ++ c :: r /\ Forall space w /\ (sg = [] \/ sg = [45] \/ sg = [43]) /\
    numeral ds m /\ m < 2 ^ bits /\ ~ digit c /\ v = (if beq sg [45] then (- m) mod 2 ^ bits else m).
Proof.
  unfold ParseTo, extract_uint. destruct (skip_ws_spec s) as (w & Ew & Fw & _).
  destruct (skip_ws s) as [|c0 s1] eqn:Es; [discriminate|].
  destruct (sign_of (c0 :: s1)) as (neg, s2) eqn:Sg.
  pose proof (digits_spec s2) as D. destruct (digits s2) as (d, r). destruct D as (E2 & Fd & Gr).
  destruct d as [|d0 d']; [discriminate|]. rewrite strtol_digits_fold by assumption.
  set (m := fold_left (fun a c => 10 * a + (c - 48)) (d0 :: d') 0) in *.
  destruct (m <? 2 ^ bits) eqn:L; [|discriminate]. cbn [ex_fail ex_eof ex_val negb andb].
  destruct r as [|c r]; [discriminate|]. intro H. injection H as <-. b2p.
  assert (NM : numeral (d0 :: d') m) by (split; [discriminate|split; [assumption|reflexivity]]).
  assert (Sx : exists sg, c0 :: s1 = sg ++ s2 /\ (sg = [] \/ sg = [45] \/ sg = [43]) /\ neg = beq sg [45]).
  { unfold sign_of in Sg. destruct (Z.eqb_spec c0 45) as [->|n1]; [inv Sg; exists [45]; auto|].
    destruct (Z.eqb_spec c0 43) as [->|n2]; inv Sg; [exists [43]; auto|exists []; auto]. }
  destruct Sx as (sg & Ex & Hsg & ->). exists w, sg, (d0 :: d'), c, r, m.
  split; [rewrite Ew, Ex, E2; reflexivity|]. split; [assumption|]. split; [assumption|]. split; [assumption|]. split; [assumption|].
  split; [apply (Gr c r eq_refl)|reflexivity].
Qed.
(** The stored value is right whenever the text begins with a number in range. *)
Theorem C106_value_partial bits s n r old : numeral s n -> n < 2 ^ bits -> (forall c r', r = c :: r' -> ~ digit c) ->
  snd (ParseTo bits (s ++ r) old) = n /\ Parse bits (s ++ r) = Some n.
Proof.
  intros H L G. unfold ParseTo, Parse. rewrite (extract_numeral bits s n r H G).
  replace (n <? 2 ^ bits) with true by (symmetry; now apply Z.ltb_lt). split; reflexivity.
Qed.
(** Parse on a text of white space only returns an indeterminate value. *)
Theorem C106_blank_is_indeterminate bits s : Parse bits s = None <-> Forall space s.
Proof.
  unfold Parse, extract_uint. destruct (skip_ws_spec s) as (w & E & F & G). destruct (skip_ws s) as [|c r] eqn:Es.
  - rewrite app_nil_r in E. subst. split; [auto|reflexivity].
  - split.
    + destruct (sign_of (c :: r)) as (neg, s2). destruct (digits s2) as (d, r'). destruct d; [discriminate|]. destruct (_ <? _); discriminate.
    + intro H. exfalso. apply (G c r eq_refl). rewrite E in H. apply Forall_app in H. destruct H as (_ & H). now inv H.
Qed.
Example C106_nonvacuous : numeral (udec 65535) 65535 /\ Parse 16 (udec 65535) = Some 65535 /\ ParseTo 32 [56;32] 0 = (true, 8).
Proof. split; [apply udec_numeral; lia|]. split; reflexivity. Qed.

(** C107.  Parsing of signed numbers (ToInt: 32 bits, ToInt64: 64 bits). *)
Definition C107_statement : Prop := forall bits s n, ToInt bits s = Some n ->
  exists ds m, numeral ds m /\ (s = ds /\ n = m \/ s = 45 :: ds /\ n = - m).
(** "12ab" is accepted as 12. *)
Theorem C107_statement_refuted : ~ C107_statement.
Proof.
  intro H. destruct (H 64 [49;50;97;98] 12 eq_refl) as (ds & m & (_ & F & _) & [(E & _)|(E & _)]); [|discriminate].
  subst ds. inv F. inv H3. inv H5. unfold digit in *. lia.
Qed.
(** A number is accepted with its value exactly when it fits; whatever follows it is ignored. *)
Theorem C107_value_partial bits s n r (neg : bool) : numeral s n -> (forall c r', r = c :: r' -> ~ digit c) ->
  let m := if neg then - n else n in
  (- 2 ^ (bits - 1) <= m < 2 ^ (bits - 1) -> ToInt bits ((if neg then [45] else []) ++ s ++ r) = Some m) /\
  (~ (- 2 ^ (bits - 1) <= m < 2 ^ (bits - 1)) -> ToInt bits ((if neg then [45] else []) ++ s ++ r) = None).
Proof.
  intros H G m. rewrite (toint_numeral bits s n r neg H G). fold m.
  destruct (- 2 ^ (bits - 1) <=? m) eqn:A, (m <? 2 ^ (bits - 1)) eqn:B; b2p; cbn [andb]; split; intro; auto; exfalso; lia.
Qed.
(** Nothing that does not begin (after white space) with an optional sign and a digit is accepted. *)
Theorem C107_accepts_only_partial bits s n : ToInt bits s = Some n ->
  exists w sg ds r m, s = w ++ sg ++ ds ++ r /\ Forall space w /\ (sg = [] \/ sg = [45] \/ sg = [43]) /\ numeral ds m /\
    n = (if beq sg [45] then - m else m) /\ - 2 ^ (bits - 1) <= n < 2 ^ (bits - 1).
Proof.
  unfold ToInt. destruct (skip_ws_spec s) as (w & Ew & Fw & _).
  destruct (sign_of (skip_ws s)) as (neg, s2) eqn:Sg.
  pose proof (digits_spec s2) as D. destruct (digits s2) as (d, r). destruct D as (E2 & Fd & Gr).
  destruct d as [|d0 d']; [discriminate|]. rewrite strtol_digits_fold by assumption.
  set (m := fold_left (fun a c => 10 * a + (c - 48)) (d0 :: d') 0) in *.
  destruct (_ && _) eqn:R; [|discriminate]. intro H. injection H as <-. b2p.
  assert (Sx : exists sg, skip_ws s = sg ++ s2 /\ (sg = [] \/ sg = [45] \/ sg = [43]) /\ neg = beq sg [45]).
  { unfold sign_of in Sg. destruct (skip_ws s) as [|c0 s1]; [inv Sg; exists []; auto|]. destruct (Z.eqb_spec c0 45) as [->|n1]; [inv Sg; exists [45]; auto|].
    destruct (Z.eqb_spec c0 43) as [->|n2]; inv Sg; [exists [43]; auto|exists []; auto]. }
  destruct Sx as (sg & Ex & Hsg & ->). exists w, sg, (d0 :: d'), r, m.
  split; [rewrite Ew, Ex, E2; reflexivity|]. split; [assumption|]. split; [assumption|].
  split; [split; [discriminate|split; [assumption|reflexivity]]|]. split; [reflexivity|lia].
Qed.
Example C107_nonvacuous : ToInt 64 [45;49;50] = Some (-12) /\ ToInt 32 (udec 2147483648) = None /\ ToInt 32 [] = None.
Proof. repeat split. Qed.

Print Assumptions C100_split_fields.
Print Assumptions C101_statement_refuted.
Print Assumptions C101_ignore_empty_statement_refuted.
Print Assumptions C101_split_partial.
Print Assumptions C101_empty_delimiter_throws.
Print Assumptions C101_ignore_empty_partial.
Print Assumptions C102_split_char.
Print Assumptions C102_last_field_dropped_iff.
Print Assumptions C103_starts_with.
Print Assumptions C103_ends_with.
Print Assumptions C103_replace.
Print Assumptions C103_replace_last.
Print Assumptions C103_trim.
Print Assumptions C103_trim_left.
Print Assumptions C103_trim_right.
Print Assumptions C104_statement_refuted.
Print Assumptions C104_contains_partial.
Print Assumptions C105_statement_refuted.
Print Assumptions C105_reads_past_the_end.
Print Assumptions C105_prefix_partial.
Print Assumptions C105_out_of_bounds_partial.
Print Assumptions C105_same_length_partial.
Print Assumptions C106_numeral_reported_as_failure.
Print Assumptions C106_statement_refuted.
Print Assumptions C106_reject_statement_refuted.
Print Assumptions C106_success_partial.
Print Assumptions C106_value_partial.
Print Assumptions C106_blank_is_indeterminate.
Print Assumptions C107_statement_refuted.
Print Assumptions C107_value_partial.
Print Assumptions C107_accepts_only_partial.
