(** C275-C282: views of strings (base::StringPiece, nonstd::string_view). *)
From Verif.Model Require Import Common StringView.
From Verif.Spec Require Import StringViewSpec.
From Verif.Proofs Require Import Tac StringViewProofs.
Local Open Scope nat_scope.

Definition abcab : view := View [9; 97; 98; 99; 97; 98; 7]%Z 1 5.
Definition ab : view := of_string [97; 98]%Z.
Definition none_ : view := of_string [].

(** *** C275: parts of a view stay within it and show the bytes asked for; a position beyond the end throws, and an index beyond it stops the process. *)
Theorem C275_parts : forall v pos n, valid v ->
  (forall s, substr v pos n = Some s -> valid s /\ v_buf s = v_buf v /\ exists a b, text v = a ++ text s ++ b /\ length a = pos /\ length (text s) = Nat.min n (length (text v) - pos)) /\
  (substr v pos n = None <-> length (text v) < pos) /\
  (forall d, copy v n pos = Some d <-> exists s, substr v pos n = Some s /\ d = text s) /\
  (forall w, remove_prefix v n = Ok w -> valid w /\ exists a, text v = a ++ text w /\ length a = n) /\
  (forall w, remove_suffix v n = Ok w -> valid w /\ exists b, text v = text w ++ b /\ length b = n) /\
  (remove_prefix v n = CheckFail <-> length (text v) < n) /\ (remove_suffix v n = CheckFail <-> length (text v) < n) /\
  remove_prefix v n <> UB /\ remove_suffix v n <> UB.
Proof.
  intros v pos n V. pose proof (text_length v V) as LV. pose proof (substr_spec v pos n V) as S. rewrite LV. split; [|split; [|split; [|split; [|split; [|split; [|split]]]]]].
  - intros s E. rewrite E in S. destruct S as (_ & A & B & C). auto.
  - destruct (substr v pos n) as [s|]; [split; [discriminate|destruct S as (A & _); intros; lia]|split; auto].
  - intros d. unfold copy, substr. destruct (v_len v <? pos); [split; [discriminate|intros (s & E & _); discriminate]|]. split; [intros E; inv E; eexists; split; reflexivity|intros (s & E & ->); inv E; reflexivity].
  - intros w. unfold remove_prefix. destruct (Nat.leb_spec n (v_len v)); [|discriminate]. intros E. inv E. split; [unfold valid in *; cbn; lia|]. exists (firstn n (text v)).
    split; [|rewrite firstn_length; lia]. unfold text at 3. cbn [v_buf v_off v_len]. rewrite <- (slice_slice (v_buf v) (v_off v) (v_len v) n (v_len v - n)) by lia. fold (text v). unfold slice.
    rewrite firstn_all2 with (l := skipn n (text v)) by (rewrite skipn_length; lia). now rewrite firstn_skipn.
  - intros w. unfold remove_suffix. destruct (Nat.leb_spec n (v_len v)); [|discriminate]. intros E. inv E. split; [unfold valid in *; cbn; lia|]. exists (skipn (v_len v - n) (text v)).
    split; [|rewrite skipn_length; lia]. unfold text at 2. cbn [v_buf v_off v_len]. rewrite <- (Nat.add_0_r (v_off v)). rewrite <- (slice_slice (v_buf v) (v_off v) (v_len v) 0 (v_len v - n)) by lia. fold (text v). unfold slice. cbn [skipn]. now rewrite firstn_skipn.
  - unfold remove_prefix. destruct (Nat.leb_spec n (v_len v)); split; intros; try discriminate; auto; lia.
  - unfold remove_suffix. destruct (Nat.leb_spec n (v_len v)); split; intros; try discriminate; auto; lia.
  - unfold remove_prefix, remove_suffix. destruct (n <=? v_len v); split; discriminate.
Qed.
Theorem C275_access : forall v pos, valid v ->
  (forall c, data_at v pos = Ok c <-> nth_error (text v) pos = Some c) /\ (data_at v pos = CheckFail <-> length (text v) <= pos) /\ data_at v pos <> UB /\
  at_pos v pos = Ok (nth_error (text v) pos) /\
  front v = (match text v with c :: _ => Ok c | [] => CheckFail end) /\ back v = (match rev (text v) with c :: _ => Ok c | [] => CheckFail end).
Proof.
  intros v pos V. pose proof (text_length v V) as LV.
  assert (D : forall p, data_at v p = match nth_error (text v) p with Some c => Ok c | None => CheckFail end).
  { intros p. unfold data_at. destruct (Nat.ltb_spec p (v_len v)) as [L|L].
    - assert (E : nth_error (text v) p = nth_error (v_buf v) (v_off v + p)).
      { unfold text, slice. rewrite <- nth_error_skip. generalize (skipn (v_off v) (v_buf v)). clear -L. intros l. revert l p L. induction (v_len v) as [|m IH]; intros l p L; [lia|]. destruct l as [|x l]; [destruct p; reflexivity|]. destruct p; [reflexivity|]. cbn. apply IH. lia. }
      rewrite <- E. destruct (nth_error (text v) p) eqn:N; [reflexivity|]. apply nth_error_None in N. lia.
    - assert (N : nth_error (text v) p = None) by (apply nth_error_None; lia). now rewrite N. }
  split; [intros c; rewrite D; destruct (nth_error (text v) pos); split; intros E; congruence|]. split.
  { rewrite D. destruct (nth_error (text v) pos) eqn:E; split; intros H; try discriminate; auto; [apply (proj2 (nth_error_None (text v) pos)) in H; congruence|now apply nth_error_None]. }
  split; [rewrite D; destruct (nth_error (text v) pos); discriminate|]. split.
  { unfold at_pos. destruct (Nat.leb_spec (v_len v) pos) as [L|L]; [rewrite (proj2 (nth_error_None (text v) pos)) by lia; reflexivity|]. rewrite D. destruct (nth_error (text v) pos) eqn:N; [reflexivity|]. apply nth_error_None in N. lia. }
  split; [unfold front; rewrite D; destruct (text v); reflexivity|]. unfold back. destruct (v_len v) as [|m] eqn:M.
  - destruct (text v); [reflexivity|discriminate].
  - rewrite D. assert (N : text v <> []) by (intros E; rewrite E in LV; discriminate). destruct (exists_last N) as (l & c & E). rewrite E, rev_app_distr in *. cbn [rev app]. rewrite app_length in LV. cbn in LV.
    rewrite nth_error_app2 by lia. replace (m - length l) with 0 by lia. reflexivity.
Qed.
Example C275_example : valid abcab /\ text abcab = [97; 98; 99; 97; 98]%Z /\ option_map text (substr abcab 2 2) = Some [99; 97]%Z /\ substr abcab 6 0 = None /\ option_map text (substr abcab 5 9) = Some [] /\ back abcab = Ok 98%Z.
Proof. repeat split. unfold valid. cbn. lia. Qed.

(** *** C276: comparison is the order of byte strings; == and != (in both forms) tell whether the strings are equal. *)
Theorem C276_compare : forall v w, valid v -> valid w ->
  ((compare v w < 0)%Z <-> before (text v) (text w)) /\ (compare v w = 0%Z <-> text v = text w) /\ ((0 < compare v w)%Z <-> before (text w) (text v)) /\
  (op_eq v w = true <-> text v = text w) /\ op_eq2 v w = op_eq v w /\ op_ne v w = negb (op_eq v w) /\ op_ne2 v w = op_ne v w /\
  (op_lt v w = true <-> before (text v) (text w)) /\ op_gt v w = op_lt w v /\ op_le v w = negb (op_lt w v) /\ op_ge v w = negb (op_lt v w).
Proof.
  intros v w V W. pose proof (compare_neg v w V W) as N. pose proof (compare_zero v w V W) as Z. pose proof (compare_pos v w V W) as P.
  pose proof (compare_neg w v W V) as N'. pose proof (compare_pos w v W V) as P'. split; [exact N|]. split; [exact Z|]. split; [exact P|].
  assert (EQ : op_eq v w = true <-> text v = text w) by (unfold op_eq; rewrite Z.eqb_eq; exact Z). split; [exact EQ|].
  assert (LEN : text v = text w -> v_len v = v_len w) by (intros E; rewrite <- (text_length v V), <- (text_length w W), E; reflexivity).
  split. { unfold op_eq2, op_eq in *. destruct (Z.eqb_spec (compare v w) 0) as [E|E]; [rewrite LEN, Nat.eqb_refl by (now apply Z); reflexivity|now rewrite andb_false_r]. }
  split; [reflexivity|]. split. { unfold op_ne2, op_ne. destruct (Z.eqb_spec (compare v w) 0) as [E|E]; [rewrite LEN, Nat.eqb_refl by (now apply Z); reflexivity|now rewrite orb_true_r]. }
  assert (LT : op_lt v w = true <-> before (text v) (text w)) by (unfold op_lt; rewrite Z.ltb_lt; exact N). split; [exact LT|].
  unfold op_gt, op_lt, op_le, op_ge. split.
  - destruct (Z.ltb_spec 0 (compare v w)), (Z.ltb_spec (compare w v) 0); try reflexivity; exfalso; [apply P, N' in H; lia|apply N', P in H0; lia].
  - split.
    + destruct (Z.leb_spec (compare v w) 0), (Z.ltb_spec (compare w v) 0); try reflexivity; exfalso; [apply N', P in H0; lia|apply P, N' in H; lia].
    + destruct (Z.leb_spec 0 (compare v w)), (Z.ltb_spec (compare v w) 0); try reflexivity; exfalso; lia.
Qed.
(** The order is a total order. *)
Theorem C276_order : (forall a, ~ before a a) /\ (forall a b c, before a b -> before b c -> before a c) /\ (forall a b, before a b \/ a = b \/ before b a).
Proof. split; [exact before_irrefl|]. split; [exact before_trans|exact before_total]. Qed.
Example C276_example : compare ab abcab = (-1)%Z /\ compare (of_string [200]%Z) ab = 1%Z /\ op_eq ab (View [97; 98; 99]%Z 0 2) = true /\ op_lt none_ ab = true.
Proof. repeat split. Qed.

(** *** C277: starts_with and ends_with tell whether the one is a beginning or an end of the other, and never throw. *)
Theorem C277_starts_ends : forall v w, valid v -> valid w -> exists s e, starts_with v w = Ok s /\ ends_with v w = Ok e /\
  (s = true <-> exists r, text v = text w ++ r) /\ (e = true <-> exists r, text v = r ++ text w).
Proof.
  intros v w V W. pose proof (text_length v V) as LV. pose proof (text_length w W) as LW. unfold starts_with, ends_with. destruct (Nat.leb_spec (v_len w) (v_len v)) as [L|L].
  - pose proof (substr_spec v 0 (v_len w) V) as S. pose proof (substr_spec v (v_len v - v_len w) (v_len v) V) as E.
    destruct (substr v 0 (v_len w)) as [s|]; [|lia]. destruct (substr v (v_len v - v_len w) (v_len v)) as [e|]; [|lia].
    destruct S as (_ & VS & _ & a & b & T & A & LS). destruct E as (_ & VE & _ & a' & b' & T' & A' & LE). destruct a; [|discriminate]. cbn [app] in T.
    eexists _, _. split; [reflexivity|]. split; [reflexivity|]. rewrite !Z.eqb_eq, (compare_zero s w VS W), (compare_zero e w VE W). split.
    + split; [intros <-; eauto|]. intros (r & R). rewrite T in R. apply app_inv_both in R; [tauto|]. rewrite LS. lia.
    + assert (B0 : b' = []). { apply (f_equal (@length Z)) in T'. rewrite !app_length, LE, LV, A' in T'. destruct b'; [reflexivity|cbn in T'; lia]. }
      subst b'. rewrite app_nil_r in T'. split; [intros <-; eauto|]. intros (r & R). rewrite T' in R. apply app_inv_both in R; [tauto|]. apply (f_equal (@length Z)) in R. rewrite !app_length in R. lia.
  - eexists _, _. split; [reflexivity|]. split; [reflexivity|]. split; (split; [discriminate|]); intros (r & R); apply (f_equal (@length Z)) in R; rewrite app_length in R; lia.
Qed.
Example C277_example : starts_with abcab ab = Ok true /\ ends_with abcab ab = Ok true /\ starts_with ab abcab = Ok false /\ ends_with abcab none_ = Ok true.
Proof. repeat split. Qed.

(** *** C278: find gives the first place, from the position on, where the other string occurs (the empty one occurs at the end too). *)
Definition C278_statement : Prop := forall v w pos, valid v -> valid w -> first_at (fun i => pos <= i /\ occurs (text v) (text w) i) (find v w pos).
Theorem C278_statement_refuted : ~ C278_statement.
Proof.
  intros H. assert (V : valid none_) by (unfold valid; cbn; lia). specialize (H none_ none_ 0 V V). cbn in H. apply (H 0). split; [lia|]. exists [], []. split; reflexivity.
Qed.
(** For strings that are not empty, and for the empty one before the end. *)
Theorem C278_find_partial : forall v w pos, valid v -> valid w -> text w <> [] \/ pos < length (text v) -> first_at (fun i => pos <= i /\ occurs (text v) (text w) i) (find v w pos).
Proof.
  intros v w pos V W NE. pose proof (text_length v V) as LV. unfold find. rewrite <- LV. destruct (Nat.leb_spec (length (text v)) pos) as [L|L].
  - destruct NE as [NE|NE]; [|lia]. intros j [J O]. apply occurs_bound in O. destruct (text w); [congruence|cbn in O; lia].
  - destruct (search_spec (text w) (skipn pos (text v))) as (A & B & C & D). rewrite skipn_length in *. set (r := std_search (skipn pos (text v)) (text w)) in *.
    assert (X : forall j, pos <= j -> occurs (text v) (text w) j -> occurs (skipn pos (text v)) (text w) (j - pos)) by (intros j J O; rewrite occurs_skip by lia; replace (pos + (j - pos)) with j by lia; exact O).
    unfold to_pos. destruct (Nat.eqb_spec (pos + r) (length (text v))) as [E|E].
    + destruct (text w) as [|c u] eqn:TW.
      { exfalso. assert (r = 0); [|lia]. unfold r. destruct (skipn pos (text v)); reflexivity. }
      intros j [J O]. specialize (X j J O). pose proof (occurs_bound _ _ _ O) as BO. cbn [length] in BO. apply (B (j - pos)); [lia|exact X].
    + split; [split; [lia|]; rewrite <- occurs_skip by lia; apply C; lia|]. intros j J [P O]. apply (B (j - pos)); [lia|]. exact (X j P O).
Qed.
(** The empty string is never found at the end. *)
Theorem C278_empty_at_end : forall v w pos, valid v -> length (text v) <= pos -> find v w pos = None.
Proof. intros v w pos V L. unfold find. rewrite <- (text_length v V). destruct (Nat.leb_spec (length (text v)) pos); [reflexivity|lia]. Qed.
Example C278_example : find abcab ab 0 = Some 0 /\ find abcab ab 1 = Some 3 /\ find abcab ab 4 = None /\ find abcab none_ 4 = Some 4 /\ find abcab none_ 5 = None.
Proof. repeat split. Qed.

(** *** C279: rfind gives the last place, up to the position, where the other string occurs. *)
Theorem C279_rfind : forall v w pos, valid v -> valid w -> last_at (fun i => i <= pos /\ occurs (text v) (text w) i) (rfind v w pos).
Proof.
  intros v w pos V W. pose proof (text_length v V) as LV. pose proof (text_length w W) as LW. unfold rfind. rewrite <- LV, <- LW. destruct (Nat.ltb_spec (length (text v)) (length (text w))) as [L|L].
  - intros j [_ O]. apply occurs_bound in O. lia.
  - destruct (Nat.eqb_spec (length (text w)) 0) as [Z|Z].
    + assert (E : text w = []) by (destruct (text w); [reflexivity|discriminate]). rewrite E. split.
      * split; [lia|]. exists (firstn (Nat.min (length (text v)) pos) (text v)), (skipn (Nat.min (length (text v)) pos) (text v)). cbn [app]. rewrite firstn_skipn, firstn_length. split; [reflexivity|lia].
      * intros j J [P O]. apply occurs_bound in O. cbn in O. lia.
    + set (last := Nat.min (length (text v) - length (text w)) pos + length (text w)).
      assert (NE : text w <> []) by (intros E; rewrite E in Z; cbn in Z; lia).
      assert (LL : length (firstn last (text v)) = last) by (rewrite firstn_length; unfold last; lia).
      assert (X : forall j, j <= pos -> occurs (text v) (text w) j <-> occurs (firstn last (text v)) (text w) j).
      { intros j J. split.
        - intros O. pose proof (occurs_bound _ _ _ O) as B. destruct O as (a & b & E & A). assert (LA : length (a ++ text w) <= last) by (rewrite app_length, A; unfold last; lia).
          rewrite E. rewrite app_assoc. rewrite firstn_app, firstn_all2 by exact LA. exists a. eexists. split; [rewrite <- app_assoc; reflexivity|exact A].
        - intros (a & b & E & A). exists a, (b ++ skipn last (text v)). split; [|exact A]. rewrite <- (firstn_skipn last (text v)) at 1. rewrite E, <- !app_assoc. reflexivity. }
      destruct (find_end_spec (text w) NE (firstn last (text v))) as (A & B & C). rewrite LL in *. set (r := std_find_end (firstn last (text v)) (text w)) in *.
      destruct (Nat.eqb_spec r last) as [E|E].
      * intros j [J O]. apply (C E j). apply X; assumption.
      * destruct (B ltac:(lia)) as [B1 B2]. pose proof (occurs_bound _ _ _ B1) as BB. rewrite LL in BB. assert (RP : r <= pos) by (unfold last in BB; lia).
        split; [split; [exact RP|now apply X]|]. intros j J [P O]. apply (B2 j J). apply X; assumption.
Qed.
Example C279_example : rfind abcab ab 100 = Some 3 /\ rfind abcab ab 2 = Some 0 /\ rfind ab abcab 0 = None /\ rfind abcab none_ 9 = Some 5.
Proof. repeat split. Qed.

(** *** C280: find_first_of and find_last_of give the first and the last byte that is one of the given ones. *)
Theorem C280_any_of : forall v w pos, valid v -> valid w ->
  first_at (fun i => pos <= i /\ byte_in (text v) (text w) i) (find_first_of v w pos) /\ last_at (fun i => i <= pos /\ byte_in (text v) (text w) i) (find_last_of v w pos).
Proof.
  intros v w pos V W. unfold find_first_of, find_last_of. rewrite <- (text_length v V). split.
  - eapply first_at_iff; [|apply forward]. intros i. pose proof (holds_in (text v) (text w) i). tauto.
  - eapply last_at_iff; [|apply backward]. intros i. pose proof (holds_in (text v) (text w) i). tauto.
Qed.
Example C280_example : find_first_of abcab (of_string [99; 98]%Z) 2 = Some 2 /\ find_last_of abcab (of_string [99; 97]%Z) 100 = Some 3 /\ find_last_of abcab none_ 3 = None.
Proof. repeat split. Qed.

(** *** C281: find_first_not_of and find_last_not_of give the first and the last byte that is none of the given ones. *)
Theorem C281_none_of : forall v w pos, valid v -> valid w ->
  first_at (fun i => pos <= i /\ byte_not_in (text v) (text w) i) (find_first_not_of v w pos) /\ last_at (fun i => i <= pos /\ byte_not_in (text v) (text w) i) (find_last_not_of v w pos).
Proof.
  intros v w pos V W. unfold find_first_not_of, find_last_not_of. rewrite <- (text_length v V). split.
  - eapply first_at_iff; [|apply forward]. intros i. pose proof (holds_not_in (text v) w i W). tauto.
  - eapply last_at_iff; [|apply backward]. intros i. pose proof (holds_not_in (text v) w i W). tauto.
Qed.
Example C281_example : find_first_not_of abcab ab 0 = Some 2 /\ find_last_not_of abcab ab 9 = Some 2 /\ find_first_not_of abcab none_ 5 = None /\ find_first_not_of abcab none_ 4 = Some 4.
Proof. repeat split. Qed.

(** *** C282: a view of a std::string shows all of it, NUL bytes too, and converts back to it; a view of a C string shows it up to its NUL byte. *)
Theorem C282_conversions : (forall s, valid (of_string s) /\ to_string (of_string s) = s) /\
  (forall mem off v, of_cstr mem off = Ok v -> valid v /\ ~ In 0%Z (text v) /\ exists a b, mem = a ++ text v ++ 0%Z :: b /\ length a = off) /\
  (forall mem off, of_cstr mem off = UB <-> ~ In 0%Z (skipn off mem)) /\ (forall mem off, of_cstr mem off <> CheckFail).
Proof.
  assert (CS : forall l, match cstr_length l with Some n => n < length l /\ ~ In 0%Z (firstn n l) /\ exists b, l = firstn n l ++ 0%Z :: b | None => ~ In 0%Z l end).
  { induction l as [|c l IH]; cbn [cstr_length]; [intros []|]. destruct (Z.eqb_spec c 0) as [->|N]; [cbn; split; [lia|]; split; [intros []|exists l; reflexivity]|].
    destruct (cstr_length l) as [n|]; cbn [option_map]; [|intros [E|I]; [congruence|exact (IH I)]]. destruct IH as (A & B & b & E). cbn [length firstn]. split; [lia|]. split; [intros [X|X]; [congruence|exact (B X)]|].
    exists b. cbn [app]. f_equal. exact E. }
  split; [intros s; split; [unfold valid; cbn; lia|unfold to_string, text, slice, of_string; cbn; now rewrite firstn_all]|]. split; [|split].
  - intros mem off v. unfold of_cstr. pose proof (CS (skipn off mem)) as H. destruct (cstr_length (skipn off mem)) as [n|]; [|discriminate]. intros E. inv E. destruct H as (A & B & b & E). rewrite skipn_length in A.
    split; [unfold valid; cbn; lia|]. unfold text, slice. cbn [v_buf v_off v_len]. split; [exact B|]. exists (firstn off mem), b. split; [|rewrite firstn_length; lia]. rewrite <- E. now rewrite firstn_skipn.
  - intros mem off. unfold of_cstr. pose proof (CS (skipn off mem)) as H. destruct (cstr_length (skipn off mem)) as [n|]; [|tauto]. split; [discriminate|]. intros N. exfalso. destruct H as (_ & _ & b & E). apply N. rewrite E. apply in_or_app. right. now left.
  - intros mem off. unfold of_cstr. destruct (cstr_length _); discriminate.
Qed.
Example C282_example : to_string (of_string [1; 0; 2]%Z) = [1; 0; 2]%Z /\ (match of_cstr [5; 6; 7; 0; 8]%Z 1 with Ok v => text v | _ => [] end) = [6; 7]%Z /\ of_cstr [5; 6]%Z 0 = UB.
Proof. repeat split. Qed.

Print Assumptions C275_parts.
Print Assumptions C275_access.
Print Assumptions C276_compare.
Print Assumptions C276_order.
Print Assumptions C277_starts_ends.
Print Assumptions C278_statement_refuted.
Print Assumptions C278_find_partial.
Print Assumptions C278_empty_at_end.
Print Assumptions C279_rfind.
Print Assumptions C280_any_of.
Print Assumptions C281_none_of.
Print Assumptions C282_conversions.
