From Verif.Model Require Import Common StringView.
From Verif.Spec Require Import StringViewSpec.
From Verif.Proofs Require Import Tac.
Local Open Scope nat_scope.

Lemma text_length v : valid v -> length (text v) = v_len v.
Proof. unfold valid, text, slice. intros H. rewrite firstn_length, skipn_length. lia. Qed.
Lemma slice_slice (l : list Z) a n b m : b + m <= n -> slice (slice l a n) b m = slice l (a + b) m.
Proof. unfold slice. intros H. rewrite skipn_firstn_comm, firstn_firstn, Nat.min_l by lia. now rewrite skipn_add. Qed.
Lemma memcmp_sign n : forall a b, n = Nat.min (length a) (length b) ->
  let r := memcmp n a b in
  r = (-1)%Z /\ before a b \/ r = 1%Z /\ before b a \/ r = 0%Z /\ (length a = length b -> a = b) /\ (length a < length b -> before a b) /\ (length b < length a -> before b a).
Proof.
  induction n as [|n IH]; intros [|x a] [|y b] E; cbn [length] in E; try discriminate; cbn zeta; cbn [memcmp].
  - right. right. repeat split; auto; cbn; lia.
  - right. right. split; [reflexivity|]. split; [discriminate|]. split; [intros _; constructor|cbn; lia].
  - right. right. split; [reflexivity|]. split; [discriminate|]. split; [cbn; lia|intros _; constructor].
  - destruct (Z.ltb_spec x y); [left; split; [reflexivity|now constructor]|]. destruct (Z.ltb_spec y x); [right; left; split; [reflexivity|now constructor]|].
    assert (x = y) as -> by lia. destruct (IH a b ltac:(cbn in E; lia)) as [[-> B]|[[-> B]|(-> & B & C & D)]]; [left|right; left|right; right].
    + split; [reflexivity|now constructor].
    + split; [reflexivity|now constructor].
    + split; [reflexivity|]. cbn [length]. split; [intros L; f_equal; apply B; lia|]. split; intros L; constructor; [apply C|apply D]; lia.
Qed.
Lemma before_irrefl a : ~ before a a.
Proof. induction a as [|x a IH]; intros H; inversion H; subst; [lia|auto]. Qed.
Lemma before_trans a b c : before a b -> before b c -> before a c.
Proof.
  intros H. revert c. induction H as [y b|x y a b L|x a b H IH]; intros c K; inversion K; subst; first [apply before_end|apply before_byte; lia|apply before_cons; auto].
Qed.
Lemma before_asym a b : before a b -> before b a -> False.
Proof. intros H K. exact (before_irrefl a (before_trans _ _ _ H K)). Qed.
Lemma before_total a : forall b, before a b \/ a = b \/ before b a.
Proof.
  induction a as [|x a IH]; intros [|y b]; [auto|left; constructor|right; right; constructor|]. destruct (Z.lt_trichotomy x y) as [L|[->|L]]; [left; now constructor| |right; right; now constructor].
  destruct (IH b) as [H|[->|H]]; [left; now constructor|auto|right; right; now constructor].
Qed.
Lemma compare_sign v w : valid v -> valid w ->
  (compare v w = -1 /\ before (text v) (text w) \/ compare v w = 1 /\ before (text w) (text v) \/ compare v w = 0 /\ text v = text w)%Z.
Proof.
  intros V W. pose proof (text_length v V) as LV. pose proof (text_length w W) as LW. unfold compare. rewrite <- LV, <- LW.
  destruct (memcmp_sign (Nat.min (length (text v)) (length (text w))) (text v) (text w) eq_refl) as [[-> B]|[[-> B]|(-> & B & C & D)]]; [left; split; [reflexivity|exact B]|right; left; split; [reflexivity|exact B]|]. cbn [Z.eqb negb].
  destruct (Nat.eqb_spec (length (text v)) (length (text w))); [right; right; auto|]. destruct (Nat.ltb_spec (length (text v)) (length (text w))); [left; auto|right; left; split; [reflexivity|apply D; lia]].
Qed.
Lemma compare_zero v w : valid v -> valid w -> (compare v w = 0%Z <-> text v = text w).
Proof.
  intros V W. destruct (compare_sign v w V W) as [[-> B]|[[-> B]|[-> B]]]; split; intros H; try discriminate; auto; exfalso; rewrite H in B; exact (before_irrefl _ B).
Qed.
Lemma compare_neg v w : valid v -> valid w -> (compare v w < 0 <-> before (text v) (text w))%Z.
Proof.
  intros V W. destruct (compare_sign v w V W) as [[-> B]|[[-> B]|[-> B]]]; split; intros H; try lia; auto; exfalso; [exact (before_asym _ _ H B)|rewrite B in H; exact (before_irrefl _ H)].
Qed.
Lemma compare_pos v w : valid v -> valid w -> (0 < compare v w <-> before (text w) (text v))%Z.
Proof.
  intros V W. destruct (compare_sign v w V W) as [[-> B]|[[-> B]|[-> B]]]; split; intros H; try lia; auto; exfalso; [exact (before_asym _ _ H B)|rewrite B in H; exact (before_irrefl _ H)].
Qed.
(** Parts. *)
Lemma substr_spec v pos n : valid v -> match substr v pos n with
  | None => v_len v < pos
  | Some s => pos <= v_len v /\ valid s /\ v_buf s = v_buf v /\ exists a b, text v = a ++ text s ++ b /\ length a = pos /\ length (text s) = Nat.min n (v_len v - pos)
  end.
Proof.
  intros V. unfold substr. destruct (Nat.ltb_spec (v_len v) pos) as [|L]; [assumption|]. split; [assumption|].
  assert (W : valid (View (v_buf v) (v_off v + pos) (Nat.min n (v_len v - pos)))) by (unfold valid in *; cbn; lia). split; [exact W|]. split; [reflexivity|].
  exists (firstn pos (text v)), (skipn (pos + Nat.min n (v_len v - pos)) (text v)). pose proof (text_length v V) as LV. split; [|split; [rewrite firstn_length; lia|rewrite (text_length _ W); reflexivity]].
  unfold text at 3. cbn [v_buf v_off v_len]. rewrite <- (slice_slice (v_buf v) (v_off v) (v_len v) pos (Nat.min n (v_len v - pos))) by lia. fold (text v). unfold slice.
  rewrite skipn_add. rewrite firstn_skipn. now rewrite firstn_skipn.
Qed.
(** Searching. *)
Lemma prefixb_spec n : forall h, prefixb n h = true <-> exists b, h = n ++ b.
Proof.
  induction n as [|x n IH]; intros h; cbn [prefixb]; [split; [intros _; exists h; reflexivity|reflexivity]|]. destruct h as [|y h]; [split; [discriminate|intros (b & E); discriminate]|].
  rewrite andb_true_iff, IH, Z.eqb_eq. split; [intros (-> & b & ->); exists b; reflexivity|intros (b & E); inv E; split; [reflexivity|exists b; reflexivity]].
Qed.
Lemma occurs_cons x h n i : occurs (x :: h) n (S i) <-> occurs h n i.
Proof.
  split; intros (a & b & E & L).
  - destruct a as [|y a]; [discriminate|]. cbn in E, L. inv E. exists a, b. split; [reflexivity|lia].
  - exists (x :: a), b. cbn. rewrite E, L. auto.
Qed.
Lemma occurs_zero h n : occurs h n 0 <-> prefixb n h = true.
Proof. rewrite prefixb_spec. split; [intros ([|] & b & E & L); [exists b; exact E|discriminate]|intros (b & E); exists [], b; auto]. Qed.
Lemma occurs_bound h n i : occurs h n i -> i + length n <= length h.
Proof. intros (a & b & -> & <-). rewrite !app_length. lia. Qed.
Lemma search_spec n : forall h, (std_search h n <= length h) /\ (forall j, j < std_search h n -> ~ occurs h n j) /\ (std_search h n < length h -> occurs h n (std_search h n)) /\ (std_search h n = length h -> n <> [] -> ~ occurs h n (length h)).
Proof.
  induction h as [|x h (A & B & C & D)]; cbn [std_search].
  - destruct (prefixb n []) eqn:P; cbn [length]; (split; [lia|]); (split; [intros j J; lia|]); (split; [lia|]); intros _ NE O; apply occurs_bound in O; cbn in O; destruct n; [congruence|cbn in O; lia|congruence|cbn in O; lia].
  - destruct (prefixb n (x :: h)) eqn:P.
    + split; [lia|]. split; [intros j J; lia|]. split; [intros _; now apply occurs_zero|]. discriminate.
    + cbn [length]. split; [lia|]. split; [intros [|j] J O; [rewrite occurs_zero in O; congruence|rewrite occurs_cons in O; exact (B j ltac:(lia) O)]|]. split; [intros L; apply occurs_cons; apply C; lia|].
      intros E NE O. rewrite occurs_cons in O. apply D; [lia|exact NE|exact O].
Qed.
Lemma occurs_skip h n pos i : pos <= length h -> (occurs (skipn pos h) n i <-> occurs h n (pos + i)).
Proof.
  revert h. induction pos as [|pos IH]; intros h L; [reflexivity|]. destruct h as [|x h]; [cbn in L; lia|]. cbn [skipn Nat.add]. rewrite IH by (cbn in L; lia). now rewrite occurs_cons.
Qed.
Lemma find_end_spec n : n <> [] -> forall h, (std_find_end h n <= length h) /\ (std_find_end h n < length h -> occurs h n (std_find_end h n) /\ forall j, std_find_end h n < j -> ~ occurs h n j) /\ (std_find_end h n = length h -> forall j, ~ occurs h n j).
Proof.
  intros NE. induction h as [|x h (A & B & C)]; cbn [std_find_end].
  - cbn [length]. split; [lia|]. split; [lia|]. intros _ j O. apply occurs_bound in O. destruct n; [congruence|cbn in O; lia].
  - destruct (Nat.ltb_spec (std_find_end h n) (length h)) as [L|L].
    + destruct (B L) as [B1 B2]. cbn [length]. split; [lia|]. split; [|lia]. intros _. split; [now apply occurs_cons|]. intros [|j] J O; [lia|]. rewrite occurs_cons in O. exact (B2 j ltac:(lia) O).
    + specialize (C ltac:(lia)). destruct (prefixb n (x :: h)) eqn:P; cbn [length].
      * split; [lia|]. split; [|lia]. intros _. split; [now apply occurs_zero|]. intros [|j] J O; [lia|]. rewrite occurs_cons in O. exact (C j O).
      * split; [lia|]. split; [lia|]. intros _ [|j] O; [rewrite occurs_zero in O; congruence|rewrite occurs_cons in O; exact (C j O)].
Qed.
Lemma find_if_spec f : forall h, std_find_if f h <= length h /\ (forall j c, j < std_find_if f h -> nth_error h j = Some c -> f c = false) /\ (std_find_if f h < length h -> exists c, nth_error h (std_find_if f h) = Some c /\ f c = true).
Proof.
  induction h as [|x h (A & B & C)]; cbn [std_find_if]; [cbn; split; [lia|split; [intros; lia|lia]]|]. destruct (f x) eqn:F; cbn [length].
  - split; [lia|]. split; [intros; lia|]. intros _. exists x. auto.
  - split; [lia|]. split; [intros [|j] c J E; cbn in E; [congruence|apply (B j c); [lia|exact E]]|]. intros L. destruct C as (c & E & T); [lia|]. exists c. auto.
Qed.
Lemma member_spec s x : member s x = true <-> In x s.
Proof. unfold member. rewrite existsb_exists. split; [intros (y & I & E); apply Z.eqb_eq in E; now subst|intros I; exists x; split; [exact I|apply Z.eqb_refl]]. Qed.
Lemma nth_error_skip (l : list Z) : forall n j, nth_error (skipn n l) j = nth_error l (n + j).
Proof. induction l as [|x l IH]; intros [|n] j; cbn; auto. now destruct j. Qed.
(** A scan forwards and one backwards, for any predicate on bytes. *)
Definition holds (f : Z -> bool) (h : list Z) (i : nat) : Prop := exists c, nth_error h i = Some c /\ f c = true.
Lemma holds_bound f h i : holds f h i -> i < length h.
Proof. intros (c & E & _). apply nth_error_Some. congruence. Qed.
Lemma forward f (t : list Z) pos : first_at (fun i => pos <= i /\ holds f t i) (if length t <=? pos then None else to_pos (length t) (pos + std_find_if f (skipn pos t))).
Proof.
  destruct (Nat.leb_spec (length t) pos) as [L|L]; [intros j [J H]; apply holds_bound in H; lia|].
  destruct (find_if_spec f (skipn pos t)) as (A & B & C). rewrite skipn_length in *.
  assert (N : forall j c, nth_error (skipn pos t) j = Some c <-> nth_error t (pos + j) = Some c) by (intros j c; now rewrite nth_error_skip).
  unfold to_pos. destruct (Nat.eqb_spec (pos + std_find_if f (skipn pos t)) (length t)) as [E|E].
  - intros j [J (c & K & F)]. replace j with (pos + (j - pos)) in K by lia. assert (X : j < length t) by (apply nth_error_Some; replace j with (pos + (j - pos)) by lia; congruence). apply N in K. rewrite (B (j - pos) c ltac:(lia) K) in F. discriminate.
  - destruct C as (c & K & F); [lia|]. split; [split; [lia|exists c; split; [now apply N|exact F]]|]. intros j J [P (c' & K' & F')]. replace j with (pos + (j - pos)) in K' by lia. apply N in K'. rewrite (B (j - pos) c' ltac:(lia) K') in F'. discriminate.
Qed.
Lemma nth_error_rev_firstn (t : list Z) m r : m <= length t -> r < m -> nth_error (rev (firstn m t)) r = nth_error t (m - r - 1).
Proof.
  intros M R. rewrite (nth_error_nth' (rev (firstn m t)) 0%Z) by (rewrite rev_length, firstn_length; lia). rewrite rev_nth by (rewrite firstn_length; lia). rewrite firstn_length, Nat.min_l by lia.
  rewrite (nth_error_nth' t 0%Z) by lia. f_equal. rewrite <- (firstn_skipn m t) at 2. rewrite app_nth1 by (rewrite firstn_length; lia). f_equal. lia.
Qed.
Lemma backward f (t : list Z) pos : last_at (fun i => i <= pos /\ holds f t i)
  (if length t =? 0 then None else let pos := if length t <=? pos then length t - 1 else pos in to_pos_back (pos + 1) (std_find_if f (rev (firstn (pos + 1) t)))).
Proof.
  destruct (Nat.eqb_spec (length t) 0) as [Z|Z]; [intros j [_ H]; apply holds_bound in H; lia|].
  set (p := if length t <=? pos then length t - 1 else pos). cbn zeta.
  assert (P : p + 1 <= length t /\ forall i, i < length t -> (i <= pos <-> i <= p)) by (unfold p; destruct (Nat.leb_spec (length t) pos); split; [lia|intros; lia|lia|intros; lia]). destruct P as [P PE].
  destruct (find_if_spec f (rev (firstn (p + 1) t))) as (A & B & C). rewrite rev_length, firstn_length, Nat.min_l in * by lia. set (r := std_find_if f (rev (firstn (p + 1) t))) in *. unfold to_pos_back.
  assert (NO : forall j, p + 1 - r <= j -> j <= p -> ~ holds f t j).
  { intros j J1 J2 (c & K & F). assert (X : nth_error (rev (firstn (p + 1) t)) (p - j) = Some c) by (rewrite nth_error_rev_firstn by lia; replace (p + 1 - (p - j) - 1) with j by lia; exact K).
    rewrite (B (p - j) c ltac:(lia) X) in F. discriminate. }
  destruct (Nat.eqb_spec r (p + 1)) as [E|E].
  - intros j [J H]. pose proof (holds_bound _ _ _ H) as L. apply PE in J; [|exact L]. apply (NO j); [lia|exact J|exact H].
  - destruct C as (c & K & F); [lia|]. rewrite nth_error_rev_firstn in K by lia. assert (H : holds f t (p + 1 - r - 1)) by (exists c; auto). split; [split; [apply PE; [apply (holds_bound _ _ _ H)|lia]|exact H]|].
    intros j J [Q G]. pose proof (holds_bound _ _ _ G) as L. apply PE in Q; [|exact L]. apply (NO j); [lia|exact Q|exact G].
Qed.
Lemma not_in_view_spec w c : valid w -> not_in_view w c = true <-> ~ In c (text w).
Proof.
  intros W. unfold not_in_view, find_first_of. rewrite <- (text_length w W). pose proof (forward (member (text (of_char c))) (text w) 0) as H.
  destruct (if length (text w) <=? 0 then None else _) as [i|] eqn:E.
  - destruct H as [[_ (d & K & M)] _]. apply member_spec in M. cbn in M. destruct M as [->|[]]. split; [discriminate|]. intros N. exfalso. apply N. eapply nth_error_In; eauto.
  - split; [|reflexivity]. intros _ I. apply In_nth_error in I. destruct I as (j & J). apply (H j). split; [lia|]. exists c. split; [exact J|]. apply member_spec. cbn. auto.
Qed.
Lemma first_at_iff (P Q : nat -> Prop) r : (forall i, P i <-> Q i) -> first_at P r -> first_at Q r.
Proof. intros E. destruct r as [i|]; cbn; [intros [A B]; split; [now apply E|intros j J H; apply E in H; exact (B j J H)]|intros A j H; apply E in H; exact (A j H)]. Qed.
Lemma last_at_iff (P Q : nat -> Prop) r : (forall i, P i <-> Q i) -> last_at P r -> last_at Q r.
Proof. intros E. destruct r as [i|]; cbn; [intros [A B]; split; [now apply E|intros j J H; apply E in H; exact (B j J H)]|intros A j H; apply E in H; exact (A j H)]. Qed.
Lemma holds_in h set i : holds (member set) h i <-> byte_in h set i.
Proof. split; intros (c & E & M); exists c; (split; [exact E|]); now apply member_spec. Qed.
Lemma holds_not_in h w i : valid w -> holds (not_in_view w) h i <-> byte_not_in h (text w) i.
Proof. intros W. split; intros (c & E & M); exists c; (split; [exact E|]); now apply not_in_view_spec. Qed.

Lemma app_inv_both : forall (a b c d : list Z), a ++ b = c ++ d -> length a = length c -> a = c /\ b = d.
Proof. induction a as [|x a IH]; intros b [|y c] d E L; try discriminate; [split; [reflexivity|exact E]|]. cbn in E, L. injection E as -> E. destruct (IH b c d E) as [-> ->]; [lia|]. split; reflexivity. Qed.
