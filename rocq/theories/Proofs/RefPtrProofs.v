(** Reference counts: every reference is a pointer variable, one given away, or a temporary of the operation in progress. *)
From Verif.Model Require Import Common RefPtr.
From Verif.Spec Require Import WaitSpec.
From Verif.Proofs Require Import Tac.

Lemma set_length {A} (l : list A) : forall i x, length (set l i x) = length l.
Proof. induction l as [|y l IH]; intros [|i] x; cbn; auto. Qed.
Lemma nth_set {A} (l : list A) d : forall i j x, i < length l -> nth j (set l i x) d = if Nat.eqb i j then x else nth j l d.
Proof.
  induction l as [|y l IH]; intros [|i] [|j] x H; cbn in *; try lia; try reflexivity. apply IH. lia.
Qed.
Lemma nth_error_set {A} (l : list A) : forall i j x, i < length l -> nth_error (set l i x) j = if Nat.eqb i j then Some x else nth_error l j.
Proof.
  induction l as [|y l IH]; intros [|i] [|j] x H; cbn in *; try lia; try reflexivity. apply IH. lia.
Qed.
Lemma set_set {A} (l : list A) : forall g p d, set l g p = set (set l g d) g p.
Proof. induction l as [|y l IH]; intros [|g] p d; cbn; try reflexivity. f_equal. apply IH. Qed.
Lemma set_swap {A} (l : list A) : forall g h p' p d, set (set l h p') g p = set (set (set l g d) h p') g p.
Proof.
  induction l as [|y l IH]; intros [|g] [|h] p' p d; cbn; try reflexivity; f_equal; [apply set_set|apply IH].
Qed.
Lemma count_set o l : forall h p, h < length l ->
  length (filter (holds o) (set l h p)) + one_if (holds o (nth h l None)) = length (filter (holds o) l) + one_if (holds o p).
Proof.
  induction l as [|y l IH]; intros [|h] p H; cbn in *; try lia.
  - destruct (holds o p), (holds o y); cbn; lia.
  - specialize (IH h p ltac:(lia)). destruct (holds o y); cbn; lia.
Qed.

(** References to [o], the temporaries [ex] included. *)
Definition total (o : nat) (m : mem) (ex : list (option nat)) : nat := owners o m + leaked o m + length (filter (holds o) ex).
Definition counted (m : mem) (ex : list (option nat)) : Prop := forall o,
  match nth_error (objs m) o with
  | Some (Obj c 0) => c = total o m ex
  | Some (Obj c (S d)) => c = 0 /\ d = 0 /\ total o m ex = 0
  | None => total o m ex = 0
  end.
Lemma counted_nil m ex : counted m (None :: ex) <-> counted m ex.
Proof. unfold counted, total. split; intros H o; exact (H o). Qed.
Lemma total_cons o m p ex : total o m (p :: ex) = one_if (holds o p) + total o m ex.
Proof. unfold total. cbn. destruct (holds o p); cbn; lia. Qed.
Lemma counted_alive m ex o : counted m ex -> 0 < total o m ex -> alive m o.
Proof.
  intros C T. specialize (C o). unfold alive. destruct (nth_error (objs m) o) as [[c [|d]]|]; [eauto| |]; [destruct C as (_ & _ & C)|]; lia.
Qed.
Lemma addref_ok m ex p : counted m ex -> valid m p -> exists m', AddRef m p = Ok m' /\ counted m' (p :: ex) /\ ptrs m' = ptrs m /\ raw m' = raw m.
Proof.
  intros C V. destruct p as [o|]; cbn.
  - destruct V as [c E]. rewrite E. eexists. split; [reflexivity|]. split; [|split; reflexivity].
    intros j. cbn [objs]. rewrite nth_error_set by (apply nth_error_Some; congruence). rewrite total_cons. cbn [holds].
    assert (Ct := C j). unfold total, owners, leaked in *. cbn [ptrs raw]. destruct (Nat.eqb o j) eqn:Q.
    + apply Nat.eqb_eq in Q. subst j. rewrite E in Ct. cbn [one_if]. lia.
    + cbn [one_if]. exact Ct.
  - exists m. split; [reflexivity|]. split; [apply counted_nil; exact C|split; reflexivity].
Qed.
Lemma release_ok m ex p : counted m (p :: ex) -> exists m', Release m p = Ok m' /\ counted m' ex /\ ptrs m' = ptrs m /\ raw m' = raw m.
Proof.
  intros C. destruct p as [o|]; cbn.
  - assert (Co := C o). rewrite total_cons in Co. cbn [holds] in Co. rewrite Nat.eqb_refl in Co. cbn [one_if] in Co.
    destruct (nth_error (objs m) o) as [[c [|d]]|] eqn:E; [|destruct Co as (_ & _ & X); lia|lia]. destruct c as [|c]; [lia|].
    eexists. split; [reflexivity|]. split; [|split; reflexivity]. intros j. cbn [objs]. rewrite nth_error_set by (apply nth_error_Some; congruence).
    assert (Cj := C j). rewrite total_cons in Cj. cbn [holds] in Cj. unfold total, owners, leaked in *. cbn [ptrs raw]. destruct (Nat.eqb o j) eqn:Q.
    + apply Nat.eqb_eq in Q. subst j. destruct (Nat.eqb c 0) eqn:Z; [apply Nat.eqb_eq in Z|apply Nat.eqb_neq in Z]; lia.
    + cbn [one_if] in Cj. exact Cj.
  - exists m. split; [reflexivity|]. split; [apply counted_nil; exact C|split; reflexivity].
Qed.
Lemma set_counted m ex h p : h < length (ptrs m) -> counted m (p :: ex) -> counted (set_ptr m h p) (ptr m h :: ex).
Proof.
  intros L C o. assert (Co := C o). rewrite total_cons in *. cbn [objs set_ptr].
  assert (K : one_if (holds o (ptr m h)) + total o (set_ptr m h p) ex = one_if (holds o p) + total o m ex).
  { unfold total, owners, leaked, ptr. cbn [ptrs raw set_ptr]. assert (Q := count_set o (ptrs m) h p L). lia. }
  rewrite K. exact Co.
Qed.
Lemma release_set m h q p : obind (Release m p) (fun m => Ok (set_ptr m h q)) = Release (set_ptr m h q) p.
Proof. destruct p as [o|]; [|reflexivity]. cbn. destruct (nth_error (objs m) o) as [[[|c] [|d]]|]; reflexivity. Qed.
Lemma ptr_set m h g p : h < length (ptrs m) -> ptr (set_ptr m h p) g = if Nat.eqb h g then p else ptr m g.
Proof. intros L. unfold ptr. cbn. apply nth_set. exact L. Qed.
Lemma ptr_same m m' g : ptrs m' = ptrs m -> ptr m' g = ptr m g.
Proof. intros E. unfold ptr. rewrite E. reflexivity. Qed.
Lemma ptr_valid m ex g : counted m ex -> g < length (ptrs m) -> valid m (ptr m g).
Proof.
  intros C L. destruct (ptr m g) as [o|] eqn:E; [|exact Logic.I]. apply (counted_alive m ex o C). unfold total, owners.
  assert (I : In (Some o) (ptrs m)). { unfold ptr in E. rewrite <- E. apply nth_In. exact L. }
  assert (J : In (Some o) (filter (holds o) (ptrs m))). { apply filter_In. split; [exact I|]. cbn. apply Nat.eqb_refl. }
  destruct (filter (holds o) (ptrs m)); [destruct J|]. cbn. lia.
Qed.
Lemma assign_ok m h p : counted m [] -> h < length (ptrs m) -> valid m p -> exists m', assign m h p = Ok m' /\ counted m' [] /\ length (ptrs m') = length (ptrs m).
Proof.
  intros C L V. unfold assign. destruct (addref_ok m [] p C V) as (m1 & A & C1 & P1 & R1). rewrite A. cbn [obind]. rewrite release_set.
  assert (L1 : h < length (ptrs m1)) by (rewrite P1; exact L).
  assert (C2 := set_counted m1 [] h p L1 C1). rewrite (ptr_same m m1) in * by exact P1.
  destruct (release_ok _ _ _ C2) as (m2 & B & C3 & P2 & R2). exists m2. split; [exact B|]. split; [exact C3|]. rewrite P2. cbn. rewrite set_length, P1. reflexivity.
Qed.
Lemma step_ok m o : counted m [] -> permitted m o -> exists m', step m o = Ok m' /\ counted m' [] /\ length (ptrs m') = length (ptrs m).
Proof.
  intros C P. destruct o as [|h p|h g|h g|h|h p|h g|h g|h g|h]; cbn [permitted step] in *.
  - eexists. split; [reflexivity|]. split; [|reflexivity]. intros o. cbn [objs]. assert (Co := C o). unfold total, owners, leaked in *. cbn [ptrs raw] in *.
    destruct (Nat.lt_ge_cases o (length (objs m))) as [X|X].
    + rewrite nth_error_app1 by exact X. exact Co.
    + rewrite nth_error_app2 by exact X. rewrite (proj2 (nth_error_None _ _) X) in Co. destruct (o - length (objs m)) as [|k]; cbn; [lia|]. destruct k; cbn; lia.
  - destruct P as (L & N & V). destruct (addref_ok m [] p C V) as (m1 & A & C1 & P1 & R1). rewrite A. cbn [obind]. eexists. split; [reflexivity|].
    assert (L1 : h < length (ptrs m1)) by (rewrite P1; exact L). assert (C2 := set_counted m1 [] h p L1 C1). rewrite (ptr_same m m1 h P1), N in C2.
    split; [apply counted_nil; exact C2|]. cbn. rewrite set_length, P1. reflexivity.
  - destruct P as (L & Lg & N). destruct (addref_ok m [] (ptr m g) C (ptr_valid m [] g C Lg)) as (m1 & A & C1 & P1 & R1). rewrite A. cbn [obind]. eexists. split; [reflexivity|].
    assert (L1 : h < length (ptrs m1)) by (rewrite P1; exact L). assert (C2 := set_counted m1 [] h (ptr m g) L1 C1). rewrite (ptr_same m m1 h P1), N in C2.
    rewrite (ptr_same m m1 g P1). split; [apply counted_nil; exact C2|]. cbn. rewrite set_length, P1. reflexivity.
  - destruct P as (L & Lg & N). eexists. split; [reflexivity|].
    assert (C1 := set_counted m [] g None Lg (proj2 (counted_nil m []) C)).
    assert (L1 : h < length (ptrs (set_ptr m g None))) by (cbn; rewrite set_length; exact L).
    assert (C2 := set_counted _ _ h _ L1 C1). rewrite ptr_set in C2 by exact Lg.
    split; [|cbn; rewrite !set_length; reflexivity]. destruct (Nat.eqb g h); [|rewrite N in C2]; apply counted_nil; exact C2.
  - rewrite release_set. assert (C1 := set_counted m [] h None P (proj2 (counted_nil m []) C)). destruct (release_ok _ _ _ C1) as (m2 & B & C3 & P2 & R2).
    exists m2. split; [exact B|]. split; [exact C3|]. rewrite P2. cbn. apply set_length.
  - destruct P as (L & V). exact (assign_ok m h p C L V).
  - destruct P as (L & Lg). exact (assign_ok m h _ C L (ptr_valid m [] g C Lg)).
  - destruct P as (L & Lg).
    assert (C1 := set_counted m [] g None Lg (proj2 (counted_nil m []) C)).
    assert (L1 : h < length (ptrs (set_ptr m g None))) by (cbn; rewrite set_length; exact L).
    assert (C2 := set_counted _ _ h _ L1 C1). destruct (release_ok _ _ _ C2) as (m2 & B & C3 & P2 & R2). cbn zeta. rewrite B. cbn [obind].
    exists m2. split; [reflexivity|]. split; [exact C3|]. rewrite P2. cbn. rewrite !set_length. reflexivity.
  - destruct P as (L & Lg). eexists. split; [reflexivity|]. cbn zeta.
    assert (E : set_ptr (set_ptr m h (ptr m g)) g (ptr m h) = set_ptr (set_ptr (set_ptr m g None) h (ptr m g)) g (ptr m h)).
    { unfold set_ptr. cbn. f_equal. apply set_swap. }
    rewrite E. assert (C1 := set_counted m [] g None Lg (proj2 (counted_nil m []) C)).
    assert (L1 : h < length (ptrs (set_ptr m g None))) by (cbn; rewrite set_length; exact L).
    assert (C2 := set_counted _ _ h _ L1 C1). rewrite ptr_set in C2 by exact Lg.
    assert (L2 : g < length (ptrs (set_ptr (set_ptr m g None) h (ptr m g)))) by (cbn; rewrite !set_length; exact Lg).
    split; [|cbn; rewrite !set_length; reflexivity]. destruct (Nat.eqb g h) eqn:Q.
    + apply Nat.eqb_eq in Q. subst h. apply counted_nil in C2. assert (X := C2). apply counted_nil in X.
      (* the same variable twice *)
      assert (E2 : set_ptr (set_ptr (set_ptr m g None) g (ptr m g)) g (ptr m g) = set_ptr (set_ptr m g None) g (ptr m g)).
      { unfold set_ptr. cbn [objs ptrs raw]. f_equal. symmetry. apply set_set. }
      rewrite E2. apply counted_nil. exact X.
    + assert (C3 := set_counted _ _ g _ L2 C2). rewrite ptr_set in C3 by exact L1. rewrite Nat.eqb_sym, Q in C3. rewrite ptr_set, Nat.eqb_refl in C3 by exact Lg.
      apply counted_nil. exact C3.
  - eexists. split; [reflexivity|]. cbn [ptrs]. split; [|apply set_length].
    assert (C1 := set_counted m [] h None P (proj2 (counted_nil m []) C)).
    intros o. assert (Co := C1 o). unfold total, owners, leaked in *. cbn [objs ptrs raw set_ptr] in *. cbn [filter] in Co.
    destruct (ptr m h) as [x|]; [|exact Co]. cbn [holds filter] in *. rewrite (Nat.eqb_sym o x). destruct (Nat.eqb x o); cbn [length] in *; [|exact Co].
    destruct (nth_error (objs m) o) as [[c [|d]]|]; lia.
Qed.
Lemma run_ok os : forall m, counted m [] -> legal m os -> exists m', run m os = Ok m' /\ counted m' [] /\ length (ptrs m') = length (ptrs m).
Proof.
  induction os as [|o os IH]; intros m C PL.
  - exists m. auto.
  - destruct PL as [P L]. cbn [run]. destruct (step_ok m o C P) as (m1 & E & C1 & L1). rewrite E in L |- *. cbn [obind]. destruct (IH m1 C1 L) as (m2 & E2 & C2 & L2).
    exists m2. split; [exact E2|]. split; [exact C2|congruence].
Qed.
Lemma counted_start n : counted (start n) [].
Proof.
  intros o. unfold start, total, owners, leaked. cbn [objs ptrs raw filter length]. 
  assert (F : filter (holds o) (repeat None n) = []) by (induction n; [reflexivity|exact IHn]). rewrite F. destruct o; reflexivity.
Qed.
(** An object that was referenced once stays referenced or is deleted. *)
Definition touched (m : mem) (o : nat) : Prop := exists c d, nth_error (objs m) o = Some (Obj c d) /\ (0 < c \/ 0 < d).
Lemma addref_touched m p m' o : AddRef m p = Ok m' -> touched m o -> touched m' o.
Proof.
  destruct p as [x|]; cbn; [|intros H; inv H; auto]. destruct (nth_error (objs m) x) as [[c [|d]]|] eqn:E; try discriminate. intros H T. inv H.
  destruct T as (c0 & d0 & T & G). unfold touched. cbn. rewrite nth_error_set by (apply nth_error_Some; congruence). destruct (Nat.eqb x o) eqn:Q; [|eauto].
  exists (S c), 0. split; [reflexivity|lia].
Qed.
Lemma release_touched m p m' o : Release m p = Ok m' -> touched m o -> touched m' o.
Proof.
  destruct p as [x|]; cbn; [|intros H; inv H; auto]. destruct (nth_error (objs m) x) as [[[|c] [|d]]|] eqn:E; try discriminate. intros H T. inv H.
  destruct T as (c0 & d0 & T & G). unfold touched. cbn. rewrite nth_error_set by (apply nth_error_Some; congruence). destruct (Nat.eqb x o) eqn:Q; [|eauto].
  eexists. eexists. split; [reflexivity|]. destruct (Nat.eqb c 0) eqn:Z; [lia|apply Nat.eqb_neq in Z; lia].
Qed.
Lemma assign_touched m h p m' o : assign m h p = Ok m' -> touched m o -> touched m' o.
Proof.
  unfold assign. intros H T. destruct (AddRef m p) as [m1| |] eqn:A; cbn in H; try discriminate. apply (addref_touched _ _ _ _ A) in T.
  destruct (Release m1 (ptr m1 h)) as [m2| |] eqn:B; cbn in H; try discriminate. apply (release_touched _ _ _ _ B) in T. inv H. exact T.
Qed.
Lemma step_touched m e m' o : step m e = Ok m' -> touched m o -> touched m' o.
Proof.
  destruct e as [|h p|h g|h g|h|h p|h g|h g|h g|h]; cbn [step]; intros H T.
  - inv H. destruct T as (c & d & T & G). exists c, d. split; [|exact G]. cbn. rewrite nth_error_app1; [exact T|]. apply nth_error_Some. congruence.
  - destruct (AddRef m p) as [m1| |] eqn:A; cbn in H; try discriminate. apply (addref_touched _ _ _ _ A) in T. inv H. exact T.
  - destruct (AddRef m (ptr m g)) as [m1| |] eqn:A; cbn in H; try discriminate. apply (addref_touched _ _ _ _ A) in T. inv H. exact T.
  - inv H. exact T.
  - destruct (Release m (ptr m h)) as [m1| |] eqn:A; cbn in H; try discriminate. apply (release_touched _ _ _ _ A) in T. inv H. exact T.
  - exact (assign_touched _ _ _ _ _ H T).
  - exact (assign_touched _ _ _ _ _ H T).
  - match type of H with obind (Release ?x ?y) _ = _ => destruct (Release x y) as [m1| |] eqn:A end; cbn in H; try discriminate.
    inv H. exact (release_touched _ _ _ _ A T).
  - inv H. exact T.
  - inv H. exact T.
Qed.
Lemma run_touched os : forall m m' o, run m os = Ok m' -> touched m o -> touched m' o.
Proof.
  induction os as [|e os IH]; intros m m' o H T; cbn in H; [inv H; exact T|]. destruct (step m e) as [m1| |] eqn:E; cbn in H; try discriminate.
  exact (IH _ _ _ H (step_touched _ _ _ _ E T)).
Qed.
