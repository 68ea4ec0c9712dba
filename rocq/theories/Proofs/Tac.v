(** Shared tactics and list lemmas. *)
From Verif.Model Require Import Common.

Ltac inv H := inversion H; subst; clear H.

Ltac dmatch :=
  repeat match goal with
  | |- context [match ?x with _ => _ end] => destruct x eqn:?
  | H : context [match ?x with _ => _ end] |- _ => destruct x eqn:?
  end.

Ltac b2p :=
  repeat match goal with
  | H : (_ <=? _)%nat = true |- _ => apply Nat.leb_le in H
  | H : (_ <=? _)%nat = false |- _ => apply Nat.leb_gt in H
  | H : (_ <? _)%nat = true |- _ => apply Nat.ltb_lt in H
  | H : (_ <? _)%nat = false |- _ => apply Nat.ltb_ge in H
  | H : (_ =? _)%nat = true |- _ => apply Nat.eqb_eq in H
  | H : (_ =? _)%nat = false |- _ => apply Nat.eqb_neq in H
  | H : (_ <=? _)%Z = true |- _ => apply Z.leb_le in H
  | H : (_ <=? _)%Z = false |- _ => apply Z.leb_gt in H
  | H : (_ <? _)%Z = true |- _ => apply Z.ltb_lt in H
  | H : (_ <? _)%Z = false |- _ => apply Z.ltb_ge in H
  | H : (_ =? _)%Z = true |- _ => apply Z.eqb_eq in H
  | H : (_ =? _)%Z = false |- _ => apply Z.eqb_neq in H
  | H : (_ && _)%bool = true |- _ => apply andb_prop in H; destruct H
  | H : (_ || _)%bool = false |- _ => apply orb_false_elim in H; destruct H
  | H : negb _ = true |- _ => apply negb_true_iff in H
  | H : negb _ = false |- _ => apply negb_false_iff in H
  end.

Lemma slice_app_l {A} (a b : list A) i n : i + n <= length a -> slice (a ++ b) i n = slice a i n.
Proof.
  intro H. unfold slice. rewrite skipn_app, firstn_app.
  rewrite skipn_length. replace (n - (length a - i)) with 0 by lia. simpl. apply app_nil_r.
Qed.

Lemma slice_length {A} (a : list A) i n : i + n <= length a -> length (slice a i n) = n.
Proof. intro H. unfold slice. rewrite firstn_length, skipn_length. lia. Qed.

Lemma slice_all {A} (a : list A) : slice a 0 (length a) = a.
Proof. unfold slice. simpl. apply firstn_all. Qed.

Lemma slice_0 {A} (a : list A) n : slice a 0 n = firstn n a.
Proof. reflexivity. Qed.

Lemma slice_nil {A} (a : list A) i : slice a i 0 = [].
Proof. reflexivity. Qed.

Lemma firstn_add {A} (l : list A) n m : firstn (n + m) l = firstn n l ++ firstn m (skipn n l).
Proof. revert l; induction n; intros [|x l]; simpl; auto. now rewrite firstn_nil. now rewrite IHn. Qed.

Lemma skipn_add {A} (l : list A) n m : skipn (n + m) l = skipn m (skipn n l).
Proof. revert l; induction n; intros [|x l]; simpl; auto. now rewrite skipn_nil. Qed.

Lemma slice_add {A} (l : list A) i n m : slice l i (n + m) = slice l i n ++ slice l (i + n) m.
Proof. unfold slice. now rewrite firstn_add, skipn_add. Qed.

Lemma skipn_slice {A} (l : list A) i n k : skipn k (slice l i n) = slice l (i + k) (n - k).
Proof. unfold slice. now rewrite skipn_firstn_comm, skipn_add. Qed.

Lemma firstn_slice {A} (l : list A) i n k : firstn k (slice l i n) = slice l i (Nat.min k n).
Proof. unfold slice. now rewrite firstn_firstn. Qed.

Lemma slice_mid {A} (a b c : list A) : slice (a ++ b ++ c) (length a) (length b) = b.
Proof.
  unfold slice. rewrite skipn_app, Nat.sub_diag, skipn_all. simpl.
  rewrite firstn_app, Nat.sub_diag, firstn_all. simpl. apply app_nil_r.
Qed.

Lemma slice_mid' {A} (a b c : list A) i n : i = length a -> n = length b -> slice (a ++ b ++ c) i n = b.
Proof. intros -> ->. apply slice_mid. Qed.

Lemma bytes_dec l : forallb is_byteb l = true -> Forall is_byte l.
Proof.
  induction l; simpl; intro H; constructor; b2p; auto.
  unfold is_byteb in H. b2p. unfold is_byte. lia.
Qed.
