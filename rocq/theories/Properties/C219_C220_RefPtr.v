(** C219-C220: reference counted pointers and cleanup objects (base/memory/). *)
From Verif.Model Require Import Common RefPtr.
From Verif.Spec Require Import WaitSpec.
From Verif.Proofs Require Import Tac RefPtrProofs.

(** C219. In every program that keeps to the C++ rules for its pointer variables no deleted object is used; every non-null pointer refers to a
    live object; an object's count is the number of smart pointers to it plus the references given away by release(); an object
    that ever had a reference is deleted, exactly once, exactly when there is none left. *)
Theorem C219_references : forall n os, legal (start n) os -> exists m, run (start n) os = Ok m /\
  (forall h o, ptr m h = Some o -> alive m o) /\
  (forall o c d, nth_error (objs m) o = Some (Obj c d) -> d <= 1 /\ c = owners o m + leaked o m /\ (d = 1 -> c = 0)).
Proof.
  intros n os Hl. destruct (run_ok os _ (counted_start n) Hl) as (m & E & Hc & _). exists m. split; [ exact E | ]. split.
  - intros h o Hp. destruct (Nat.lt_ge_cases h (length (ptrs m))) as [Hh|Hh].
    + pose proof (ptr_valid m [] h Hc Hh) as Hv. rewrite Hp in Hv. exact Hv.
    + unfold ptr in Hp. rewrite nth_overflow in Hp by exact Hh. discriminate Hp.
  - intros o c d Ho. specialize (Hc o). rewrite Ho in Hc. unfold total in Hc. cbn in Hc. destruct d as [|d].
    + lia.
    + destruct Hc as (-> & -> & Ht). lia.
Qed.
(** Exactly when: after any continuation of a moment when the object had a reference, it is deleted if and only if it has none. *)
Theorem C219_deleted_with_last_reference : forall n os os' m m' o, legal (start n) (os ++ os') -> run (start n) os = Ok m -> 0 < owners o m + leaked o m ->
  run m os' = Ok m' -> (exists c, nth_error (objs m') o = Some (Obj c 1)) <-> owners o m' + leaked o m' = 0.
Proof.
  intros n os os' m m' o Hl E Ho E'.
  assert (Hsplit : forall os m0, legal m0 (os ++ os') -> counted m0 [] -> run m0 os = Ok m -> counted m [] /\ legal m os').
  { clear. induction os as [|x os IH]; cbn; intros m0 Hl Hc E; [ injection E as ->; auto | ]. destruct Hl as [Hp Hl].
    destruct (step_ok m0 x Hc Hp) as (m1 & E1 & Hc1 & _). rewrite E1 in *. cbn in E. eauto. }
  destruct (Hsplit os _ Hl (counted_start n) E) as [Hc Hl'].
  destruct (run_ok os' m Hc Hl') as (m2 & E2 & Hc2 & _). rewrite E' in E2. injection E2 as <-.
  assert (Ht : touched m o).
  { pose proof (counted_alive m [] o Hc) as Ha. unfold total in Ha. cbn in Ha. destruct Ha as [c Hn]; [ lia | ].
    specialize (Hc o). rewrite Hn in Hc. exists c, 0. split; [ exact Hn | left; unfold total in Hc; cbn in Hc; lia ]. }
  apply (run_touched os' _ _ _ E') in Ht. destruct Ht as (c & d & Hn & Hcd). specialize (Hc2 o). rewrite Hn in Hc2. unfold total in Hc2. cbn in Hc2. split.
  - intros [c' Hn']. rewrite Hn in Hn'. injection Hn' as -> ->. lia.
  - intros H0. destruct d as [|d]; [ lia | ]. destruct Hc2 as (-> & -> & _). exists 0. exact Hn.
Qed.
Definition tour : list op := [ONew; OCtor 0 (Some 0); OCopy 1 0; ONew; OAssign 0 (Some 1); OMove 2 1; OAssignMove 0 2; OAssignCopy 0 0; OSwap 0 1; ORelease 1].
Example C219_nonvacuous : legal (start 3) tour /\ run (start 3) tour = Ok (Mem [Obj 1 0; Obj 0 1] [None; None; None] [0]).
Proof. split; [ | reflexivity ]. cbn. unfold alive. repeat split; try lia; eexists; reflexivity. Qed.

(** C220 (refuted). A deferred function runs exactly once, when its scope ends, also if the object was moved. [objects n d]: the
    object after n moves, and what they left. *)
Fixpoint objects (n : nat) (d : defer) : list defer :=
  match n with O => [d] | S n => let (now_, left_) := move_defer d in left_ :: objects n now_ end.
Fixpoint end_all (ds : list defer) : outcome (list nat) :=
  match ds with [] => Ok [] | d :: ds => obind (end_defer d) (fun a => obind (end_all ds) (fun b => Ok (a ++ b))) end.
Definition C220_statement : Prop := forall f n, end_all (objects n (MakeDefer f)) = Ok [f].
Theorem C220_statement_refuted : ~ C220_statement.
Proof. intros H. discriminate (H 0 1). Qed.
(** Every move brings the process down: the object left behind calls its empty function. *)
Theorem C220_move_aborts : forall f n, end_all (objects (S n) (MakeDefer f)) = CheckFail.
Proof. intros f n. reflexivity. Qed.
(** A cancelled object that is moved is not cancelled any more. *)
Theorem C220_move_forgets_cancel : forall f, end_defer (fst (move_defer (Cancel (MakeDefer f)))) = Ok [f].
Proof. reflexivity. Qed.
(** A copied guard runs its function once per copy that was not dismissed. *)
Theorem C220_guard_copies : forall f n k, n <= k -> flat_map end_guard (repeat (DisMiss (Guard (Some f) false)) n ++ repeat (Guard (Some f) false) (k - n)) = repeat f (k - n).
Proof.
  intros f n k _. rewrite flat_map_app. assert (H1 : flat_map end_guard (repeat (DisMiss (Guard (Some f) false)) n) = []) by (induction n; cbn; auto).
  rewrite H1. cbn [app]. induction (k - n) as [|j IH]; cbn in *; [ reflexivity | rewrite IH; reflexivity ].
Qed.
Theorem C220_unmoved_partial : forall f, end_all (objects 0 (MakeDefer f)) = Ok [f] /\ end_all (objects 0 (Cancel (MakeDefer f))) = Ok [] /\
  end_guard (Guard (Some f) false) = [f] /\ end_guard (DisMiss (Guard (Some f) false)) = [].
Proof. repeat split. Qed.

Print Assumptions C219_references.
Print Assumptions C219_deleted_with_last_reference.
Print Assumptions C220_statement_refuted.
Print Assumptions C220_move_aborts.
Print Assumptions C220_move_forgets_cancel.
Print Assumptions C220_guard_copies.
Print Assumptions C220_unmoved_partial.
