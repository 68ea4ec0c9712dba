(** C87-C90: the intrusive lists. *)
From Verif.Model Require Import Common Lists.
From Verif.Spec Require Import ListSpec.
From Verif.Proofs Require Import Tac ListProofs DListProofs.
Open Scope Z_scope.

(** ** C87: LinkedList *)
(** Every operation used as it must be succeeds without undefined behaviour, and leaves every list with exactly the nodes it should hold. *)
Theorem C87_refines : forall p h roots c o, lhist p h roots c -> allowed roots c o ->
  exists h', lrun o h = Ok h' /\ lhist (p ++ [o]) h' (roots_after roots o) (contents_after c o) /\
             holds h' (roots_after roots o) (contents_after c o).
Proof.
  intros p h roots c o L A. destruct (lrun_holds _ _ _ _ (lhist_holds _ _ _ _ L) A) as (h' & E & H).
  exists h'. split; [auto|]. split; auto. econstructor; eauto.
Qed.

(** What the program reads back: First(), empty(), and Attatched() of every node. *)
Theorem C87_reads : forall p h roots c, lhist p h roots c ->
  (forall r, In r roots -> first r h = Ok (hd_error (c r)) /\ (empty r h = true <-> c r = [])) /\
  (forall a, ~ In a roots -> (attached h a = true <-> exists r, In r roots /\ In a (c r))).
Proof.
  intros p h roots c L. pose proof (lhist_holds _ _ _ _ L) as HO. split.
  - intros r R. destruct (first_spec _ _ _ _ HO R) as [F E]. split; auto. rewrite E. destruct (c r); split; congruence.
  - intros a NR. unfold attached. split.
    + destruct (in_dec Nat.eq_dec a (concat (map c roots))) as [K|K].
      * intros _. apply in_concat in K as (l & KL & K). apply in_map_iff in KL as (r & <- & R). eauto.
      * assert (F : ~ on_list roots c a).
        { intros (r & R & [->|Q]); auto. apply K. apply in_concat. exists (c r). split; auto. apply in_map_iff; eauto. }
        destruct (ho_free _ _ _ HO a F) as [-> ->]. discriminate.
    + intros (r & R & K). destruct (ring_cut _ _ _ HO _ _ R K) as (u & v & l & q & x & w & _ & _ & _ & _ & _ & _ & _ & -> & -> & _). auto.
Qed.

(** Popping a list until it is empty gives its nodes in order, each once, then NULL. *)
Fixpoint pops (n : nat) (r : addr) (h : heap) : outcome (list (option addr)) :=
  match n with
  | O => Ok []
  | S k => obind (pop_and_remove r h) (fun '(h, e) => obind (pops k r h) (fun l => Ok (e :: l)))
  end.
Theorem C87_drain_in_order : forall p h roots c r, lhist p h roots c -> In r roots ->
  pops (S (length (c r))) r h = Ok (map Some (c r) ++ [None]).
Proof.
  intros p h roots c r L R. remember (c r) as s eqn:S. revert p h c L S. induction s as [|e s IH]; intros p h c L S.
  - cbn. unfold pop_and_remove. destruct (first_spec _ _ _ _ (lhist_holds _ _ _ _ L) R) as [-> _]. now rewrite <- S.
  - cbn [length pops]. destruct (C87_refines _ _ _ _ (LPop r) L R) as (h' & E & L' & _). cbn [lrun] in E.
    assert (RET : pop_and_remove r h = Ok (h', Some e)).
    { unfold pop_and_remove in *. destruct (first_spec _ _ _ _ (lhist_holds _ _ _ _ L) R) as [F _]. rewrite F, <- S in *.
      cbn [hd_error obind] in *. destruct (remove_from_list e h); cbn [obind] in *; congruence. }
    rewrite RET. cbn [obind]. specialize (IH _ _ _ L'). cbn [contents_after roots_after] in IH. rewrite set_c_same, <- S in IH.
    cbn [tl] in IH. specialize (IH eq_refl). cbn [pops] in IH. rewrite IH. reflexivity.
Qed.

(** size() is the number of nodes: full statement. *)
Definition C89_size_statement : Prop := forall p h roots c r, lhist p h roots c -> In r roots ->
  Z.of_nat (length (c r)) < 2 ^ 64 -> l_size h r = Z.of_nat (length (c r)).
Theorem C89_size_statement_refuted : ~ C89_size_statement.
Proof.
  intros S.
  destruct (C87_refines _ _ _ _ (LNew 0%nat) lh_nil) as (h1 & E1 & L1 & _); [intros (r & [] & _)|].
  destruct (C87_refines _ _ _ _ (LAppend 0%nat 1%nat) L1) as (h2 & E2 & L2 & _).
  { split; [now left|]. intros (r & [<-|[]] & [K|K]); [discriminate|]. destruct K. }
  destruct (C87_refines _ _ _ _ (LPop 0%nat) L2) as (h3 & E3 & L3 & _); [now left|].
  specialize (S _ _ _ _ 0%nat L3 (or_introl eq_refl) ltac:(cbn; lia)). cbn in E1. inv E1. vm_compute in E2. inv E2. vm_compute in E3. inv E3.
  vm_compute in S. discriminate.
Qed.
(** Missing from the full statement: histories in which a node was popped. *)
Theorem C89_size_partial : forall p h roots c r, lhist p h roots c -> In r roots -> (forall r', ~ In (LPop r') p) ->
  Z.of_nat (length (c r)) < 2 ^ 64 -> l_size h r = Z.of_nat (length (c r)).
Proof.
  intros p h roots c r L R NP B. rewrite (lhist_size _ _ _ _ L); auto.
  - unfold size_t. apply Z.mod_small. lia.
  - apply forallb_forall. intros o K. destruct o; auto. now destruct (NP r0).
Qed.

(** Runs for the examples. *)
Definition onb (roots : list addr) (c : contents) (a : addr) : bool := existsb (fun r => has a (r :: c r)) roots.
Lemma onb_false roots c a : onb roots c a = false -> ~ on_list roots c a.
Proof.
  intros E (r & R & K). assert (onb roots c a = true); [|congruence]. apply existsb_exists. exists r. split; auto. now apply has_true.
Qed.
Definition allowedb (roots : list addr) (c : contents) (o : lop) : bool :=
  match o with
  | LNew r => negb (onb roots c r)
  | LAppend r e => has r roots && negb (onb roots c e)
  | LRemove r e => has r roots && has e (c r)
  | LPop r => has r roots
  | LMove n o => negb (Nat.eqb n o) && negb (onb roots c n) && negb (has o roots)
  end%bool.
Lemma allowedb_ok roots c o : allowedb roots c o = true -> allowed roots c o.
Proof.
  destruct o; cbn; intros; b2p; repeat split; try (now apply has_true); try (now apply onb_false); auto. now apply has_false.
Qed.
Fixpoint lgo (ops : list lop) (h : heap) (roots : list addr) (c : contents) : option (heap * list addr * contents) :=
  match ops with
  | [] => Some (h, roots, c)
  | o :: t => if allowedb roots c o then match lrun o h with Ok h' => lgo t h' (roots_after roots o) (contents_after c o) | _ => None end else None
  end.
Lemma lgo_hist ops : forall p h roots c h' roots' c', lhist p h roots c -> lgo ops h roots c = Some (h', roots', c') -> lhist (p ++ ops) h' roots' c'.
Proof.
  induction ops as [|o t IH]; intros p h roots c h' roots' c' L E; cbn in E; [inv E; now rewrite app_nil_r|].
  destruct (allowedb roots c o) eqn:A; [|discriminate]. destruct (lrun o h) as [h2| |] eqn:R; try discriminate.
  change (o :: t) with ([o] ++ t). rewrite app_assoc. eapply IH; [|exact E]. econstructor; eauto. now apply allowedb_ok.
Qed.
Definition l_example : list lop := [LNew 0; LAppend 0 1; LAppend 0 2; LAppend 0 3; LNew 9; LAppend 9 4; LRemove 0 2; LMove 5 1]%nat.
Example C87_nonvacuous : exists h roots c, lhist l_example h roots c /\ c 0%nat = [5; 3]%nat /\ c 9%nat = [4]%nat /\ roots = [9; 0]%nat /\
  first 0%nat h = Ok (Some 5%nat) /\ attached h 2%nat = false /\ attached h 4%nat = true /\ l_size h 0%nat = 2.
Proof.
  destruct (lgo l_example (mkHeap (fun _ => None) (fun _ => None) (fun _ => 0)) [] (fun _ => [])) as [[[h roots] c]|] eqn:E; [|vm_compute in E; discriminate].
  pose proof (lgo_hist _ _ _ _ _ _ _ _ lh_nil E) as L. exists h, roots, c. split; [exact L|].
  vm_compute in E. inv E. repeat split; reflexivity.
Qed.

(** ** C88: DoubleLinkedList *)
(** Every operation succeeds without undefined behaviour and answers what it must; misuse (pushing a node twice, removing one that is
    not there) is refused with [false] and changes nothing; every list holds exactly the nodes it should, and no other list changes. *)
Theorem C88_refines : forall p h ls c o, dhist p h ls c -> dallowed ls c o ->
  exists h', drun o h = Ok (h', danswer c o) /\ dhist (p ++ [o]) h' (dlists_after ls o) (dcontents_after c o) /\
             dholds h' (dlists_after ls o) (dcontents_after c o).
Proof.
  intros p h ls c o L A. destruct (drun_holds _ _ _ _ (dhist_holds _ _ _ _ L) A) as (h' & E & H).
  exists h'. split; [auto|]. split; auto. econstructor; eauto.
Qed.
(** A refused call leaves the memory exactly as it was; so does a NULL argument. *)
Theorem C88_refused_unchanged : forall l n h h', (push_back l n h = Ok (h', false) \/ push_front l n h = Ok (h', false) \/ dremove l n h = Ok (h', false)) -> h' = h.
Proof.
  intros l n h h'. unfold push_back, push_front, dremove, deref. intros [E|[E|E]]; dmatch; try discriminate; now inv E.
Qed.
Theorem C88_null_refused : forall l h, push_back l None h = Ok (h, false) /\ push_front l None h = Ok (h, false).
Proof. intros. split; reflexivity. Qed.
(** What the program reads back: Size(), Front(), Back(), Attatched(). *)
Theorem C88_reads : forall p h ls c l, dhist p h ls c -> In l ls ->
  d_size h (dl_id l) = Z.of_nat (length (c (dl_id l))) /\
  dfront l h = hd_error (c (dl_id l)) /\ dback l h = hd_error (rev (c (dl_id l))) /\
  (forall n, dattached l n h = true <-> In n (c (dl_id l))).
Proof.
  intros p h ls c l L R. pose proof (dhist_holds _ _ _ _ L) as HO. destruct (dends _ _ _ _ HO R) as [F B].
  split; [apply (dh_size _ _ _ HO l R)|]. split; auto. split; auto. intros n. rewrite (attached_has _ _ _ _ HO R). apply has_true.
Qed.

(** Destroying a list is safe: full statement. *)
Definition C90_destroy_statement : Prop := forall p h ls c l, dhist p h ls c -> In l ls ->
  exists fuel h', ddestroy fuel l h = Some (Ok h') /\ forall n, In n (c (dl_id l)) -> d_hold h' n = None.
(** Destroying any list that still holds a node reads through NULL. *)
Theorem C90_destroy_nonempty : forall p h ls c l fuel, dhist p h ls c -> In l ls -> c (dl_id l) <> [] -> ddestroy (S (S fuel)) l h = Some UB.
Proof.
  intros p h ls c l fuel L R NE. destruct (c (dl_id l)) as [|n s] eqn:C; [congruence|].
  eapply ddestroy_ub; eauto. eapply dhist_holds; eauto.
Qed.
(** Missing from the full statement: lists that still hold a node. *)
Theorem C90_destroy_empty_partial : forall p h ls c l fuel, dhist p h ls c -> In l ls -> c (dl_id l) = [] -> ddestroy fuel l h = Some (Ok h).
Proof.
  intros p h ls c l fuel L R C. pose proof (dhist_holds _ _ _ _ L) as HO. unfold ddestroy.
  assert (K : adj (dl_head l) (dl_tail l) (dl_head l :: c (dl_id l) ++ [dl_tail l])) by (rewrite C; now exists [], []).
  rewrite (proj1 (dh_chain _ _ _ HO l _ _ R K)). destruct fuel; cbn [ddestroy_loop]; now rewrite Nat.eqb_refl.
Qed.

(** Runs for the examples. *)
Fixpoint dgo (ops : list dop) (h : dheap) : option dheap :=
  match ops with [] => Some h | o :: t => match drun o h with Ok (h', _) => dgo t h' | _ => None end end.
Fixpoint dall (ops : list dop) (ls : list dlist) (c : nat -> list addr) : Prop :=
  match ops with [] => True | o :: t => dallowed ls c o /\ dall t (dlists_after ls o) (dcontents_after c o) end.
Lemma dgo_hist ops : forall p h ls c h', dhist p h ls c -> dall ops ls c -> dgo ops h = Some h' ->
  dhist (p ++ ops) h' (fold_left dlists_after ops ls) (fold_left dcontents_after ops c).
Proof.
  induction ops as [|o t IH]; intros p h ls c h' L A E; cbn in E; [inv E; now rewrite app_nil_r|].
  destruct A as [A A']. destruct (drun o h) as [[h2 b]| |] eqn:R; try discriminate.
  change (o :: t) with ([o] ++ t). rewrite app_assoc. cbn [fold_left app]. eapply IH; eauto. econstructor; eauto.
Qed.
Definition dl1 := mkDL 1%nat 10%nat 11%nat.
Definition dl2 := mkDL 2%nat 20%nat 21%nat.
Definition d_example : list dop := [DNew dl1; DBack dl1 1; DFront dl1 2; DBack dl1 3; DRemove dl1 1; DNew dl2]%nat.
Lemma d_example_ok : exists h, dgo d_example (mkDH (fun _ => None) (fun _ => None) (fun _ => None) (fun _ => 0)) = Some h /\
  dhist d_example h [dl2; dl1] (fold_left dcontents_after d_example (fun _ => [])) /\ dfront dl1 h = Some 2%nat /\ dback dl1 h = Some 3%nat /\ d_size h 1%nat = 2.
Proof.
  destruct (dgo d_example (mkDH (fun _ => None) (fun _ => None) (fun _ => None) (fun _ => 0))) as [h|] eqn:E; [|vm_compute in E; discriminate].
  exists h. split; [auto|].
  assert (A : dall d_example [] (fun _ => [])).
  { unfold d_example. cbn [dall]. cbn [dlists_after].
    split. { split; [discriminate|intros l' []]. }
    split. { split; [now left|]. split; [|split; [|cbn; lia]].
      - intros (l & [<-|[]] & Q). cbn in Q. intuition discriminate.
      - intros (l & [<-|[]] & Q & _). congruence. }
    split. { split; [now left|]. split; [|split; [|cbn; lia]].
      - intros (l & [<-|[]] & Q). cbn in Q. intuition discriminate.
      - intros (l & [<-|[]] & Q & _). congruence. }
    split. { split; [now left|]. split; [|split; [|cbn; lia]].
      - intros (l & [<-|[]] & Q). cbn in Q. intuition discriminate.
      - intros (l & [<-|[]] & Q & _). congruence. }
    split. { now left. }
    split; [|exact Logic.I]. split; [discriminate|]. intros l' [<-|[]]. vm_compute. intuition discriminate. }
  split; [exact (dgo_hist _ _ _ _ _ _ dhi_nil A E)|].
  vm_compute in E. inv E. repeat split; reflexivity.
Qed.
Example C88_nonvacuous : exists p h ls c, dhist p h ls c /\ In dl1 ls /\ c (dl_id dl1) = [2; 3]%nat /\ dallowed ls c (DFront dl1 3%nat) /\ danswer c (DFront dl1 3%nat) = false.
Proof.
  destruct d_example_ok as (h & _ & L & _). do 4 eexists. split; [exact L|]. split; [right; now left|]. split; [reflexivity|].
  split; [|reflexivity]. split; [right; now left|]. split; [|split; [|cbn; lia]].
  - intros (l & [<-|[<-|[]]] & Q); cbn in Q; intuition discriminate.
  - intros (l & [<-|[<-|[]]] & Q & K); [|congruence]. vm_compute in K. intuition discriminate.
Qed.
Theorem C90_destroy_statement_refuted : ~ C90_destroy_statement.
Proof.
  intros S. destruct d_example_ok as (h & _ & L & _).
  destruct (S _ _ _ _ dl1 L (or_intror (or_introl eq_refl))) as (fuel & h' & E & _).
  assert (Q : forall f, ddestroy (Datatypes.S (Datatypes.S f)) dl1 h = Some UB).
  { intros f. eapply C90_destroy_nonempty; [exact L|right; now left|]. vm_compute. discriminate. }
  destruct fuel as [|[|f]]; [| |rewrite Q in E; discriminate].
  - revert E. specialize (Q 0%nat). unfold ddestroy in *. cbn [ddestroy_loop] in *. destruct (match d_next h (dl_head dl1) with Some n => _ | None => _ end); [rewrite Q; discriminate|discriminate].
  - revert E. specialize (Q 0%nat). unfold ddestroy in *. remember (d_next h (dl_head dl1)) as nd. cbn [ddestroy_loop] in *.
    destruct (match nd with Some n => _ | None => _ end); [congruence|].
    destruct (dremove dl1 nd h) as [[h2 b]| |]; try discriminate. destruct nd; [|discriminate].
    cbn [ddestroy_loop] in *. destruct (match d_next h2 a with Some n => _ | None => _ end); congruence.
Qed.

(** A push never changes another list: full statement, without the rule that a node must leave its list first. *)
Definition C90_other_lists_statement : Prop := forall p h ls c l l2 n h' b,
  dhist p h ls c -> In l ls -> In l2 ls -> l2 <> l -> ~ sentinel ls n -> push_back l (Some n) h = Ok (h', b) ->
  forall a, In a (c (dl_id l2)) -> d_hold h' a = Some (dl_id l2) /\ d_next h' a = d_next h a.
(** Pushing a node of one list onto another is accepted, and the first list is left with a node that belongs to the second. *)
Theorem C90_other_lists_statement_refuted : ~ C90_other_lists_statement.
Proof.
  intros S. destruct d_example_ok as (h & E & L & _).
  destruct (push_back dl2 (Some 2%nat) h) as [[h' b]| |] eqn:P; try (vm_compute in E; inv E; vm_compute in P; discriminate).
  destruct (S _ _ _ _ dl2 dl1 2%nat h' b L) with (a := 2%nat) as [K _]; auto.
  - now left.
  - right; now left.
  - discriminate.
  - intros (l & [<-|[<-|[]]] & Q); cbn in Q; intuition discriminate.
  - vm_compute. auto.
  - vm_compute in E. inv E. vm_compute in P. inv P. vm_compute in K. discriminate.
Qed.

Print Assumptions C87_refines.
Print Assumptions C87_reads.
Print Assumptions C87_drain_in_order.
Print Assumptions C89_size_statement_refuted.
Print Assumptions C89_size_partial.
Print Assumptions C88_refines.
Print Assumptions C88_refused_unchanged.
Print Assumptions C88_null_refused.
Print Assumptions C88_reads.
Print Assumptions C90_destroy_nonempty.
Print Assumptions C90_destroy_empty_partial.
Print Assumptions C90_destroy_statement_refuted.
Print Assumptions C90_other_lists_statement_refuted.
