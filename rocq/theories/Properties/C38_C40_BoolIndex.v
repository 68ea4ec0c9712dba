(** C38-C40: the boolean indexer. *)
From Coq Require Import List Arith ZArith Bool Lia Sorting Permutation.
From Verif.Model Require Import Common BoolIndex.
From Verif.Spec Require Import BoolSpec.
From Verif.Proofs Require Import Tac BoolIds BoolScan BoolBuild.
Import ListNotations.
Local Open Scope Z_scope.

(** * C38: identifiers *)

(** the documented field widths: 43 bits of document id and a sign, 8 bits of index and size *)
Definition in_widths (doc idx size : Z) : Prop := - 2 ^ 43 < doc < 2 ^ 43 /\ 0 <= idx < 2 ^ 8 /\ 0 <= size < 2 ^ 8.

Theorem C38_conjunction_id_is_lossless : forall doc idx size, in_widths doc idx size ->
  let cid := gen_conj_id doc idx size in
  conj_doc cid = doc /\ conj_index cid = idx /\ conj_size_of cid = size.
Proof. intros d i s (D & I & S). cbn zeta. rewrite conj_doc_gen, conj_index_gen, conj_size_gen; auto. Qed.
Print Assumptions C38_conjunction_id_is_lossless.

Theorem C38_entry_id_is_lossless : forall doc idx size exclude, in_widths doc idx size ->
  let eid := gen_entry_id (gen_conj_id doc idx size) exclude in
  entry_conj eid = gen_conj_id doc idx size /\ is_include eid = negb exclude /\ entry_doc eid = doc /\ 0 <= eid /\ eid < NULLENTRY.
Proof.
  intros d i s x (D & I & S). cbn zeta. pose proof (gen_conj_id_range d i s D I S) as R.
  unfold entry_doc. rewrite entry_conj_gen, is_include_gen, conj_doc_gen by auto. split; auto. split; auto. split; auto.
  rewrite gen_entry_id_eq by auto. unfold NULLENTRY. destruct x; lia.
Qed.
Print Assumptions C38_entry_id_is_lossless.

Theorem C38_distinct_inputs_get_distinct_ids : forall d i s x d' i' s' x', in_widths d i s -> in_widths d' i' s' ->
  gen_entry_id (gen_conj_id d i s) x = gen_entry_id (gen_conj_id d' i' s') x' -> d = d' /\ i = i' /\ s = s' /\ x = x'.
Proof.
  intros d i s x d' i' s' x' (D & I & S) (D' & I' & S') E.
  unfold inc, exc in E; apply entry_inj in E as [E ->]; try (apply gen_conj_id_range; auto).
  pose proof (f_equal conj_doc E) as E1. pose proof (f_equal conj_index E) as E2. pose proof (f_equal conj_size_of E) as E3.
  rewrite !conj_doc_gen in E1 by auto. rewrite !conj_index_gen in E2 by auto. rewrite !conj_size_gen in E3 by auto. auto.
Qed.
Print Assumptions C38_distinct_inputs_get_distinct_ids.

(** documents: the non-negative ones in order, then the negative ones by absolute value *)
Definition doc_before (a b : Z) : Prop := (0 <= a /\ (a < b \/ b < 0)) \/ (b < a /\ a < 0).
(** entry ids are ordered by size, index, document, and the exclusion of a conjunction comes before
    its inclusion *)
Theorem C38_entry_order : forall d i s x d' i' s' x', in_widths d i s -> in_widths d' i' s' ->
  (gen_entry_id (gen_conj_id d i s) x < gen_entry_id (gen_conj_id d' i' s') x' <->
   s < s' \/ (s = s' /\ (i < i' \/ (i = i' /\ (doc_before d d' \/ (d = d' /\ x = true /\ x' = false)))))).
Proof.
  intros d i s x d' i' s' x' (D & I & S) (D' & I' & S').
  rewrite !gen_entry_id_eq by (apply gen_conj_id_range; auto). rewrite !gen_conj_id_eq by auto.
  pose proof (docbits_range d D) as R. pose proof (docbits_range d' D') as R'.
  assert (DB : docbits d < docbits d' <-> doc_before d d').
  { unfold docbits, doc_before. destruct (Z.ltb_spec d 0), (Z.ltb_spec d' 0); lia. }
  assert (DE : docbits d = docbits d' <-> d = d').
  { split; [|now intros ->]. now apply docbits_inj. }
  rewrite <- DB. set (b := docbits d) in *. set (b' := docbits d') in *. clearbody b b'.
  assert (X : forall x : bool, 0 <= (if x then 0 else 1) <= 1) by (intros []; lia).
  change (2 ^ 8) with 256 in *. split.
  - intro L. destruct (Z.lt_trichotomy s s') as [|[->|]]; [auto| |exfalso; pose proof (X x); pose proof (X x'); lia]. right. split; auto.
    destruct (Z.lt_trichotomy i i') as [|[->|]]; [auto| |exfalso; pose proof (X x); pose proof (X x'); lia]. right. split; auto.
    destruct (Z.lt_trichotomy b b') as [|[E|]]; [auto| |exfalso; pose proof (X x); pose proof (X x'); lia]. right. split; [now apply DE|].
    destruct x, x'; try lia; auto.
  - pose proof (X x). pose proof (X x'). intros [L|(-> & [L|(-> & [L|(E & -> & ->)])])]; try lia. 
Qed.
Print Assumptions C38_entry_order.

(** Outside the widths ids do collide: the 257th conjunction of a document gets the id of the first. *)
Example C38_overflow : gen_conj_id 7 (256 mod 256) 1 = gen_conj_id 7 0 1.
Proof. reflexivity. Qed.
Example C38_example : let e := gen_entry_id (gen_conj_id (-5) 3 2) false in
  in_widths (-5) 3 2 /\ e = 0x0203800000000051 /\ entry_doc e = -5 /\ is_include e = true.
Proof. cbn zeta. split; [unfold in_widths; lia|]. split; [vm_compute; reflexivity|]. split; vm_compute; reflexivity. Qed.

(** * C39: cursors *)

(** [p] is the first position from [i] on whose entry is not [below], or the end *)
Definition first_not (below : Z -> Prop) (l : list Z) (i p : nat) : Prop :=
  (i <= p <= length l)%nat /\ (forall j, (i <= j < p)%nat -> below (nth j l NULLENTRY)) /\
  ((p < length l)%nat -> ~ below (nth p l NULLENTRY)).
(** what GetCurEntryID answers at a position *)
Definition entry_at (l : list Z) (p : nat) : Z := if (p <? length l)%nat then nth p l NULLENTRY else NULLENTRY.
Lemma cu_cur_at c : cu_cur c = entry_at (cu_list c) (cu_idx c).
Proof. unfold cu_cur, entry_at. destruct (Nat.ltb_spec (cu_idx c) (length (cu_list c))); auto. now rewrite nth_overflow. Qed.

Theorem C39_skip_to : forall l i id, StronglySorted Z.le l -> (i <= length l)%nat ->
  let c := cu_skip_to id (mkcu l i) in
  cu_list c = l /\ first_not (fun x => x < id) l i (cu_idx c) /\ cu_cur c = entry_at l (cu_idx c).
Proof.
  intros l i id S I. cbn zeta. destruct (cu_move_spec (fun x => x <? id) (mkcu l i) (down_lt l id S) I) as (A & B & C & D). cbn [cu_list cu_idx] in *.
  unfold cu_skip_to. split; auto. split.
  - split; auto. split; [intros j J; apply Z.ltb_lt, C, J|]. intro L. specialize (D L). apply Z.ltb_ge in D. lia.
  - rewrite cu_cur_at. now rewrite A.
Qed.
Print Assumptions C39_skip_to.
Theorem C39_skip : forall l i id, StronglySorted Z.le l -> (i <= length l)%nat ->
  let c := cu_skip id (mkcu l i) in
  cu_list c = l /\ first_not (fun x => x <= id) l i (cu_idx c) /\ cu_cur c = entry_at l (cu_idx c).
Proof.
  intros l i id S I. cbn zeta. destruct (cu_move_spec (fun x => x <=? id) (mkcu l i) (down_le l id S) I) as (A & B & C & D). cbn [cu_list cu_idx] in *.
  unfold cu_skip. split; auto. split.
  - split; auto. split; [intros j J; apply Z.leb_le, C, J|]. intro L. specialize (D L). apply Z.leb_gt in D. lia.
  - rewrite cu_cur_at. now rewrite A.
Qed.
Print Assumptions C39_skip.
Example C39_example : let l := map Z.of_nat (seq 0 300) in
  cu_idx (cu_skip_to 217 (mkcu l 3)) = 217%nat /\ cu_idx (cu_skip 217 (mkcu l 3)) = 218%nat /\
  cu_cur (cu_skip 299 (mkcu l 3)) = NULLENTRY /\ cu_idx (cu_skip_to 5 (mkcu l 100)) = 100%nat.
Proof. vm_compute. auto. Qed.

(** A field cursor merges several posting lists: starting it, and any sequence of skips, leaves it at
    the smallest remaining entry. *)
Inductive skip_cmd := SkipTo (id : Z) | Skip (id : Z).
Definition fc_do (f : fcursor) (s : skip_cmd) : fcursor := match s with SkipTo id => fc_skip_to id f | Skip id => fc_skip id f end.
Definition passed (s : skip_cmd) (e : Z) : Prop := match s with SkipTo id => e < id | Skip id => e <= id end.
Definition smallest (P : Z -> Prop) (m : Z) : Prop :=
  (P m /\ forall e, P e -> m <= e) \/ ((forall e, ~ P e) /\ m = NULLENTRY).
Theorem C39_field_cursor_is_at_the_smallest_entry : forall ls cmds,
  ls <> [] -> (forall l, In l ls -> StronglySorted Z.le l /\ forall e, In e l -> 0 <= e < NULLENTRY) ->
  smallest (fun e => (exists l, In l ls /\ In e l) /\ forall s, In s cmds -> ~ passed s e)
           (fc_id (fold_left fc_do cmds (fc_init (map (fun l => mkcu l 0) ls)))).
Proof.
  intros ls cmds NE OK.
  assert (G : forall cmds f, fcok f -> let f' := fold_left fc_do cmds f in fcok f' /\ forall e, In e (rem f') <-> In e (rem f) /\ forall s, In s cmds -> ~ passed s e).
  { clear. induction cmds as [|s cmds IH]; intros f OK; cbn [fold_left].
    - split; auto. intro e. split; [intro I; split; auto; intros ? []|tauto].
    - assert (ST : fcok (fc_do f s) /\ forall e, In e (rem (fc_do f s)) <-> In e (rem f) /\ ~ passed s e).
      { destruct s as [id|id]; cbn [fc_do passed].
        - destruct (fc_skip_to_ok id f OK) as [A B]. split; auto. intro e. rewrite B. rewrite Z.nlt_ge. tauto.
        - destruct (fc_skip_ok id f OK) as [A B]. split; auto. intro e. rewrite B. rewrite Z.nle_gt. tauto. }
      destruct ST as [A B]. destruct (IH _ A) as [C D]. split; auto. intro e. rewrite D, B. split.
      + intros [[X Y] W]. split; auto. intros t [<-|T]; auto.
      + intros [X W]. split; [split; auto|]; [apply W; left; auto|intros t T; apply W; right; auto]. }
  destruct (fc_init_ok (map (fun l => mkcu l 0) ls)) as [A B].
  - destruct ls; [congruence|discriminate].
  - intros c I. apply in_map_iff in I as (l & <- & I). destruct (OK l I). split; cbn; auto. lia.
  - destruct (G cmds _ A) as [C D]. set (f' := fold_left fc_do cmds _) in *.
    assert (R : forall e, In e (rem f') <-> (exists l, In l ls /\ In e l) /\ forall s, In s cmds -> ~ passed s e).
    { intro e. rewrite D. apply and_iff_compat_r. unfold rem. rewrite B, in_flat_map. split.
      - intros (c & I & J). apply in_map_iff in I as (l & <- & I). exists l. auto.
      - intros (l & I & J). exists (mkcu l 0). split; [apply in_map_iff; eauto|exact J]. }
    destruct (fc_min f' C) as [[E N]|[I M]].
    + right. split; auto. intros e X. apply R in X. rewrite E in X. destruct X.
    + left. split; [now apply R|]. intros e X. apply M. now apply R.
Qed.
Print Assumptions C39_field_cursor_is_at_the_smallest_entry.

(** * C40: retrieval *)
(** what std::sort guarantees for the cursors *)
Definition sorts (srt : list fcursor -> list fcursor) : Prop :=
  forall l, Permutation l (srt l) /\ StronglySorted (fun a b => fc_id a <= fc_id b) (srt l).

Definition C40_statement : Prop := forall hash srt docs q,
  sorts srt -> valid_docs docs -> no_collision hash docs q -> known_fields docs q ->
  exists fuel r, retrieve hash srt fuel docs q = Ok (Some r) /\
    forall d, In d docs -> (In (d_id d) r <-> matches q d).

(** a sorting function, for the concrete runs *)
Fixpoint fins (f : fcursor) (l : list fcursor) : list fcursor :=
  match l with [] => [f] | g :: l' => if fc_id f <=? fc_id g then f :: l else g :: fins f l' end.
Definition fsort (l : list fcursor) : list fcursor := fold_right fins [] l.
Lemma fins_perm f l : Permutation (f :: l) (fins f l).
Proof.
  induction l as [|g l IH]; cbn; auto. destruct (fc_id f <=? fc_id g); auto.
  eapply perm_trans; [apply perm_swap|]. now constructor.
Qed.
Lemma fsort_sorts : sorts fsort.
Proof.
  intro l. split.
  - induction l as [|f l IH]; cbn; auto. eapply perm_trans; [apply perm_skip, IH|apply fins_perm].
  - induction l as [|f l IH]; cbn; [constructor|]. fold (fsort l). revert IH. generalize (fsort l). clear l.
    induction 1 as [|g m S IH F]; cbn; [repeat constructor|]. destruct (Z.leb_spec (fc_id f) (fc_id g)).
    + constructor; [constructor; auto|]. constructor; auto. rewrite Forall_forall in *. intros e I. specialize (F e I). lia.
    + constructor; auto. rewrite Forall_forall in *. intros e I.
      apply (Permutation_in e (Permutation_sym (fins_perm f m))) in I as [<-|I]; [lia|auto].
Qed.

(** Fields 1, 2, 3; values are one byte strings and the hash is the byte. *)
Definition h1 (v : list Z) : Z := match v with [] => 0 | x :: _ => x end.
Definition ex_a : list doc := [mkdoc 1 [[mkex 1 [[10]] false; mkex 2 [[20]] false]]; mkdoc 2 [[mkex 1 [[11]] false; mkex 2 [[21]] false]]].
Definition ex_b : list doc := [mkdoc 1 [[mkex 1 [[10]] false; mkex 2 [[20]] false]]; mkdoc 2 [[mkex 1 [[10]] false; mkex 3 [[30]] false]]].
Lemma ex_valid : valid_docs ex_a /\ valid_docs ex_b.
Proof.
  split; (split; [|repeat constructor; cbn; lia]); intros d [<-|[<-|[]]];
    (split; cbn [d_id d_conjs length];
     [lia|lia|intros c [<-|[]]; cbn; repeat constructor; cbn; lia|intros c [<-|[]]; reflexivity
     |intros c x v [<-|[]] [<-|[<-|[]]] [<-|[]]; discriminate]).
Qed.
Lemma h1_inj docs q : (forall f vs v, In (f, vs) q -> In v vs -> exists b, v = [b]) ->
  (forall d c x w, In d docs -> In c (d_conjs d) -> In x c -> In w (x_values x) -> exists b, w = [b]) -> no_collision h1 docs q.
Proof.
  intros A B f vs v d c x w I1 I2 I3 I4 I5 I6 E. destruct (A _ _ _ I1 I2) as (b & ->). destruct (B _ _ _ _ I3 I4 I5 I6) as (b' & ->). cbn in E. congruence.
Qed.

(** A document that does not match is returned: nothing checks that the [k]-th cursor is at the same
    conjunction. *)
Theorem C40_statement_refuted : ~ C40_statement.
Proof.
  intro S. set (q := [(1, [[10]]); (2, [[21]])]).
  destruct (S h1 fsort ex_a q fsort_sorts (proj1 ex_valid)) as (fuel & r & E & M).
  - apply h1_inj; unfold q, ex_a.
    + intros f vs v [I|[I|[]]] J; inv I; destruct J as [<-|[]]; eauto.
    + intros d c x w [<-|[<-|[]]] [<-|[]] [<-|[<-|[]]] [<-|[]]; eauto.
  - intros f vs I. unfold q in I. destruct I as [I|[I|[]]]; inv I.
    + exists (mkdoc 1 [[mkex 1 [[10]] false; mkex 2 [[20]] false]]), [mkex 1 [[10]] false; mkex 2 [[20]] false], (mkex 1 [[10]] false). cbn. tauto.
    + exists (mkdoc 1 [[mkex 1 [[10]] false; mkex 2 [[20]] false]]), [mkex 1 [[10]] false; mkex 2 [[20]] false], (mkex 2 [[20]] false). cbn. tauto.
  - assert (R : In 1 r).
    { destruct fuel as [|[|fuel]]; [discriminate|vm_compute in E; discriminate|].
      assert (X : retrieve h1 fsort 2 ex_a q = Ok (Some [1])) by (vm_compute; reflexivity).
      assert (G : forall n f cs r, scan fsort n cs = Some r -> scan fsort (n + f) cs = Some r).
      { clear. induction n as [|n IH]; intros f cs r E; [discriminate|]. cbn [scan Nat.add] in *. destruct (round fsort cs) as [[cs' out]|]; auto.
        destruct (scan fsort n cs') eqn:E2; [|discriminate]. now rewrite (IH f _ _ E2). }
      unfold retrieve in X, E. destruct (init_cursors h1 (build h1 ex_a) q) as [cs| |]; try discriminate. cbn [obind] in *.
      injection X as X. apply (G 2%nat fuel) in X. cbn [Nat.add] in X. rewrite X in E. injection E as E. subst r. left; auto. }
    destruct (M (mkdoc 1 [[mkex 1 [[10]] false; mkex 2 [[20]] false]])) as [M1 _]; [left; auto|].
    destruct (M1 R) as (c & [<-|[]] & SAT). specialize (SAT (mkex 2 [[20]] false) (or_intror (or_introl eq_refl))).
    cbn in SAT. destruct SAT as (qs & v & A & B & C). unfold q in A. destruct C as [<-|[]]. destruct A as [A|[A|[]]]; inv A. destruct B as [B|[]]; discriminate.
Qed.
Print Assumptions C40_statement_refuted.

(** And a document that matches is missed. *)
Example C40_missed : retrieve h1 fsort 10 ex_b [(1, [[10]]); (3, [[30]])] = Ok (Some [1]) /\
  matches [(1, [[10]]); (3, [[30]])] (mkdoc 2 [[mkex 1 [[10]] false; mkex 3 [[30]] false]]).
Proof.
  split; [vm_compute; reflexivity|]. exists [mkex 1 [[10]] false; mkex 3 [[30]] false]. split; [left; auto|].
  intros x [<-|[<-|[]]]; cbn.
  - exists [[10]], [10]. cbn. auto.
  - exists [[30]], [30]. cbn. auto.
Qed.
(** A query on a field that no document uses dereferences a null pointer. *)
Theorem C40_unknown_field_is_undefined_partial : forall hash srt fuel docs q f vs,
  In (f, vs) q -> (forall d c x, In d docs -> In c (d_conjs d) -> In x c -> x_field x <> f) ->
  retrieve hash srt fuel docs q = UB.
Proof.
  intros hash srt fuel docs q f vs I NF. unfold retrieve.
  assert (U : init_cursors hash (build hash docs) q = UB); [|now rewrite U].
  assert (M : existsb (Z.eqb f) (ix_meta (build hash docs)) = false).
  { destruct (existsb (Z.eqb f) (ix_meta (build hash docs))) eqn:E; auto. apply existsb_exists in E as (g & G & Q). apply Z.eqb_eq in Q. subst g.
    apply build_meta in G as (d & i & c & x & [D C] & X & F). apply nth_error_In in C. exfalso. eapply NF; eauto. }
  induction q as [|[g ws] q IH]; [destruct I|]. cbn [init_cursors]. destruct I as [I|I].
  - inv I. now rewrite M.
  - destruct (existsb (Z.eqb g) (ix_meta (build hash docs))); auto. rewrite (IH I). reflexivity.
Qed.
Print Assumptions C40_unknown_field_is_undefined_partial.

Lemma not_hit_sat hash docs q d c : valid_docs docs -> no_collision hash docs q -> In d docs -> In c (d_conjs d) ->
  forall x, In x c -> (holds q x <-> if x_excl x then ~ hit hash q x else hit hash q x).
Proof.
  intros V NC D C x X. unfold holds. pose proof (hit_iff hash docs q d c x V NC D C X) as H.
  destruct (x_excl x); rewrite H; tauto.
Qed.
Lemma one_inclusion (c : conj) x y : conj_size c <= 1 -> In x c -> In y c -> x_excl x = false -> x_excl y = false -> x = y.
Proof.
  intros S X Y EX EY. unfold conj_size in S.
  assert (FX : In x (filter (fun x => negb (x_excl x)) c)) by (apply filter_In; rewrite EX; auto).
  assert (FY : In y (filter (fun x => negb (x_excl x)) c)) by (apply filter_In; rewrite EY; auto).
  destruct (filter (fun x => negb (x_excl x)) c) as [|a [|b l]]; [destruct FX| |cbn [length] in S; lia].
  destruct FX as [<-|[]], FY as [<-|[]]. reflexivity.
Qed.
Lemma some_inclusion (c : conj) : conj_size c = 0 \/ exists x, In x c /\ x_excl x = false.
Proof.
  unfold conj_size. destruct (filter (fun x => negb (x_excl x)) c) as [|a l] eqn:E; [left; reflexivity|]. right. exists a.
  assert (I : In a (filter (fun x => negb (x_excl x)) c)) by (rewrite E; left; auto). apply filter_In in I as [I N]. split; auto. now destruct (x_excl a).
Qed.

Section R.
Variables (hash : list Z -> Z) (srt : list fcursor -> list fcursor) (docs : list doc) (q : list (Z * list (list Z))).
Hypotheses (SO : sorts srt) (V : valid_docs docs) (NC : no_collision hash docs q) (KF : known_fields docs q).

Lemma wild_inc d i c : occ docs d i c -> (In (inc (cid_of d i c)) (ix_wild (build hash docs)) <-> conj_size c = 0).
Proof.
  intros O. pose proof (cid_range docs d i c V O) as R. rewrite build_wild. split.
  - intros (d' & i' & c' & O' & Z0 & E). pose proof (cid_range docs d' i' c' V O') as R'. unfold inc, exc in E; apply entry_inj in E as [E _]; auto.
    destruct (cid_inj docs d i c d' i' c' V O O' E) as (_ & _ & ->). auto.
  - intro Z0. exists d, i, c. auto.
Qed.
Lemma wild_exc d i c : occ docs d i c -> ~ In (exc (cid_of d i c)) (ix_wild (build hash docs)).
Proof.
  intros O I. apply build_wild in I as (d' & i' & c' & O' & _ & E). unfold inc, exc in E; apply entry_inj in E as [_ E]; [discriminate| |]; eapply cid_range; eauto.
Qed.

Lemma retrieve_runs : exists cs, init_cursors hash (build hash docs) q = Ok cs /\ csok cs /\ (forall f, In f cs -> belongs hash docs q f) /\
  (forall e, left cs e <-> (exists fq, In fq q /\ sees hash (build hash docs) fq e) \/ In e (ix_wild (build hash docs))) /\
  exists fuel r, retrieve hash srt fuel docs q = Ok (Some r) /\ scan srt fuel cs = Some r.
Proof.
  destruct (init_cursors_spec hash docs q V KF) as (cs & E & OK & BL & LF). exists cs. split; auto. split; auto. split; auto. split; auto.
  destruct (scan_terminates srt (fun l => proj1 (SO l)) (fun l => proj2 (SO l)) (S (total cs)) cs OK) as (r & SC); [lia|].
  exists (S (total cs)), r. split; auto. unfold retrieve. rewrite E. cbn [obind]. now rewrite SC.
Qed.

(** every entry id left at the start belongs to some conjunction *)
Lemma left_occ cs X : (forall e, left cs e <-> (exists fq, In fq q /\ sees hash (build hash docs) fq e) \/ In e (ix_wild (build hash docs))) ->
  0 <= X < 2 ^ 60 -> left cs (inc X) -> exists d i c, occ docs d i c /\ X = cid_of d i c.
Proof.
  intros LF R L. apply LF in L as [(fq & _ & v & _ & H)|W].
  - apply build_has in H as (d & i & c & O & x & _ & _ & _ & E). exists d, i, c. split; auto. unfold inc, exc in E; apply entry_inj in E as [E _]; auto. eapply cid_range; eauto.
  - apply build_wild in W as (d & i & c & O & _ & E). exists d, i, c. split; auto. unfold inc, exc in E; apply entry_inj in E as [E _]; auto. eapply cid_range; eauto.
Qed.
Lemma excl_ok cs d i c : (forall f, In f cs -> belongs hash docs q f) -> occ docs d i c -> excl (cid_of d i c) cs.
Proof.
  intros BL O f F J1 J2. pose proof (cid_range docs d i c V O) as R. destruct (BL f F) as [(fq & Q & S)|S].
  - apply S in J1 as (v1 & _ & J1). apply S in J2 as (v2 & _ & J2).
    apply build_has in J1 as (d1 & i1 & c1 & O1 & x1 & X1 & F1 & _ & E1). apply build_has in J2 as (d2 & i2 & c2 & O2 & x2 & X2 & F2 & _ & E2).
    unfold inc, exc in E1; apply entry_inj in E1 as [E1 B1]; auto; [|eapply cid_range; eauto]. unfold inc, exc in E2; apply entry_inj in E2 as [E2 B2]; auto; [|eapply cid_range; eauto].
    destruct (cid_inj docs _ _ _ _ _ _ V O O1 E1) as (-> & -> & ->). destruct (cid_inj docs _ _ _ _ _ _ V O1 O2 E2) as (-> & -> & ->).
    assert (FF : x_field x1 = x_field x2) by (cbn in *; congruence).
    destruct O2 as [D2 N2]. destruct V as [VD _]. destruct (VD d2 D2) as [_ _ V3 _ _]. pose proof (V3 c2 (nth_error_In _ _ N2)) as ND.
    assert (x1 = x2).
    { clear - ND X1 X2 FF. induction c2 as [|a l IH]; [destruct X1|]. cbn in ND. inversion_clear ND as [|? ? N1 N2].
      destruct X1 as [->|X1], X2 as [->|X2]; auto; exfalso; apply N1; [rewrite FF|rewrite <- FF]; now apply in_map. }
    subst. congruence.
  - apply S in J1. eapply wild_exc; eauto.
Qed.
Lemma left_inc cs d i c : (forall e, left cs e <-> (exists fq, In fq q /\ sees hash (build hash docs) fq e) \/ In e (ix_wild (build hash docs))) ->
  occ docs d i c -> (left cs (inc (cid_of d i c)) <-> conj_size c = 0 \/ exists x, In x c /\ x_excl x = false /\ hit hash q x).
Proof. intros LF O. rewrite LF. unfold inc at 1. rewrite (sees_entry hash docs q d i c false V O). rewrite (wild_inc d i c O). tauto. Qed.
Lemma left_exc cs d i c : (forall e, left cs e <-> (exists fq, In fq q /\ sees hash (build hash docs) fq e) \/ In e (ix_wild (build hash docs))) ->
  occ docs d i c -> (left cs (exc (cid_of d i c)) <-> exists x, In x c /\ x_excl x = true /\ hit hash q x).
Proof. intros LF O. rewrite LF. unfold exc at 1. rewrite (sees_entry hash docs q d i c true V O). pose proof (wild_exc d i c O). tauto. Qed.
End R.

(** For any index: every returned document has a conjunction that is satisfied, or that has two or more
    inclusions of which at least one holds; and every document with a satisfied conjunction of at most one
    inclusion is returned. *)
Theorem C40_retrieval_sound_and_complete_up_to_size_one_partial : forall hash srt docs q,
  sorts srt -> valid_docs docs -> no_collision hash docs q -> known_fields docs q ->
  exists fuel r, retrieve hash srt fuel docs q = Ok (Some r) /\
    (forall id, In id r -> exists d c, In d docs /\ d_id d = id /\ In c (d_conjs d) /\
       (satisfied q c \/ (2 <= conj_size c /\ exists x, In x c /\ x_excl x = false /\ holds q x))) /\
    (forall d c, In d docs -> In c (d_conjs d) -> conj_size c <= 1 -> satisfied q c -> In (d_id d) r).
Proof.
  intros hash srt docs q SO V NC KF.
  destruct (retrieve_runs hash srt docs q SO V KF) as (cs & EI & OK & BL & LF & fuel & r & ER & SC).
  exists fuel, r. split; auto. split.
  - intros id I.
    destruct (scan_sound srt (fun l => proj1 (SO l)) (fun l => proj2 (SO l)) fuel cs r id OK SC I) as (X & R & -> & L & S).
    destruct (left_occ hash docs q V cs X LF R L) as (d & i & c & O & ->).
    destruct (cid_facts docs d i c V O) as (A & B & _). rewrite A. pose proof O as [D N]. apply nth_error_In in N.
    exists d, c. split; auto. split; auto. split; auto.
    pose proof (left_inc hash docs q V cs d i c LF O) as LI. apply LI in L.
    pose proof (not_hit_sat hash docs q d c V NC D N) as H.
    destruct (Z.le_gt_cases (conj_size c) 1) as [SZ|SZ].
    + left. rewrite B in S. specialize (S SZ (excl_ok hash docs q V cs d i c BL O)).
      rewrite (left_exc hash docs q V cs d i c LF O) in S. intros x X. apply H; auto. destruct (x_excl x) eqn:EX.
      * intro HT. apply S. eauto.
      * destruct L as [L|(y & Y1 & Y2 & Y3)]; [|rewrite (one_inclusion c x y SZ X Y1 EX Y2); auto].
        exfalso. unfold conj_size in L. assert (FX : In x (filter (fun x => negb (x_excl x)) c)) by (apply filter_In; rewrite EX; auto).
        destruct (filter (fun x => negb (x_excl x)) c); [destruct FX|cbn [length] in L; lia].
    + right. split; [lia|]. destruct L as [L|(y & Y1 & Y2 & Y3)]; [lia|]. exists y. split; auto. split; auto. apply H; auto. now rewrite Y2.
  - intros d c D N SZ SAT. apply In_nth_error in N as (i & N). assert (O : occ docs d i c) by (split; auto).
    destruct (cid_facts docs d i c V O) as (A & B & _). rewrite <- A.
    pose proof (nth_error_In _ _ N) as N'. pose proof (not_hit_sat hash docs q d c V NC D N') as H.
    apply (scan_complete srt (fun l => proj1 (SO l)) (fun l => proj2 (SO l)) (cid_of d i c) fuel) with (cs := cs); auto.
    + eapply cid_range; eauto.
    + lia.
    + apply (left_inc hash docs q V cs d i c LF O). destruct (some_inclusion c) as [Z0|(x & X & EX)]; auto. right. exists x. split; auto. split; auto.
      specialize (SAT x X). apply H in SAT; auto. now rewrite EX in SAT.
    + rewrite (left_exc hash docs q V cs d i c LF O). intros (x & X & EX & HT). specialize (SAT x X). apply H in SAT; auto. rewrite EX in SAT. auto.
Qed.
Print Assumptions C40_retrieval_sound_and_complete_up_to_size_one_partial.

(** When no conjunction has more than one inclusion, retrieval is exact. *)
Theorem C40_exact_when_one_inclusion_partial : forall hash srt docs q,
  sorts srt -> valid_docs docs -> no_collision hash docs q -> known_fields docs q ->
  (forall d c, In d docs -> In c (d_conjs d) -> conj_size c <= 1) ->
  exists fuel r, retrieve hash srt fuel docs q = Ok (Some r) /\
    forall d, In d docs -> (In (d_id d) r <-> matches q d).
Proof.
  intros hash srt docs q SO V NC KF SZ.
  destruct (C40_retrieval_sound_and_complete_up_to_size_one_partial hash srt docs q SO V NC KF) as (fuel & r & E & S & C).
  exists fuel, r. split; auto. intros d D. split.
  - intro I. apply S in I as (d' & c & D' & ID & N & [SAT|[X _]]).
    + assert (d = d').
      { destruct V as [_ ND]. clear - ND D D' ID. induction docs as [|a l IH]; [destruct D|]. cbn in ND. inversion_clear ND as [|? ? N1 N2].
        destruct D as [->|D], D' as [->|D']; auto; exfalso; apply N1; [rewrite <- ID|rewrite ID]; now apply in_map. }
      subst. exists c. auto.
    + specialize (SZ d' c D' N). lia.
  - intros (c & N & SAT). eapply C; eauto.
Qed.
Print Assumptions C40_exact_when_one_inclusion_partial.

(** exclusions and several conjunctions *)
Example C40_example :
  let docs := [mkdoc 1 [[mkex 1 [[10]; [11]] false; mkex 2 [[20]] true]];
               mkdoc (-2) [[mkex 1 [[10]] true]; [mkex 3 [[30]] false]];
               mkdoc 3 [[mkex 1 [[10]] false]]] in
  retrieve h1 fsort 20 docs [(1, [[10]]); (2, [[20]])] = Ok (Some [3]) /\
  retrieve h1 fsort 20 docs [(1, [[11]]); (3, [[30]])] = Ok (Some [-2; 1; -2]) /\
  retrieve h1 fsort 20 docs [] = Ok (Some [-2]).
Proof. vm_compute. auto. Qed.
