From Coq Require Import String.
From Verif.Model Require Import Common Http HttpCtx.
From Verif.Spec Require Import HttpCtxSpec.
From Verif.Proofs Require Import Tac.
Open Scope nat_scope.

Lemma run_app keep w a b : run keep w (a ++ b) = obind (run keep w a) (fun w => run keep w b).
Proof. revert w. induction a as [|e a IH]; intros w; cbn; [reflexivity|]. destruct (step keep w e); cbn; [apply IH|reflexivity|reflexivity]. Qed.
Lemma run_snoc keep w a e w' : run keep w (a ++ [e]) = Ok w' -> exists w1, run keep w a = Ok w1 /\ step keep w1 e = Ok w'.
Proof. rewrite run_app. destruct (run keep w a) as [w1| |] eqn:R; cbn; try discriminate. intros H. exists w1. split; [reflexivity|]. destruct (step keep w1 e); cbn in H; [exact H|discriminate|discriminate]. Qed.
Lemma made_app a b : made (a ++ b) = made a ++ made b.
Proof. induction a as [|e a IH]; cbn; [reflexivity|]. destruct e; cbn; rewrite ?IH; reflexivity. Qed.
Lemma answers_app a b : answers (a ++ b) = answers a ++ answers b.
Proof. induction a as [|e a IH]; cbn; [reflexivity|]. destruct e; cbn; rewrite ?IH; reflexivity. Qed.
Lemma answers_deliver keep b f r ok : answers (deliver keep b f r ok) = [(b, f, r)].
Proof. unfold deliver. cbn. destruct (negb keep || negb ok); reflexivity. Qed.
Lemma put_length h o r : List.length (put h o r) = List.length h.
Proof. revert o. induction h as [|x h IH]; intros [|o]; cbn; auto. Qed.
Lemma put_nth h o r i : nth_error (put h o r) i = if i =? o then match nth_error h i with Some _ => Some r | None => None end else nth_error h i.
Proof. revert o i. induction h as [|x h IH]; intros [|o] [|i]; cbn; auto; try (destruct (i =? o); auto). Qed.

Lemma c_str_ok b : is_c_str b (c_str b).
Proof.
  induction b as [|c b [N E]]; cbn; [split; [tauto|auto]|].
  destruct (c =? 0)%Z eqn:Z.
  - apply Z.eqb_eq in Z. subst. split; [cbn; tauto|]. right. exists b. reflexivity.
  - apply Z.eqb_neq in Z. split; [cbn; intros [H|H]; [congruence|tauto]|].
    destruct E as [E|[rest E]]; [left|right; exists rest]; cbn; f_equal; exact E.
Qed.
Lemma build_wanted keep c r objs : build c = Some r -> wanted keep objs c (set_keep r keep).
Proof.
  destruct c; cbn; intros H; inv H; cbn; try reflexivity. exists (c_str b). split; [apply c_str_ok|reflexivity].
Qed.
Lemma wanted_mono keep a b c r : wanted keep a c r -> wanted keep (a ++ b) c r.
Proof.
  destruct c; cbn; auto. intros (r0 & H & E). exists r0. split; [|exact E].
  rewrite nth_error_app1; [exact H|]. apply nth_error_Some. congruence.
Qed.

(** * What is sent was asked for *)
Definition same_content (a b : resp) : Prop := exists k, a = set_keep b k.
Record cinv (keep : bool) (es : list ev) (w : world) : Prop := {
  ci_len : List.length (heap w) = List.length (made es);
  ci_obj : unchanged es -> forall o r0, nth_error (made es) o = Some r0 -> exists r, nth_error (heap w) o = Some r /\ same_content r r0;
  ci_pend : forall t x, pend w t = Some x -> exists c, In (ECall t c) es /\
      match x with Own r => build c = Some r | App o => c = KResponse o /\ o < List.length (heap w) end;
  ci_queue : forall t x, In (t, x) (queue w) -> exists c, In (ECall t c) es /\
      match x with Own r => guarded c /\ wanted keep [] c r | App o => c = KResponse o /\ (unchanged es -> exists r, nth_error (heap w) o = Some r /\ s_keep r = keep) end;
  ci_ans : forall b f r, In (b, f, r) (answers (acts w)) -> b = 0 /\ exists c, In (ECall f c) es /\ (guarded c \/ unchanged es -> wanted keep (made es) c r) }.

Lemma unchanged_snoc es e : unchanged (es ++ [e]) -> unchanged es.
Proof. intros U o r H. apply (U o r). apply in_app_iff. auto. Qed.
Lemma cinv_keep keep es e w w' :
  cinv keep es w -> heap w' = heap w -> made (es ++ [e]) = made es ->
  (forall t x, pend w' t = Some x -> exists c, In (ECall t c) (es ++ [e]) /\ match x with Own r => build c = Some r | App o => c = KResponse o /\ o < List.length (heap w') end) ->
  (forall t x, In (t, x) (queue w') -> In (t, x) (queue w)) ->
  (forall b f r, In (b, f, r) (answers (acts w')) -> b = 0 /\ exists c, In (ECall f c) (es ++ [e]) /\ (guarded c \/ unchanged (es ++ [e]) -> wanted keep (made (es ++ [e])) c r)) ->
  cinv keep (es ++ [e]) w'.
Proof.
  intros I Hh Hm Hp Hq Ha. destruct I as [L O P Q A]. constructor; auto.
  - rewrite Hh, Hm. exact L.
  - rewrite Hm, Hh. intros U. apply O. eapply unchanged_snoc, U.
  - intros t x H. apply Hq in H. destruct (Q t x H) as (c & In1 & B). exists c. split; [apply in_app_iff; auto|].
    destruct x; [|exact B]. rewrite Hh. destruct B as [E B]. split; [exact E|]. intros U. apply B. eapply unchanged_snoc, U.
Qed.
Lemma cinv_ans_keep keep es e w : cinv keep es w -> forall b f r, In (b, f, r) (answers (acts w)) ->
  b = 0 /\ exists c, In (ECall f c) (es ++ [e]) /\ (guarded c \/ unchanged (es ++ [e]) -> wanted keep (made (es ++ [e])) c r).
Proof.
  intros I b f r H. destruct (ci_ans _ _ _ I b f r H) as (B & c & In1 & Wn). split; [exact B|]. exists c. split; [apply in_app_iff; auto|].
  intros U. rewrite made_app. apply wanted_mono, Wn. destruct U as [U|U]; [auto|right; eapply unchanged_snoc, U].
Qed.
Lemma cinv_pend_keep keep es e w : cinv keep es w -> forall t x, pend w t = Some x ->
  exists c, In (ECall t c) (es ++ [e]) /\ match x with Own r => build c = Some r | App o => c = KResponse o /\ o < List.length (heap w) end.
Proof. intros I t x H. destruct (ci_pend _ _ _ I t x H) as (c & In1 & B). exists c. split; [apply in_app_iff; auto|exact B]. Qed.

Lemma wanted_nil keep objs c r : guarded c -> wanted keep [] c r -> wanted keep objs c r.
Proof. intros G H. apply (wanted_mono keep [] objs) in H. exact H. Qed.
Lemma keep_heap_length h x k : List.length (keep_heap h x k) = List.length h.
Proof. destruct x; cbn; [|reflexivity]. destruct (nth_error h o); [apply put_length|reflexivity]. Qed.
Lemma keep_heap_nth h x k i : nth_error (keep_heap h x k) i = match nth_error h i with Some r => Some (match x with App o => if i =? o then set_keep r k else r | Own _ => r end) | None => None end.
Proof.
  destruct x as [o|r]; cbn; [|destruct (nth_error h i); reflexivity].
  destruct (nth_error h o) as [r|] eqn:E.
  - rewrite put_nth. destruct (i =? o) eqn:D; [b2p; subst; rewrite E; reflexivity|]. destruct (nth_error h i); reflexivity.
  - destruct (i =? o) eqn:D; [b2p; subst; rewrite E; reflexivity|]. destruct (nth_error h i); reflexivity.
Qed.

Lemma cinv_step keep es w e w' : cinv keep es w -> step keep w e = Ok w' -> cinv keep (es ++ [e]) w'.
Proof.
  intros I H. destruct e as [r|o r|t c|t ok|ok|]; cbn [step] in H.
  - inv H. pose proof I as I0. destruct I0 as [L O P Q A]. constructor; cbn [heap pend queue acts].
    + rewrite made_app, !app_length. cbn. lia.
    + intros U o r0. rewrite made_app. cbn [made]. intros N. apply unchanged_snoc in U.
      destruct (Nat.lt_ge_cases o (List.length (made es))) as [D|D].
      * rewrite nth_error_app1 in N by exact D. destruct (O U o r0 N) as (r1 & N1 & S1). exists r1. split; [|exact S1].
        rewrite nth_error_app1; [exact N1|lia].
      * rewrite nth_error_app2 in N by exact D. rewrite nth_error_app2 by lia. rewrite L. destruct (o - List.length (made es)); cbn in N; [|destruct n; discriminate].
        inv N. exists r0. split; [reflexivity|]. exists (s_keep r0). destruct r0; reflexivity.
    + intros t x Hp. destruct (P t x Hp) as (c & I1 & B). exists c. split; [apply in_app_iff; auto|]. destruct x; [|exact B]. rewrite app_length. cbn. destruct B; split; [auto|lia].
    + intros t x Hq. destruct (Q t x Hq) as (c & I1 & B). exists c. split; [apply in_app_iff; auto|]. destruct x; [|exact B]. destruct B as [B1 B2]. split; [exact B1|].
      intros U. apply unchanged_snoc in U. destruct (B2 U) as (r1 & N1 & K1). exists r1. split; [|exact K1]. rewrite nth_error_app1; [exact N1|]. apply nth_error_Some. congruence.
    + eapply cinv_ans_keep, I.
  - inv H. pose proof I as I0. destruct I0 as [L O P Q A]. constructor; cbn [heap pend queue acts].
    + rewrite made_app, put_length, app_length. cbn. lia.
    + intros U. exfalso. apply (U o r). apply in_app_iff. cbn. auto.
    + intros t x Hp. destruct (P t x Hp) as (c & I1 & B). exists c. split; [apply in_app_iff; auto|]. destruct x; [|exact B]. rewrite put_length. exact B.
    + intros t x Hq. destruct (Q t x Hq) as (c & I1 & B). exists c. split; [apply in_app_iff; auto|]. destruct x; [|exact B]. destruct B as [B1 B2]. split; [exact B1|].
      intros U. exfalso. apply (U o r). apply in_app_iff. cbn. auto.
    + eapply cinv_ans_keep, I.
  - assert (Em : made (es ++ [ECall t c]) = made es) by (rewrite made_app; cbn; apply app_nil_r).
    assert (K : cinv keep (es ++ [ECall t c]) w).
    { apply (cinv_keep keep es _ w w I); auto; [apply (cinv_pend_keep keep _ _ _ I)|apply (cinv_ans_keep keep _ _ _ I)]. }
    destruct (pend w t) as [x|] eqn:Pt; [inv H; exact K|].
    assert (Hc : In (ECall t c) (es ++ [ECall t c])) by (apply in_app_iff; cbn; auto).
    unfold enter in H. destruct c as [|j code|b code|b code|o].
    + destruct (replied w); inv H. exact K.
    + destruct (replied w); inv H; [exact K|]. apply (cinv_keep keep es _ w _ I); cbn [heap pend queue acts]; auto; [|apply (cinv_ans_keep keep _ _ _ I)].
      intros u x. unfold upd. destruct (u =? t) eqn:D; [|apply (cinv_pend_keep keep _ _ _ I)]. b2p. subst. intros E. inv E. eexists. split; [exact Hc|reflexivity].
    + destruct (replied w); inv H; [exact K|]. apply (cinv_keep keep es _ w _ I); cbn [heap pend queue acts]; auto; [|apply (cinv_ans_keep keep _ _ _ I)].
      intros u x. unfold upd. destruct (u =? t) eqn:D; [|apply (cinv_pend_keep keep _ _ _ I)]. b2p. subst. intros E. inv E. eexists. split; [exact Hc|reflexivity].
    + destruct (replied w); inv H; [exact K|]. apply (cinv_keep keep es _ w _ I); cbn [heap pend queue acts]; auto; [|apply (cinv_ans_keep keep _ _ _ I)].
      intros u x. unfold upd. destruct (u =? t) eqn:D; [|apply (cinv_pend_keep keep _ _ _ I)]. b2p. subst. intros E. inv E. eexists. split; [exact Hc|reflexivity].
    + destruct (o <? List.length (heap w)) eqn:D0; inv H. b2p. apply (cinv_keep keep es _ w _ I); cbn [heap pend queue acts]; auto; [|apply (cinv_ans_keep keep _ _ _ I)].
      intros u x. unfold upd. destruct (u =? t) eqn:D; [|apply (cinv_pend_keep keep _ _ _ I)]. b2p. subst. intros E. inv E. eexists. split; [exact Hc|]. auto.
  - assert (Em : made (es ++ [ERespond t ok]) = made es) by (rewrite made_app; cbn; apply app_nil_r).
    destruct (pend w t) as [x|] eqn:Pt.
    2:{ inv H. apply (cinv_keep keep es _ w' w' I); auto; [apply (cinv_pend_keep keep _ _ _ I)|apply (cinv_ans_keep keep _ _ _ I)]. }
    assert (Pu : forall u x', upd (pend w) t None u = Some x' -> pend w u = Some x') by (intros u x'; unfold upd; destruct (u =? t); congruence).
    unfold respond in H. destruct (alive w) eqn:Al.
    2:{ inv H. apply (cinv_keep keep es _ w _ I); cbn [heap pend queue acts]; auto; [|apply (cinv_ans_keep keep _ _ _ I)]. intros u x' Hu. apply (cinv_pend_keep keep _ _ _ I), Pu, Hu. }
    destruct (ci_pend _ _ _ I t x Pt) as (c & Ic & Bc).
    pose proof I as I0. destruct I0 as [L O P Q A].
    assert (Ho : unchanged (es ++ [ERespond t ok]) -> forall o r0, nth_error (made es) o = Some r0 -> exists r, nth_error (keep_heap (heap w) x keep) o = Some r /\ same_content r r0).
    { intros U o r0 N. apply unchanged_snoc in U. destruct (O U o r0 N) as (r1 & N1 & [k S1]). rewrite keep_heap_nth, N1.
      eexists. split; [reflexivity|]. destruct x; [|exists k; exact S1]. destruct (o =? o0); [|exists k; exact S1]. exists keep. subst. destruct r0; reflexivity. }
    assert (Hpp : forall u x', upd (pend w) t None u = Some x' -> exists c0, In (ECall u c0) (es ++ [ERespond t ok]) /\ match x' with Own r => build c0 = Some r | App o => c0 = KResponse o /\ o < List.length (keep_heap (heap w) x keep) end).
    { intros u x' Hu. rewrite keep_heap_length. apply (cinv_pend_keep keep _ _ _ I), Pu, Hu. }
    assert (Hqq : forall u x', In (u, x') (queue w) -> exists c0, In (ECall u c0) (es ++ [ERespond t ok]) /\
      match x' with Own r => guarded c0 /\ wanted keep [] c0 r | App o => c0 = KResponse o /\ (unchanged (es ++ [ERespond t ok]) -> exists r, nth_error (keep_heap (heap w) x keep) o = Some r /\ s_keep r = keep) end).
    { intros u x' Hu. destruct (Q u x' Hu) as (c0 & I0 & B0). exists c0. split; [apply in_app_iff; auto|]. destruct x'; [|exact B0]. destruct B0 as [B1 B2]. split; [exact B1|].
      intros U. apply unchanged_snoc in U. destruct (B2 U) as (r1 & N1 & K1). rewrite keep_heap_nth, N1. eexists. split; [reflexivity|]. destruct x; [|exact K1]. destruct (o =? o0); [reflexivity|exact K1]. }
    assert (Gx : forall r, deref (keep_heap (heap w) x keep) (keep_ref x keep) = Some r -> guarded c \/ unchanged (es ++ [ERespond t ok]) -> wanted keep (made es) c r).
    { intros r Dr U. destruct x as [o|r1]; cbn [deref keep_ref] in Dr.
      - destruct Bc as [-> Lo]. destruct U as [U|U]; [destruct U|]. apply unchanged_snoc in U.
        destruct (nth_error (made es) o) as [r0|] eqn:N0; [|apply nth_error_None in N0; lia].
        destruct (O U o r0 N0) as (r2 & N2 & [k S2]). rewrite keep_heap_nth, N2, Nat.eqb_refl in Dr. inv Dr. exists r0. split; [exact N0|]. reflexivity.
      - inv Dr. apply build_wanted, Bc. }
    destruct (negb (t =? 0)) eqn:T0.
    + inv H. constructor; cbn [heap pend queue acts].
      * rewrite Em, keep_heap_length. exact L.
      * rewrite Em. exact Ho.
      * exact Hpp.
      * intros u x' Hu. apply in_app_iff in Hu. destruct Hu as [Hu|[Hu|[]]]; [apply Hqq, Hu|]. inv Hu. exists c. split; [apply in_app_iff; auto|].
        destruct x as [o|r1]; cbn [keep_ref].
        -- destruct Bc as [-> Lo]. split; [reflexivity|]. intros U. rewrite keep_heap_nth, Nat.eqb_refl. destruct (nth_error (heap w) o) as [r2|] eqn:N2; [|apply nth_error_None in N2; lia].
           eexists. split; [reflexivity|reflexivity].
        -- split; [destruct c; cbn in Bc |- *; auto; discriminate|]. apply build_wanted, Bc.
      * apply (cinv_ans_keep keep _ _ _ I).
    + b2p. subst. destruct (deref (keep_heap (heap w) x keep) (keep_ref x keep)) as [r|] eqn:Dr; inv H.
      constructor; cbn [heap pend queue acts].
      * rewrite Em, keep_heap_length. exact L.
      * rewrite Em. exact Ho.
      * exact Hpp.
      * exact Hqq.
      * intros b f r1. rewrite answers_app, answers_deliver. intros Hi. apply in_app_iff in Hi. destruct Hi as [Hi|[Hi|[]]]; [revert Hi; apply (cinv_ans_keep keep _ _ _ I)|].
        inv Hi. split; [reflexivity|]. exists c. split; [apply in_app_iff; auto|]. rewrite Em. apply Gx. reflexivity.
  - assert (Em : made (es ++ [ERun ok]) = made es) by (rewrite made_app; cbn; apply app_nil_r).
    assert (K : cinv keep (es ++ [ERun ok]) w).
    { apply (cinv_keep keep es _ w w I); auto; [apply (cinv_pend_keep keep _ _ _ I)|apply (cinv_ans_keep keep _ _ _ I)]. }
    destruct (pend w 0); [inv H; exact K|]. destruct (queue w) as [|[t x] q] eqn:Eq; [inv H; exact K|].
    destruct (deref (heap w) x) as [r|] eqn:Dr; inv H.
    apply (cinv_keep keep es _ w _ I); cbn [heap pend queue acts]; auto.
    + apply (cinv_pend_keep keep _ _ _ I).
    + rewrite Eq. cbn. auto.
    + intros b f r1. rewrite answers_app, answers_deliver. intros Hi. apply in_app_iff in Hi. destruct Hi as [Hi|[Hi|[]]]; [revert Hi; apply (cinv_ans_keep keep _ _ _ I)|].
      inv Hi. split; [reflexivity|]. assert (Hq : In (f, x) (queue w)) by (rewrite Eq; cbn; auto).
      destruct (ci_queue _ _ _ I f x Hq) as (c & Ic & Bc). exists c. split; [apply in_app_iff; auto|]. rewrite Em. intros U.
      destruct x as [o|r2]; cbn [deref] in Dr.
      * destruct Bc as [-> B2]. destruct U as [U|U]; [destruct U|]. apply unchanged_snoc in U. destruct (B2 U) as (r3 & N3 & K3). rewrite N3 in Dr. inv Dr.
        destruct (nth_error (made es) o) as [r0|] eqn:N0.
        -- destruct (ci_obj _ _ _ I U o r0 N0) as (r4 & N4 & [k S4]). rewrite N4 in N3. inv N3. exists r0. split; [exact N0|]. cbn. reflexivity.
        -- apply nth_error_None in N0. rewrite <- (ci_len _ _ _ I) in N0. apply nth_error_None in N0. congruence.
      * inv Dr. destruct Bc as [G B]. apply wanted_nil; [exact G|exact B].
  - assert (Em : made (es ++ [EDie]) = made es) by (rewrite made_app; cbn; apply app_nil_r).
    destruct (queue w) eqn:Eq; inv H.
    + apply (cinv_keep keep es _ w _ I); cbn [heap pend queue acts]; auto; [apply (cinv_pend_keep keep _ _ _ I)|intros ? ? []|apply (cinv_ans_keep keep _ _ _ I)].
    + apply (cinv_keep keep es _ w' _ I); auto; [apply (cinv_pend_keep keep _ _ _ I)|apply (cinv_ans_keep keep _ _ _ I)].
Qed.
Lemma cinv_run keep es w : run keep new_ctx es = Ok w -> cinv keep es w.
Proof.
  revert w. induction es as [|e es IH] using rev_ind; intros w H.
  - inv H. constructor; cbn; try discriminate; try tauto. intros _ o r0. destruct o; discriminate.
  - apply run_snoc in H. destruct H as (w1 & R & St). eapply cinv_step; [apply IH, R|exact St].
Qed.

(** * How often *)
Lemma NoDup_app_snoc (l : list nat) t : NoDup l -> ~ In t l -> NoDup (l ++ [t]).
Proof. intros N H. apply NoDup_Add with (a := t) (l := l); [rewrite <- (app_nil_r l) at 1; apply Add_app|auto]. Qed.
Definition origins (w : world) : list nat := map (fun x => snd (fst x)) (answers (acts w)) ++ map fst (queue w).
Definition oinv (w : world) : Prop := NoDup (origins w) /\ (forall t, In t (origins w) -> replied w = true /\ pend w t = None).

Lemma origins_send w h rp al q p t r keep ok b : origins (W h rp al q p (acts w ++ deliver keep b t r ok)) = map (fun x => snd (fst x)) (answers (acts w)) ++ t :: map fst q.
Proof. unfold origins. cbn. rewrite answers_app, answers_deliver, map_app, <- app_assoc. reflexivity. Qed.

Lemma oinv_step keep w e w' : oinv w -> (forall t c, e = ECall t c -> guarded c) -> step keep w e = Ok w' -> oinv w'.
Proof.
  intros [N P] G H. destruct e as [r|o r|t c|t ok|ok|]; cbn [step] in H.
  - inv H. split; assumption.
  - inv H. split; assumption.
  - specialize (G t c eq_refl). destruct (pend w t) eqn:Pt; [inv H; split; assumption|].
    unfold enter in H. destruct c; try destruct G.
    + unfold oinv. destruct (replied w) eqn:R; inv H. rewrite R. split; [exact N|exact P].
    + unfold oinv. destruct (replied w) eqn:R; inv H; [rewrite R; split; assumption|]. split; [exact N|]. intros u Hu. destruct (P u Hu). congruence.
    + unfold oinv. destruct (replied w) eqn:R; inv H; [rewrite R; split; assumption|]. split; [exact N|]. intros u Hu. destruct (P u Hu). congruence.
    + unfold oinv. destruct (replied w) eqn:R; inv H; [rewrite R; split; assumption|]. split; [exact N|]. intros u Hu. destruct (P u Hu). congruence.
  - destruct (pend w t) as [x|] eqn:Pt; [|inv H; split; assumption].
    assert (Nt : ~ In t (origins w)) by (intros Ht; destruct (P t Ht); congruence).
    assert (Pu : forall u, In u (origins w) -> upd (pend w) t None u = None) by (intros u Hu; unfold upd; destruct (u =? t); [reflexivity|apply P, Hu]).
    unfold respond in H. destruct (alive w).
    + destruct (negb (t =? 0)).
      * inv H. unfold oinv, origins. cbn [acts queue replied pend]. rewrite map_app. cbn. rewrite app_assoc. split.
        -- apply NoDup_app_snoc; assumption.
        -- intros u Hu. split; [reflexivity|]. apply in_app_iff in Hu. destruct Hu as [Hu|[Hu|[]]]; [apply Pu, Hu|]. subst. unfold upd. rewrite Nat.eqb_refl. reflexivity.
      * destruct (deref _ _) as [r|]; inv H. unfold oinv. rewrite origins_send. cbn [replied pend]. split.
        -- apply (NoDup_Add (Add_app t _ _)). split; assumption.
        -- intros u Hu. split; [reflexivity|]. apply in_app_iff in Hu. destruct Hu as [Hu|[Hu|Hu]]; [apply Pu, in_app_iff; auto| |apply Pu, in_app_iff; auto].
           subst. unfold upd. rewrite Nat.eqb_refl. reflexivity.
    + inv H. split; [exact N|]. intros u Hu. split; [reflexivity|]. apply Pu, Hu.
  - destruct (pend w 0) eqn:P0; [inv H; split; assumption|]. destruct (queue w) as [|[t x] q] eqn:Eq; [inv H; split; assumption|].
    destruct (deref _ _) as [r|]; inv H. unfold oinv. rewrite origins_send. unfold origins in N, P. rewrite Eq in N, P. split; [exact N|exact P].
  - destruct (queue w) eqn:Eq; inv H; [|split; assumption]. unfold oinv, origins in *. cbn. rewrite Eq in *. split; assumption.
Qed.
Lemma oinv_run keep es w : all_guarded es -> run keep new_ctx es = Ok w -> oinv w.
Proof.
  revert w. induction es as [|e es IH] using rev_ind; intros w G H.
  - inv H. split; [constructor|intros t []].
  - apply run_snoc in H. destruct H as (w1 & R & St). eapply oinv_step; [apply IH; [|exact R]| |exact St].
    + intros t c Hc. apply (G t c). apply in_app_iff. auto.
    + intros t c ->. apply (G t c). apply in_app_iff. cbn. auto.
Qed.

(** One call after another. *)
Definition sinv (w : world) : Prop := (forall t, pend w t = None) /\ List.length (origins w) <= 1 /\ (origins w <> [] -> replied w = true).
Lemma sinv_serial keep es : serial es -> forall w w', all_guarded es -> sinv w -> run keep w es = Ok w' -> sinv w'.
Proof.
  induction 1 as [|t c ok es Hs IH|e es He Hs IH]; intros w w' G (P & L & R) H.
  - inv H. repeat split; assumption.
  - assert (G' : all_guarded es) by (intros u d Hd; apply (G u d); cbn; auto).
    assert (Gc : guarded c) by (apply (G t c); cbn; auto).
    cbn [run step] in H. rewrite (P t) in H.
    assert (Same : forall w1, replied w = true -> enter w t c = Ok w1 -> w1 = w).
    { intros w1 Rr E. unfold enter in E. destruct c; cbn in Gc; try destruct Gc; rewrite Rr in E; inv E; reflexivity. }
    destruct (enter w t c) as [w1| |] eqn:En; cbn [obind] in H; try discriminate.
    destruct (replied w) eqn:Rr.
    + rewrite (Same w1 eq_refl eq_refl), (P t) in H. cbn [obind] in H. apply (IH w w' G'); [|exact H]. split; [exact P|]. split; [exact L|]. intros _. exact Rr.
    + assert (O : origins w = []) by (destruct (origins w) eqn:Ow; [reflexivity|]; specialize (R ltac:(discriminate)); congruence).
      assert (E1 : exists r, w1 = W (heap w) (replied w) (alive w) (queue w) (upd (pend w) t (Some (Own r))) (acts w)).
      { unfold enter in En. rewrite Rr in En. destruct c; cbn in Gc; try destruct Gc; cbn in En; try discriminate; inv En; rewrite Rr; eexists; reflexivity. }
      destruct E1 as [r E1]. subst w1. cbn [pend] in H. unfold upd in H at 1. rewrite Nat.eqb_refl in H.
      unfold origins in O. apply app_eq_nil in O. destruct O as [O1 O2]. apply map_eq_nil in O1, O2.
      assert (Pu : forall u, upd (upd (pend w) t (Some (Own r))) t None u = None) by (intros u; unfold upd; destruct (u =? t); [reflexivity|apply P]).
      unfold respond in H. cbn [alive heap queue acts pend] in H. destruct (alive w).
      * destruct (negb (t =? 0)); cbn [obind deref keep_ref keep_heap] in H; refine (IH _ _ G' _ H).
        -- split; [exact Pu|]. unfold origins. cbn. rewrite O1, O2. cbn. split; [lia|reflexivity].
        -- split; [exact Pu|]. rewrite origins_send, O1, O2. cbn. split; [lia|reflexivity].
      * cbn [obind] in H. refine (IH _ _ G' _ H). split; [exact Pu|]. unfold origins. cbn. rewrite O1, O2. cbn. split; [lia|reflexivity].
  - assert (G' : all_guarded es) by (intros u d Hd; apply (G u d); cbn; auto).
    cbn [run] in H. destruct (step keep w e) as [w1| |] eqn:St; cbn [obind] in H; try discriminate. refine (IH _ _ G' _ H).
    destruct e as [r|o r|t c|t ok|ok|]; try destruct He; cbn [step] in St.
    + inv St. repeat split; assumption.
    + inv St. repeat split; assumption.
    + rewrite (P 0) in St. destruct (queue w) as [|[t x] q] eqn:Eq; [inv St; repeat split; assumption|]. destruct (deref _ _); inv St.
      unfold sinv. rewrite origins_send. unfold origins in L, R. rewrite Eq in L, R. repeat split; assumption.
    + destruct (queue w) eqn:Eq; inv St; [|repeat split; assumption]. unfold sinv, origins in *. cbn. rewrite Eq in *. repeat split; assumption.
Qed.

(** * What the connection is told *)
Lemma step_acts keep w e w' : step keep w e = Ok w' -> acts w' = acts w \/ exists t r ok, acts w' = acts w ++ deliver keep 0 t r ok.
Proof.
  intros H. destruct e as [r|o r|t c|t ok|ok|]; cbn [step] in H.
  - inv H. auto.
  - inv H. auto.
  - destruct (pend w t); [inv H; auto|]. unfold enter in H. destruct c as [|? ?|? ?|? ?|o]; [| | | |destruct (o <? _); inv H; auto]; destruct (replied w); inv H; auto.
  - destruct (pend w t) as [x|]; [|inv H; auto]. unfold respond in H. destruct (alive w); [|inv H; auto]. destruct (negb (t =? 0)) eqn:T; [inv H; auto|].
    destruct (deref _ _) as [r|]; inv H. b2p. subst. right. cbn. eexists _, _, _. reflexivity.
  - destruct (pend w 0); [inv H; auto|]. destruct (queue w) as [|[t x] q]; [inv H; auto|]. destruct (deref _ _); inv H. right. cbn. eexists _, _, _. reflexivity.
  - destruct (queue w); inv H; auto.
Qed.
Lemma acts_proper keep es : forall w w', proper keep (acts w) -> run keep w es = Ok w' -> proper keep (acts w').
Proof.
  induction es as [|e es IH]; intros w w' P H; [inv H; exact P|]. cbn [run] in H. destruct (step keep w e) as [w1| |] eqn:St; cbn [obind] in H; try discriminate.
  apply (IH w1 w'); [|exact H]. destruct (step_acts keep w e w1 St) as [->|(t & r & ok & ->)]; [exact P|].
  unfold deliver. destruct keep; cbn; [|apply proper_closed; auto]. destruct ok; cbn; [apply proper_kept; auto|apply proper_closed; auto].
Qed.

(** Answers from other threads, sent and to be sent. *)
Definition off (w : world) : list nat := filter (fun t => negb (t =? 0)) (map (fun x => snd (fst x)) (answers (acts w))) ++ map fst (queue w).
Definition qinv (w : world) : Prop := forall t x, In (t, x) (queue w) -> t <> 0.
Lemma qinv_step keep w e w' : qinv w -> step keep w e = Ok w' -> qinv w'.
Proof.
  intros Q H. destruct e as [r|o r|t c|t ok|ok|]; cbn [step] in H.
  - inv H. exact Q.
  - inv H. exact Q.
  - destruct (pend w t); [inv H; exact Q|]. unfold enter in H. destruct c as [|? ?|? ?|? ?|o]; [| | | |destruct (o <? _); inv H; exact Q]; destruct (replied w); inv H; exact Q.
  - destruct (pend w t) as [x|]; [|inv H; exact Q]. unfold respond in H. destruct (alive w); [|inv H; exact Q]. destruct (negb (t =? 0)) eqn:T.
    + inv H. intros u y Hy. cbn in Hy. apply in_app_iff in Hy. destruct Hy as [Hy|[Hy|[]]]; [apply (Q u y Hy)|]. inv Hy. b2p. exact T.
    + destruct (deref _ _) as [r|]; inv H. exact Q.
  - destruct (pend w 0); [inv H; exact Q|]. destruct (queue w) as [|[t x] q] eqn:E; [inv H; exact Q|]. destruct (deref _ _); inv H.
    intros u y Hy. apply (Q u y). rewrite E. cbn. auto.
  - destruct (queue w) eqn:E; inv H; [|exact Q]. intros u y [].
Qed.
Lemma off_step keep w e w' : qinv w -> step keep w e = Ok w' ->
  off w' = off w ++ match e with ERespond t _ => if negb (t =? 0) && alive w then match pend w t with Some _ => [t] | None => [] end else [] | _ => [] end.
Proof.
  intros Q H. destruct e as [r|o r|t c|t ok|ok|]; cbn [step] in H; rewrite ?app_nil_r.
  - inv H. reflexivity.
  - inv H. reflexivity.
  - destruct (pend w t); [inv H; reflexivity|]. unfold enter in H. destruct c as [|? ?|? ?|? ?|o]; [| | | |destruct (o <? _); inv H; reflexivity]; destruct (replied w); inv H; reflexivity.
  - destruct (pend w t) as [x|]; [|inv H; destruct (negb (t =? 0) && alive w'); rewrite app_nil_r; reflexivity].
    unfold respond in H. destruct (alive w).
    + rewrite andb_true_r. destruct (negb (t =? 0)) eqn:T.
      * inv H. unfold off. cbn. rewrite map_app, app_assoc. reflexivity.
      * destruct (deref _ _) as [r|]; inv H. unfold off. cbn [acts queue]. rewrite answers_app, answers_deliver, map_app, filter_app. cbn [map filter fst snd]. rewrite T, !app_nil_r. reflexivity.
    + rewrite andb_false_r, app_nil_r. inv H. reflexivity.
  - destruct (pend w 0); [inv H; reflexivity|]. destruct (queue w) as [|[t x] q] eqn:E; [inv H; reflexivity|]. destruct (deref _ _); inv H.
    unfold off. cbn [acts queue]. rewrite E, answers_app, answers_deliver, map_app, filter_app. cbn [map filter fst snd].
    assert (t <> 0) by (apply (Q t x); rewrite E; cbn; auto). apply Nat.eqb_neq in H. rewrite H. cbn. rewrite <- app_assoc. reflexivity.
  - destruct (queue w) eqn:E; inv H; [|reflexivity]. unfold off. cbn. rewrite E. reflexivity.
Qed.
Lemma off_run keep es : forall w w', qinv w -> run keep w es = Ok w' -> exists l, off w' = off w ++ l.
Proof.
  induction es as [|e es IH]; intros w w' Q H; [inv H; exists []; rewrite app_nil_r; reflexivity|].
  cbn [run] in H. destruct (step keep w e) as [w1| |] eqn:St; cbn [obind] in H; try discriminate.
  destruct (IH w1 w' (qinv_step _ _ _ _ Q St) H) as [l E]. rewrite (off_step _ _ _ _ Q St), <- app_assoc in E. eexists. exact E.
Qed.
Lemma qinv_run keep es : forall w w', qinv w -> run keep w es = Ok w' -> qinv w'.
Proof.
  induction es as [|e es IH]; intros w w' Q H; [inv H; exact Q|].
  cbn [run] in H. destruct (step keep w e) as [w1| |] eqn:St; cbn [obind] in H; try discriminate. eapply IH; [eapply qinv_step; [exact Q|exact St]|exact H].
Qed.

(** Whether. *)
Definition rinv (w : world) : Prop := (alive w = true -> (replied w = true <-> origins w <> [])) /\ (alive w = false -> queue w = []) /\ (origins w <> [] -> replied w = true).
Lemma origins_nn w h rp al q p t r keep ok b : origins (W h rp al q p (acts w ++ deliver keep b t r ok)) <> [].
Proof. rewrite origins_send. destruct (map _ _); discriminate. Qed.
Lemma rinv_step keep w e w' : rinv w -> step keep w e = Ok w' -> rinv w'.
Proof.
  intros I H. pose proof I as (A & B & C). destruct e as [r|o r|t c|t ok|ok|]; cbn [step] in H.
  - inv H. exact I.
  - inv H. exact I.
  - destruct (pend w t); [inv H; exact I|]. unfold enter in H. destruct c as [|? ?|? ?|? ?|o]; [| | | |destruct (o <? _); inv H; exact I]; (destruct (replied w) eqn:R; inv H; try exact I; unfold rinv, origins in *; cbn; rewrite ?R in *; exact I).
  - destruct (pend w t) as [x|]; [|inv H; exact I]. unfold respond in H. destruct (alive w) eqn:Al.
    + destruct (negb (t =? 0)).
      * inv H. assert (N : forall p h, origins (W h true true (queue w ++ [(t, keep_ref x keep)]) p (acts w)) <> []).
        { intros p h. unfold origins. cbn. rewrite map_app. cbn. intros E. apply app_eq_nil in E. destruct E as [_ E]. apply app_eq_nil in E. destruct E. discriminate. }
        split; [intros _; split; [intros _; apply N|reflexivity]|]. split; [discriminate|reflexivity].
      * destruct (deref _ _) as [r|]; inv H. split; [intros _; split; [intros _; apply origins_nn|reflexivity]|]. split; [discriminate|reflexivity].
    + inv H. split; [discriminate|]. split; [intros _; apply B; reflexivity|reflexivity].
  - destruct (pend w 0); [inv H; exact I|]. destruct (queue w) as [|[t x] q] eqn:E; [inv H; exact I|]. destruct (deref _ _); inv H.
    assert (O : origins w <> []) by (unfold origins; rewrite E; cbn; intros F; apply app_eq_nil in F; destruct F; discriminate).
    specialize (C O). split; [intros _; split; [intros _; apply origins_nn|intros _; exact C]|]. split; [intros F; specialize (B F); congruence|intros _; exact C].
  - destruct (queue w) eqn:E; inv H; [|exact I]. split; [discriminate|]. split; [reflexivity|]. unfold origins in *. cbn. rewrite E in C. exact C.
Qed.
Lemma rinv_run keep es : forall w w', rinv w -> run keep w es = Ok w' -> rinv w'.
Proof.
  induction es as [|e es IH]; intros w w' Q H; [inv H; exact Q|].
  cbn [run] in H. destruct (step keep w e) as [w1| |] eqn:St; cbn [obind] in H; try discriminate. eapply IH; [eapply rinv_step; [exact Q|exact St]|exact H].
Qed.
Lemma rinv0 : rinv new_ctx.
Proof. split; [intros _; split; [discriminate|intros H; destruct H; reflexivity]|]. split; [discriminate|intros H; destruct H; reflexivity]. Qed.

Lemma dead_run keep es : forall w w', alive w = false -> queue w = [] -> run keep w es = Ok w' -> acts w' = acts w /\ alive w' = false.
Proof.
  induction es as [|e es IH]; intros w w' A Q H; [inv H; auto|].
  cbn [run] in H. destruct (step keep w e) as [w1| |] eqn:St; cbn [obind] in H; try discriminate.
  assert (K : alive w1 = false /\ queue w1 = [] /\ acts w1 = acts w).
  { destruct e as [r|o r|t c|t ok|ok|]; cbn [step] in St.
    - inv St. auto.
    - inv St. auto.
    - destruct (pend w t); [inv St; auto|]. unfold enter in St. destruct c as [|? ?|? ?|? ?|o]; [| | | |destruct (o <? _); inv St; auto]; destruct (replied w); inv St; auto.
    - destruct (pend w t) as [x|]; [|inv St; auto]. unfold respond in St. rewrite A in St. inv St. auto.
    - rewrite Q in St. destruct (pend w 0); inv St; auto.
    - rewrite Q in St. inv St. auto. }
  destruct K as (K1 & K2 & K3). destruct (IH w1 w' K1 K2 H) as [E1 E2]. split; congruence.
Qed.

(** Aborting *)
Lemma step_abort keep w e : step keep w e = CheckFail <-> exists t, e = ECall t KFile /\ replied w = false /\ pend w t = None.
Proof.
  split.
  - destruct e as [r|o r|t c|t ok|ok|]; cbn [step]; try discriminate.
    + destruct (pend w t) eqn:P; [discriminate|]. unfold enter. destruct c as [|? ?|? ?|? ?|o]; [| | | |destruct (o <? _); discriminate]; (destruct (replied w) eqn:R; try discriminate). intros _. exists t. auto.
    + destruct (pend w t) as [x|]; [|discriminate]. unfold respond. destruct (alive w); [|discriminate]. destruct (negb (t =? 0)); [discriminate|]. destruct (deref _ _); discriminate.
    + destruct (pend w 0); [discriminate|]. destruct (queue w) as [|[t x] q]; [discriminate|]. destruct (deref _ _); discriminate.
    + destruct (queue w); discriminate.
  - intros (t & -> & R & P). cbn. rewrite P, R. reflexivity.
Qed.
Lemma run_abort keep es : forall w, run keep w es = CheckFail -> exists es1 t es2 w1, es = es1 ++ ECall t KFile :: es2 /\ run keep w es1 = Ok w1 /\ replied w1 = false /\ pend w1 t = None.
Proof.
  induction es as [|e es IH]; intros w H; [discriminate|]. cbn [run] in H. destruct (step keep w e) as [w1| |] eqn:St; cbn [obind] in H; try discriminate.
  - destruct (IH w1 H) as (es1 & t & es2 & w2 & E & R & K). exists (e :: es1), t, es2, w2. cbn. rewrite St. cbn. subst. auto.
  - apply step_abort in St. destruct St as (t & -> & R & P). exists [], t, es, w. auto.
Qed.
