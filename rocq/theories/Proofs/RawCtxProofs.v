From Coq Require Import Permutation.
From Verif.Model Require Import Common RawCtx.
From Verif.Spec Require Import RawCtxSpec.
From Verif.Proofs Require Import Tac.

Lemma sent_app a b : sent (a ++ b) = sent a ++ sent b.
Proof. unfold sent. apply flat_map_app. Qed.
Lemma sent_deliver t r ok : sent (deliver t r ok) = [(t, r)].
Proof. destruct ok; reflexivity. Qed.

Lemma given_snoc h e : given (h ++ [e]) = given h ++ (if existsb (fun d => match d with Gone => true | _ => false end) h then [] else match e with Act t r _ => [(t, r)] | _ => [] end).
Proof. induction h as [|d h IH]; [destruct e; reflexivity|]. destruct d; simpl; rewrite ?IH; reflexivity. Qed.

Lemma alive_gone h s : run h s -> alive s = negb (existsb (fun d => match d with Gone => true | _ => false end) h).
Proof. induction 1 as [|h s e s' R IH S]; [reflexivity|]. rewrite existsb_app. simpl. rewrite orb_false_r.
  destruct S; simpl; rewrite ?orb_false_r, ?orb_true_r; auto. Qed.

Lemma given_act h s t r ok : run h s -> given (h ++ [Act t r ok]) = if alive s then given h ++ [(t, r)] else given h.
Proof. intros R. rewrite given_snoc, (alive_gone _ _ R). destruct (existsb _ h); simpl; [apply app_nil_r|reflexivity]. Qed.
Lemma given_else h e : (forall t r ok, e <> Act t r ok) -> given (h ++ [e]) = given h.
Proof. intros N. rewrite given_snoc. destruct (existsb _ h); [apply app_nil_r|]. destruct e; try apply app_nil_r. exfalso. eapply N; reflexivity. Qed.

(** Nothing lost, nothing twice. *)
Lemma all_given h s : run h s -> Permutation (sent (acts s) ++ queue s) (given h).
Proof. induction 1 as [|h s e s' R IH S]; [constructor|]. destruct S.
  - rewrite given_else by discriminate. assumption.
  - rewrite given_else by discriminate. assumption.
  - rewrite (given_act _ _ _ _ _ R), H. assumption.
  - rewrite (given_act _ _ _ _ _ R), H. simpl. rewrite sent_app, sent_deliver, <- IH, <- !app_assoc. apply Permutation_app_head. simpl. apply Permutation_cons_append.
  - rewrite (given_act _ _ _ _ _ R), H. simpl. rewrite <- IH, <- !app_assoc. reflexivity.
  - rewrite given_else by discriminate. simpl. rewrite sent_app, sent_deliver, <- app_assoc. rewrite H in IH. exact IH.
  - rewrite given_else by discriminate. assumption.
Qed.

Lemma others_app a b : others (a ++ b) = others a ++ others b.
Proof. apply filter_app. Qed.

Lemma flen (q : list (nat * nat)) : length (filter (fun x => negb (Nat.eqb (fst x) 0)) q) <= length q.
Proof. induction q as [|x q IH]; simpl; [lia|]. destruct (negb _); simpl; lia. Qed.

Lemma queue_others h s : run h s -> others (queue s) = queue s.
Proof. induction 1 as [|h s e s' R IH S]; [reflexivity|]. destruct S; simpl; auto.
  - rewrite others_app, IH. simpl. destruct t; [congruence|reflexivity].
  - rewrite H in IH. simpl in IH. destruct (Nat.eqb t 0); simpl in IH; [|congruence].
    exfalso. apply (f_equal (@length _)) in IH. unfold others in IH. simpl in IH. pose proof (flen q). lia. Qed.

Lemma in_order h s : run h s -> others (sent (acts s)) ++ queue s = others (given h).
Proof. induction 1 as [|h s e s' R IH S]; [reflexivity|]. destruct S.
  - rewrite given_else by discriminate. assumption.
  - rewrite given_else by discriminate. assumption.
  - rewrite (given_act _ _ _ _ _ R), H. assumption.
  - rewrite (given_act _ _ _ _ _ R), H. simpl. rewrite sent_app, sent_deliver, !others_app, <- IH. simpl. rewrite !app_nil_r. reflexivity.
  - rewrite (given_act _ _ _ _ _ R), H. simpl. rewrite others_app, <- IH, <- !app_assoc. simpl. destruct t; [congruence|reflexivity].
  - rewrite given_else by discriminate. simpl. pose proof (queue_others _ _ R) as Q. rewrite H in Q. simpl in Q.
    rewrite sent_app, sent_deliver, others_app, <- IH, H, <- app_assoc. f_equal. simpl. destruct t; [|reflexivity]. simpl in Q.
    exfalso. apply (f_equal (@length _)) in Q. unfold others in Q. simpl in Q. pose proof (flen q). lia.
  - rewrite given_else by discriminate. assumption. Qed.

(** Where answers come from. *)
Lemma origin h s : run h s -> forall t r, In (t, r) (pend s) \/ In (t, r) (given h) -> In (Enter t r false) h.
Proof. induction 1 as [|h s e s' R IH S]; [intros t r [[]|[]]|]. intros u v I. apply in_or_app. destruct S.
  - rewrite given_else in I by discriminate. left. apply IH. assumption.
  - rewrite given_else in I by discriminate. simpl in I. rewrite in_app_iff in I. destruct I as [[I|[E|[]]]|I]; [left; apply IH; auto|inv E; right; left; reflexivity|left; apply IH; auto].
  - left. rewrite (given_act _ _ _ _ _ R), H in I. apply IH. rewrite H0. simpl in I. rewrite in_app_iff in *. simpl. tauto.
  - left. rewrite (given_act _ _ _ _ _ R), H in I. rewrite !in_app_iff in I. simpl in I. rewrite in_app_iff in I. apply IH. rewrite H0, in_app_iff. simpl. intuition.
  - left. rewrite (given_act _ _ _ _ _ R), H in I. rewrite !in_app_iff in I. simpl in I. rewrite in_app_iff in I. apply IH. rewrite H1, in_app_iff. simpl. intuition.
  - rewrite given_else in I by discriminate. left. apply IH. assumption.
  - rewrite given_else in I by discriminate. left. apply IH. assumption. Qed.

(** A thread gives at most one answer. *)
Lemma once_each h s : run h s -> NoDup (map fst (pend s)) /\ NoDup (map fst (given h)) /\
  (replied s = false -> given h = []) /\ (forall t, In t (map fst (given h)) -> ~ In t (map fst (pend s))).
Proof. induction 1 as [|h s e s' R (N1 & N2 & N3 & N4) S]; [repeat split; try constructor; simpl; tauto|].
  assert (G : forall p1 p2 t r, pend s = p1 ++ (t, r) :: p2 -> NoDup (map fst (p1 ++ p2)) /\ ~ In t (map fst (p1 ++ p2)) /\ (forall u, In u (map fst (p1 ++ p2)) -> In u (map fst (pend s)))).
  { intros p1 p2 t r E. rewrite E in *. rewrite map_app in *. simpl in *. apply NoDup_remove in N1. destruct N1 as [A B]. rewrite !map_app in *. repeat split; auto.
    intros u. rewrite !in_app_iff. simpl. tauto. }
  assert (A : forall t r, ~ In t (map fst (given h)) -> NoDup (map fst (given h ++ [(t, r)]))).
  { intros t r NI. rewrite map_app. simpl. apply NoDup_Add with (a := t) (l := map fst (given h)); [|split; assumption].
    rewrite <- (app_nil_r (map fst (given h))) at 1. apply Add_app. }
  destruct S.
  - rewrite given_else by discriminate. auto.
  - rewrite given_else by discriminate. simpl. rewrite map_app. simpl. repeat split; auto.
    + apply NoDup_Add with (a := t) (l := map fst (pend s)); [|split; assumption]. rewrite <- (app_nil_r (map fst (pend s))) at 1. apply Add_app.
    + intros u I. rewrite (N3 H) in I. contradiction.
  - rewrite (given_act _ _ _ _ _ R), H. destruct (G _ _ _ _ H0) as (G1 & G2 & G3). simpl. repeat split; auto; try discriminate. intros u I J. eapply N4; eauto.
  - rewrite (given_act _ _ _ _ _ R), H. destruct (G _ _ _ _ H0) as (G1 & G2 & G3). simpl. repeat split; auto; try discriminate.
    + apply A. intros I. eapply N4; eauto. rewrite H0, map_app, in_app_iff. right. left. reflexivity.
    + intros u I J. rewrite map_app, in_app_iff in I. destruct I as [I|[<-|[]]]; [eapply N4; eauto|auto].
  - rewrite (given_act _ _ _ _ _ R), H. destruct (G _ _ _ _ H1) as (G1 & G2 & G3). simpl. repeat split; auto; try discriminate.
    + apply A. intros I. eapply N4; eauto. rewrite H1, map_app, in_app_iff. right. left. reflexivity.
    + intros u I J. rewrite map_app, in_app_iff in I. destruct I as [I|[<-|[]]]; [eapply N4; eauto|auto].
  - rewrite given_else by discriminate. auto.
  - rewrite given_else by discriminate. auto. Qed.

(** One call at a time: one answer. *)
Lemma prefix_one h e : one_at_a_time (h ++ [e]) -> one_at_a_time h.
Proof. intros O a t r b t' r' seen c E. apply (O a t r b t' r' seen (c ++ [e])). rewrite E. rewrite <- !app_assoc. simpl. rewrite <- app_assoc. reflexivity. Qed.

(** A call under way has its beginning in the history and no end after it. *)
Lemma pend_open h s : run h s -> forall t r, In (t, r) (pend s) -> exists a b, h = a ++ Enter t r false :: b /\ forall ok, ~ In (Act t r ok) b.
Proof. induction 1 as [|h s e s' R IH S]; [contradiction|]. intros u v I.
  assert (K : In (u, v) (pend s) -> (forall ok, e <> Act u v ok) -> exists a b, h ++ [e] = a ++ Enter u v false :: b /\ forall ok, ~ In (Act u v ok) b).
  { intros J N. destruct (IH _ _ J) as (a & b & -> & NB). exists a, (b ++ [e]). split; [rewrite <- app_assoc; reflexivity|]. intros ok J2. apply in_app_or in J2.
    destruct J2 as [J2|[J2|[]]]; [eapply NB; eassumption|eapply N; eassumption]. }
  destruct (once_each _ _ R) as (N1 & _).
  assert (D : forall p1 p2 t r, pend s = p1 ++ (t, r) :: p2 -> In (u, v) (p1 ++ p2) -> t <> u).
  { intros p1 p2 t r E J X. subst t. rewrite E, map_app in N1. simpl in N1. apply NoDup_remove_2 in N1. apply N1. rewrite <- map_app. apply (in_map fst) in J. exact J. }
  assert (D2 : forall p1 p2 t r, pend s = p1 ++ (t, r) :: p2 -> In (u, v) (p1 ++ p2) -> In (u, v) (pend s)).
  { intros p1 p2 t r E J. rewrite E, in_app_iff in *. simpl. tauto. }
  destruct S; simpl in I.
  - apply K; [assumption|discriminate].
  - apply in_app_or in I. destruct I as [I|[E|[]]]; [apply K; [assumption|discriminate]|]. inv E. exists h, []. split; [reflexivity|simpl; tauto].
  - apply K; [eapply D2; eauto|]. intros ok' X. inv X. eapply D; eauto.
  - apply K; [eapply D2; eauto|]. intros ok' X. inv X. eapply D; eauto.
  - apply K; [eapply D2; eauto|]. intros ok' X. inv X. eapply D; eauto.
  - apply K; [assumption|discriminate].
  - apply K; [assumption|discriminate]. Qed.

Lemma one_answer h s : run h s -> one_at_a_time h -> length (given h) + length (pend s) <= 1.
Proof. induction 1 as [|h s e s' R IH S]; [simpl; lia|]. intros O. specialize (IH (prefix_one _ _ O)).
  destruct (once_each _ _ R) as (_ & _ & N3 & _). destruct S.
  - rewrite given_else by discriminate. assumption.
  - rewrite given_else by discriminate. simpl. rewrite (N3 H). destruct (pend s) as [|[u v] p] eqn:EP; [simpl; lia|]. exfalso.
    destruct (pend_open _ _ R u v) as (a & b & -> & NB); [rewrite EP; left; reflexivity|].
    destruct (O a u v b t r false []) as [ok J]; [rewrite <- app_assoc; reflexivity|]. eapply NB; eassumption.
  - rewrite (given_act _ _ _ _ _ R), H. rewrite H0, app_length in IH. simpl in *. rewrite app_length. lia.
  - rewrite (given_act _ _ _ _ _ R), H. rewrite H0, app_length in IH. simpl in *. rewrite !app_length. simpl. lia.
  - rewrite (given_act _ _ _ _ _ R), H. rewrite H1, app_length in IH. simpl in *. rewrite !app_length. simpl. lia.
  - rewrite given_else by discriminate. assumption.
  - rewrite given_else by discriminate. assumption. Qed.

(** Closing. *)
Definition closes (l : list act) : Prop :=
  exists k, l = flat_map (fun x => deliver (fst (fst x)) (snd (fst x)) (snd x)) k.
Lemma acts_closes h s : run h s -> closes (acts s).
Proof. induction 1 as [|h s e s' R IH S]; [exists []; reflexivity|].
  assert (A : forall l t r ok, closes l -> closes (l ++ deliver t r ok)).
  { intros l t r ok [k ->]. exists (k ++ [((t, r), ok)]). rewrite flat_map_app. simpl. rewrite app_nil_r. reflexivity. }
  destruct S; simpl; auto. Qed.

Lemma closes_spec l : closes l -> forall a x b, l = a ++ x :: b ->
  match x with Send _ _ ok => ok = false <-> exists b', b = Close :: b' | Close => exists a' t r, a = a' ++ [Send t r false] end.
Proof. intros [k E]. subst l. induction k as [|[[t r] ok] k IH]; intros a x b E; simpl in E; [destruct a; discriminate|].
  assert (NC : forall q m, flat_map (fun x : nat * nat * bool => deliver (fst (fst x)) (snd (fst x)) (snd x)) q <> Close :: m).
  { intros [|[[? ?] []] q] m; simpl; discriminate. }
  destruct ok; simpl in E.
  - destruct a as [|y a]; inversion E; subst; clear E.
    + split; [discriminate|]. intros [b' E]. exfalso. eapply NC; exact E.
    + specialize (IH _ _ _ H1). destruct x; [exact IH|]. destruct IH as (a' & t' & r' & ->). exists (Send t r true :: a'), t', r'. reflexivity.
  - destruct a as [|y a]; inversion E; subst; clear E; [split; eauto|]. destruct a as [|z a]; inversion H1; subst; clear H1.
    + exists [], t, r. reflexivity.
    + specialize (IH _ _ _ H2). destruct x; [exact IH|]. destruct IH as (a' & t' & r' & ->). exists (Send t r false :: Close :: a'), t', r'. reflexivity. Qed.

(** The flag. *)
Lemma replied_act h s : run h s -> (replied s = true <-> exists t r ok, In (Act t r ok) h).
Proof. induction 1 as [|h s e s' R IH S]; [split; [discriminate|intros (? & ? & ? & [])]|].
  assert (K : (forall t r ok, e <> Act t r ok) -> (replied s = true <-> exists t r ok, In (Act t r ok) (h ++ [e]))).
  { intros N. rewrite IH. split; intros (t & r & ok & I); exists t, r, ok.
    - apply in_or_app. auto.
    - apply in_app_or in I. destruct I as [I|[I|[]]]; [assumption|exfalso; eapply N; eassumption]. }
  destruct S; simpl; try (apply K; discriminate); (split; [|reflexivity]); intros _; eexists _, _, _; apply in_or_app; right; left; reflexivity. Qed.

(** The first call. *)
Definition enter (e : ev) : list (nat * nat) := match e with Enter t r _ => [(t, r)] | _ => [] end.
Lemma first_call h s : run h s -> one_at_a_time h ->
  match flat_map enter h with
  | [] => replied s = false /\ pend s = [] /\ given h = []
  | x :: _ => (forall y, In y (pend s) \/ In y (given h) -> y = x) /\ (replied s = false -> pend s <> [])
  end.
Proof. induction 1 as [|h s e s' R IH S]; [simpl; auto|]. intros O. specialize (IH (prefix_one _ _ O)). rewrite flat_map_app. simpl. rewrite app_nil_r.
  assert (NE : forall t r p1 p2, pend s = p1 ++ (t, r) :: p2 -> flat_map enter h <> []).
  { intros t r p1 p2 E F. rewrite F in IH. destruct IH as (_ & E2 & _). rewrite E2 in E. destruct p1; discriminate. }
  destruct S; simpl enter.
  - rewrite given_else by discriminate. destruct (flat_map enter h) as [|x l]; simpl; [destruct IH; congruence|assumption].
  - rewrite given_else by discriminate. destruct (flat_map enter h) as [|x l]; simpl.
    + destruct IH as (_ & -> & ->). simpl. split; [intros y [[<-|[]]|[]]; reflexivity|discriminate].
    + exfalso. destruct IH as [_ IH]. specialize (IH H). destruct (pend s) as [|[u v] p] eqn:EP; [congruence|].
      destruct (pend_open _ _ R u v) as (a & b & -> & NB); [rewrite EP; left; reflexivity|].
      destruct (O a u v b t r false []) as [ok J]; [rewrite <- app_assoc; reflexivity|]. eapply NB; eassumption.
  - rewrite app_nil_r, (given_act _ _ _ _ _ R), H. specialize (NE _ _ _ _ H0). destruct (flat_map enter h) as [|x l]; [congruence|]. simpl. split; [|discriminate].
    intros y I. apply IH. rewrite H0. rewrite in_app_iff in *. simpl. tauto.
  - rewrite app_nil_r, (given_act _ _ _ _ _ R), H. specialize (NE _ _ _ _ H0). destruct (flat_map enter h) as [|x l]; [congruence|]. simpl. split; [|discriminate].
    intros y I. apply IH. rewrite H0. rewrite !in_app_iff in I. simpl in I. rewrite in_app_iff. simpl. intuition.
  - rewrite app_nil_r, (given_act _ _ _ _ _ R), H. specialize (NE _ _ _ _ H1). destruct (flat_map enter h) as [|x l]; [congruence|]. simpl. split; [|discriminate].
    intros y I. apply IH. rewrite H1. rewrite !in_app_iff in I. simpl in I. rewrite in_app_iff. simpl. intuition.
  - rewrite given_else, app_nil_r by discriminate. exact IH.
  - rewrite given_else, app_nil_r by discriminate. exact IH. Qed.
