(** Proofs about the server's connection bookkeeping. *)
From Coq Require Import List Arith Bool Lia.
From Verif.Model Require Import Common IOService.
From Verif.Spec Require Import ServerSpec.
From Verif.Proofs Require Import Tac.
Import ListNotations.

Lemma mem_In c l : mem c l = true <-> In c l.
Proof.
  unfold mem. rewrite existsb_exists. split.
  - intros (x & I & E). apply Nat.eqb_eq in E. now subst.
  - intro. exists c. now rewrite Nat.eqb_refl.
Qed.
Lemma mem_not c l : mem c l = false <-> ~ In c l.
Proof. rewrite <- mem_In. destruct (mem c l); split; congruence. Qed.
Lemma in_del c x l : In x (del c l) <-> In x l /\ x <> c.
Proof. unfold del. rewrite filter_In, negb_true_iff, Nat.eqb_neq. tauto. Qed.
Lemma del_nodup c l : NoDup l -> NoDup (del c l).
Proof. apply NoDup_filter. Qed.
Lemma del_notin c l : ~ In c l -> del c l = l.
Proof.
  induction l; cbn; auto. intro N. destruct (Nat.eqb_spec a c); cbn; [subst; tauto|]. f_equal. auto.
Qed.
Lemma del_length c l : NoDup l -> In c l -> length l = S (length (del c l)).
Proof.
  induction l; cbn; [tauto|]. intros N [->|I]; inv N.
  - rewrite Nat.eqb_refl. cbn. f_equal. symmetry. f_equal. now apply del_notin.
  - destruct (Nat.eqb_spec a c); cbn; [subst; tauto|]. f_equal. auto.
Qed.
Lemma nodup_snoc {A} (l : list A) x : NoDup l -> ~ In x l -> NoDup (l ++ [x]).
Proof.
  induction l; cbn; intros N I; [repeat constructor; tauto|]. inv N. constructor.
  - rewrite in_app_iff. cbn. intuition.
  - apply IHl; tauto.
Qed.

Lemma stops_app a b : stops (a ++ b) = stops a + stops b.
Proof. induction a as [|[]]; cbn; lia. Qed.

Section I.
Variable limit : nat.

(** [n]: how often the stop notification was given so far *)
Record ioinv (s : iosvc) (n : nat) : Prop := {
  ii_nd : NoDup (io_codecs s);
  ii_cnt : io_count s = length (io_codecs s);
  ii_lim : length (io_codecs s) <= limit;
  ii_open : forall c, In c (io_open s) -> In c (io_codecs s);
  ii_cover : forall c, In c (io_codecs s) -> In c (io_open s) \/ In c (io_removals s) \/ In c (io_stop_tasks s);
  ii_stop : io_stopping s = true -> io_listening s = false /\
            (forall c, In c (io_codecs s) -> In c (io_removals s) \/ In c (io_stop_tasks s)) /\
            (io_codecs s = [] -> 1 <= n);
  ii_dis : forall c, In c (io_removals s) -> ~ In c (io_open s);
  ii_run : io_stopping s = false -> n = 0 /\ io_stop_tasks s = [];
  ii_gone : 1 <= n -> io_codecs s = []
}.

Lemma ioinv_init : ioinv io_init 0.
Proof.
  constructor; cbn; try tauto; try discriminate; try lia. constructor.
Qed.

Lemma iostep_inv s n o s' es : ioinv s n ->
  iostep limit s o = Some (s', es) -> ioinv s' (n + stops es).
Proof.
  intros [ND CN LM OP CV ST DJ RN GN] E. destruct o as [c|c| |c|]; unfold iostep in E.
  - destruct (negb (io_listening s) || mem c (io_codecs s) || mem c (io_removals s) || mem c (io_stop_tasks s)) eqn:B; [discriminate|].
    b2p. repeat match goal with H : mem _ _ = false |- _ => apply mem_not in H end.
    destruct (io_count s <? limit) eqn:L; inv E; b2p; cbn [stops]; rewrite Nat.add_0_r; [|constructor; auto].
    constructor; cbn.
    + apply nodup_snoc; auto.
    + rewrite app_length. cbn. lia.
    + rewrite app_length. cbn. lia.
    + intros x. rewrite !in_app_iff. intros [I|I]; auto.
    + intros x. rewrite !in_app_iff. cbn. intros [I|I]; [|tauto]. apply CV in I. tauto.
    + intro S. destruct (ST S) as (A & _). congruence.
    + intros x I. rewrite in_app_iff. cbn. intros [J|[<-|[]]]; [eapply DJ; eauto|auto].
    + auto.
    + intro G. exfalso. destruct (io_stopping s); [destruct (ST eq_refl); congruence|]. destruct (RN eq_refl). lia.
  - destruct (mem c (io_open s)) eqn:B; [|discriminate]. inv E. cbn. rewrite Nat.add_0_r.
    constructor; cbn; auto.
    + intros x I. apply in_del in I as [I _]. auto.
    + intros x I. rewrite in_app_iff, in_del. cbn. destruct (Nat.eq_dec c x); [subst; tauto|].
      apply CV in I. intuition.
    + intro S. destruct (ST S) as (A & C & D). split; auto. split; auto.
      intros x I. rewrite in_app_iff. apply C in I. tauto.
    + intros x. rewrite in_app_iff, in_del. cbn. intros [I|[<-|[]]]; [|tauto]. apply DJ in I. tauto.
  - destruct (io_stopping s) eqn:SP; [discriminate|]. inv E. destruct (RN eq_refl) as [-> T].
    constructor; cbn; auto.
    + intros x I. rewrite in_app_iff. auto.
    + intros _. split; auto. split; [intros x I; rewrite in_app_iff; auto|].
      intros ->. cbn. lia.
    + discriminate.
    + destruct (Nat.eqb_spec (length (io_codecs s)) 0) as [Z|Z]; cbn; intro G; [|lia].
      destruct (io_codecs s); [auto|discriminate].
  - destruct (mem c (io_stop_tasks s)) eqn:B; [|discriminate]. inv E. cbn. rewrite Nat.add_0_r.
    constructor; cbn; auto.
    + intros x I. apply in_del in I as [I _]. auto.
    + intros x I. rewrite in_app_iff, !in_del. cbn. destruct (Nat.eq_dec c x); [subst; tauto|].
      apply CV in I. intuition.
    + intro S. destruct (ST S) as (A & C & D). split; auto. split; auto.
      intros x I. rewrite in_app_iff, in_del. cbn. destruct (Nat.eq_dec c x); [subst; tauto|]. apply C in I. intuition.
    + intros x. rewrite in_app_iff, in_del. cbn. intros [I|[<-|[]]]; [|tauto]. apply DJ in I. tauto.
    + intro S. destruct (RN S) as [? T]. rewrite T in B. discriminate.
  - destruct (io_removals s) as [|c rest] eqn:RM; [discriminate|]. inv E.
    assert (NOC : In c (io_open s) -> In c (io_codecs s)) by auto.
    assert (XX : ~ In c (io_open s)) by (apply DJ; left; auto).
    constructor; cbn.
    + apply del_nodup; auto.
    + destruct (mem c (io_codecs s)) eqn:M.
      * apply mem_In in M. rewrite (del_length c _ ND M) in CN. lia.
      * apply mem_not in M. now rewrite del_notin.
    + destruct (mem c (io_codecs s)) eqn:M.
      * apply mem_In in M. rewrite (del_length c _ ND M) in LM. lia.
      * apply mem_not in M. now rewrite del_notin.
    + intros x I. apply in_del. split; auto. intros ->. auto.
    + intros x I. apply in_del in I as [I N]. apply CV in I. cbn in I. intuition congruence.
    + intro S. destruct (ST S) as (A & C & D). split; auto. split.
      * intros x I. apply in_del in I as [I N]. apply C in I. cbn in I. intuition congruence.
      * intros Z. rewrite S, Z. cbn. lia.
    + intros x I. apply DJ. right; auto.
    + intro S. rewrite S. cbn. destruct (RN S). split; auto. lia.
    + intro G. destruct (io_codecs s) as [|x l] eqn:CD; [reflexivity|].
      assert (N0 : n = 0) by (destruct n; auto; assert (x :: l = []) by (apply GN; lia); discriminate).
      subst n. destruct (io_stopping s); cbn [andb stops Nat.add] in G; [|lia].
      destruct (Nat.eqb_spec (length (del c (x :: l))) 0) as [Z|Z]; cbn [stops] in G; [|lia].
      destruct (del c (x :: l)); [auto|discriminate].
Qed.

Lemma iorun_inv os : forall s n s' es, ioinv s n -> iorun limit s os = Some (s', es) -> ioinv s' (n + stops es).
Proof.
  induction os as [|o os IH]; intros s n s' es I E; cbn in E.
  - inv E. cbn. now rewrite Nat.add_0_r.
  - destruct (iostep limit s o) as [[s1 e1]|] eqn:E1; [|discriminate].
    destruct (iorun limit s1 os) as [[s2 e2]|] eqn:E2; [|discriminate]. inv E.
    rewrite stops_app, Nat.add_assoc. eapply IH; eauto. eapply iostep_inv; eauto.
Qed.

(** Without connections closing on their own after the stop: one removal per connection. *)
Record stopinv (s : iosvc) (n : nat) : Prop := {
  si_stop : io_stopping s = true;
  si_listen : io_listening s = false;
  si_nd : NoDup (io_stop_tasks s ++ io_removals s);
  si_set : forall c, In c (io_codecs s) <-> In c (io_stop_tasks s ++ io_removals s);
  si_n : n = if length (io_codecs s) =? 0 then 1 else 0
}.

Lemma NoDup_app_iff {A} (a b : list A) : NoDup (a ++ b) <-> NoDup a /\ NoDup b /\ (forall x, In x a -> ~ In x b).
Proof.
  induction a; cbn; split.
  - intro; repeat split; auto; constructor.
  - tauto.
  - intro N. inv N. apply IHa in H2 as (P & Q & U). rewrite in_app_iff in H1. repeat split; auto.
    + constructor; tauto.
    + intros x [->|I]; auto.
  - intros (P & Q & U). inv P. constructor.
    + rewrite in_app_iff. intros [I|I]; auto. eapply U; eauto.
    + apply IHa. repeat split; auto.
Qed.

Lemma stopinv_step s n o s' es : stopinv s n -> (forall c, o <> IPeerClose c) ->
  iostep limit s o = Some (s', es) -> stopinv s' (n + stops es).
Proof.
  intros [SP SL ND ST NN] NP E. destruct o as [c|c| |c|]; unfold iostep in E.
  - rewrite SL in E. discriminate.
  - exfalso. eapply NP; eauto.
  - rewrite SP in E. discriminate.
  - destruct (mem c (io_stop_tasks s)) eqn:B; [|discriminate]. inv E. cbn. rewrite Nat.add_0_r.
    apply mem_In in B. apply NoDup_app_iff in ND as (N1 & N2 & N3).
    constructor; cbn; auto.
    + apply NoDup_app_iff. split; [apply del_nodup; auto|]. split; [apply nodup_snoc; auto|].
      intros x I J. apply in_del in I as [I N]. apply in_app_or in J as [J|[J|[]]]; [eapply N3; eauto|congruence].
    + intro x. rewrite ST, !in_app_iff, in_del. cbn. destruct (Nat.eq_dec c x); [subst; tauto|]. intuition.
  - destruct (io_removals s) as [|c rest] eqn:RM; [discriminate|]. inv E.
    apply NoDup_app_iff in ND as (N1 & N2 & N3). inv N2.
    assert (CI : In c (io_codecs s)) by (apply ST, in_or_app; right; left; auto).
    constructor; cbn; auto.
    + apply NoDup_app_iff. split; auto. split; auto. intros x I J. eapply N3; eauto. right; auto.
    + intro x. rewrite in_del, ST, !in_app_iff. cbn. split.
      * intuition congruence.
      * intros [I|I]; (split; [tauto|]); intros ->; [eapply N3; eauto; left; auto|auto].
    + destruct (io_codecs s) as [|y l]; [destruct CI|]. cbn [length Nat.eqb]. rewrite SP. cbn [andb].
      destruct (length (del c (y :: l)) =? 0); reflexivity.
Qed.

Lemma stopinv_run os : forall s n s' es, stopinv s n -> (forall c, ~ In (IPeerClose c) os) ->
  iorun limit s os = Some (s', es) -> stopinv s' (n + stops es).
Proof.
  induction os as [|o os IH]; intros s n s' es I NP E; cbn in E.
  - inv E. cbn. now rewrite Nat.add_0_r.
  - destruct (iostep limit s o) as [[s1 e1]|] eqn:E1; [|discriminate].
    destruct (iorun limit s1 os) as [[s2 e2]|] eqn:E2; [|discriminate]. inv E.
    rewrite stops_app, Nat.add_assoc. eapply IH; eauto.
    + eapply stopinv_step; eauto. intros c ->. eapply NP; left; eauto.
    + intros c J. eapply NP; right; eauto.
Qed.
Lemma iorun_app os1 : forall s os2, iorun limit s (os1 ++ os2) =
  match iorun limit s os1 with
  | None => None
  | Some (s1, es) => match iorun limit s1 os2 with None => None | Some (s2, es') => Some (s2, es ++ es') end
  end.
Proof.
  induction os1 as [|o os1 IH]; intros s os2; cbn.
  - destruct (iorun limit s os2) as [[]|]; auto.
  - destruct (iostep limit s o) as [[s1 e1]|]; auto. rewrite IH.
    destruct (iorun limit s1 os1) as [[s2 e2]|]; auto.
    destruct (iorun limit s2 os2) as [[s3 e3]|]; auto. now rewrite app_assoc.
Qed.

Lemma conn_closes_app c a b : conn_closes c (a ++ b) = conn_closes c a + conn_closes c b.
Proof. induction a as [|[]]; cbn; lia. Qed.

(** At least once: [f c] counts the close notifications of [c] so far. *)
Definition told (s : iosvc) (acc : list nat) (f : nat -> nat) : Prop :=
  forall c, In c acc -> In c (io_open s) \/ 1 <= f c.

Definition accepted (limit : nat) (s : iosvc) (o : ioop) : list nat :=
  match o with IAccept c => if io_count s <? limit then [c] else [] | _ => [] end.

Lemma told_step s acc f o s' es : told s acc f -> iostep limit s o = Some (s', es) ->
  told s' (accepted limit s o ++ acc) (fun c => f c + conn_closes c es).
Proof.
  intros T E x I. destruct o as [c|c| |c|]; unfold iostep, accepted in *.
  - destruct (_ || _ || _ || _); [discriminate|]. destruct (io_count s <? limit); inv E; cbn in *.
    + rewrite in_app_iff. cbn. destruct I as [->|I]; [tauto|]. destruct (T _ I); [tauto|lia].
    + destruct (T _ I); [tauto|lia].
  - destruct (mem c (io_open s)); [|discriminate]. inv E. cbn in *. rewrite in_del.
    destruct (Nat.eqb_spec c x); [right; lia|]. destruct (T _ I); [left; split; auto|right; lia].
  - destruct (io_stopping s); [discriminate|]. inv E. cbn in *. destruct (T _ I); [tauto|right; lia].
  - destruct (mem c (io_stop_tasks s)); [|discriminate]. inv E. cbn in *. rewrite in_del.
    destruct (Nat.eqb_spec c x); [right; lia|]. destruct (T _ I); [left; split; auto|right; lia].
  - destruct (io_removals s) as [|c rest]; [discriminate|]. inv E. cbn in *. destruct (T _ I); [tauto|right; lia].
Qed.

Lemma told_run os : forall s acc f s' es, told s acc f -> iorun limit s os = Some (s', es) ->
  forall c, In c acc \/ (In c (arrivals os) /\ ~ rejected c es) -> In c (io_open s') \/ 1 <= f c + conn_closes c es.
Proof.
  induction os as [|o os IH]; intros s acc f s' es T E c I; cbn in E.
  - inv E. cbn in *. rewrite Nat.add_0_r. destruct I as [I|[[] _]]. auto.
  - destruct (iostep limit s o) as [[s1 e1]|] eqn:E1; [|discriminate].
    destruct (iorun limit s1 os) as [[s2 e2]|] eqn:E2; [|discriminate]. inv E.
    rewrite conn_closes_app, Nat.add_assoc.
    refine (IH _ _ _ _ _ (told_step _ _ _ _ _ _ T E1) E2 c _).
    rewrite in_app_iff. unfold rejected in *. destruct I as [I|[I N]]; [tauto|]. rewrite in_app_iff in N.
    destruct o; cbn in I; try tauto. destruct I as [->|I]; [|tauto].
    unfold iostep in E1. unfold accepted. destruct (_ || _ || _ || _); [discriminate|].
    destruct (io_count s <? limit); inv E1; cbn in *; tauto.
Qed.

(** Before a stop: at most one notification, none while open. *)
Record onceinv (s : iosvc) (used : list nat) (f : nat -> nat) : Prop := {
  oi_stop : io_stopping s = false -> io_stop_tasks s = [];
  oi_open : forall c, In c (io_open s) -> f c = 0;
  oi_task : forall c, In c (io_stop_tasks s) -> f c = 0;
  oi_codec : forall c, In c (io_codecs s) \/ In c (io_open s) \/ In c (io_stop_tasks s) -> In c used;
  oi_fresh : forall c, ~ In c used -> f c = 0;
  oi_once : forall c, f c <= 1
}.

Lemma onceinv_pre s used f o s' es :
  onceinv s used f -> io_stopping s = false -> o <> IStop -> (forall c, o = IAccept c -> ~ In c used) ->
  iostep limit s o = Some (s', es) ->
  onceinv s' (arrivals [o] ++ used) (fun c => f c + conn_closes c es) /\ io_stopping s' = false.
Proof.
  intros [A B C D F G] SP NS FR E. specialize (A SP). destruct o as [c|c| |c|]; unfold iostep in E.
  - destruct (_ || _ || _ || _); [discriminate|]. specialize (FR c eq_refl).
    destruct (io_count s <? limit); inv E; (split; [|assumption]).
    + constructor; cbn; auto; intros x; rewrite ?Nat.add_0_r, ?A, ?in_app_iff; cbn; intros; auto.
      * destruct H as [I|[<-|[]]]; auto.
      * destruct H as [[I|[<-|[]]]|[[I|[<-|[]]]|[]]]; auto; right; apply D; auto.
    + constructor; cbn; auto; intros x; rewrite ?Nat.add_0_r, ?A, ?in_app_iff; cbn; intros; auto.
  - destruct (mem c (io_open s)) eqn:M; [|discriminate]. apply mem_In in M. inv E. split; [|assumption].
    constructor; cbn; auto; intros x; rewrite ?Nat.add_0_r, ?A, ?in_del; cbn; intros; auto.
    + destruct H as [I N]. destruct (Nat.eqb_spec c x); [congruence|]. rewrite (B _ I). auto.
    + tauto.
    + apply D. tauto.
    + destruct (Nat.eqb_spec c x); [subst; exfalso; apply H; auto|]. rewrite F; auto.
    + destruct (Nat.eqb_spec c x); [subst; rewrite (B _ M); auto|]. specialize (G x). lia.
  - congruence.
  - rewrite A in E. discriminate.
  - destruct (io_removals s) as [|c rest]; [discriminate|]. inv E. split; [|assumption]. rewrite SP.
    constructor; cbn; auto; intros x; rewrite ?Nat.add_0_r, ?A, ?in_del; cbn; intros; auto.
    + apply D. tauto.
Qed.

Lemma onceinv_prerun os : forall s used f s' es, onceinv s used f -> io_stopping s = false ->
  ~ In IStop os -> NoDup (arrivals os) -> (forall c, In c (arrivals os) -> ~ In c used) ->
  iorun limit s os = Some (s', es) ->
  exists used', onceinv s' used' (fun c => f c + conn_closes c es) /\ io_stopping s' = false.
Proof.
  induction os as [|o os IH]; intros s used f s' es I SP NS ND FR E; cbn in E.
  - inv E. exists used. split; auto. destruct I as [A B C D F G]. constructor; cbn; auto; intros; rewrite Nat.add_0_r; auto.
  - destruct (iostep limit s o) as [[s1 e1]|] eqn:E1; [|discriminate].
    destruct (iorun limit s1 os) as [[s2 e2]|] eqn:E2; [|discriminate]. inv E.
    assert (X1 : o <> IStop) by (intros ->; apply NS; left; auto).
    assert (X2 : forall c, o = IAccept c -> ~ In c used) by (intros c ->; apply FR; left; auto).
    destruct (onceinv_pre _ _ _ _ _ _ I SP X1 X2 E1) as [I1 S1].
    assert (Y1 : ~ In IStop os) by (intro; apply NS; right; auto).
    assert (Y2 : NoDup (arrivals os)) by (destruct o; cbn in ND; auto; inv ND; auto).
    assert (Y3 : forall c, In c (arrivals os) -> ~ In c (arrivals [o] ++ used)).
    { intros c J. destruct o; cbn in *; auto. inv ND. intros [->|K]; [auto|]. eapply FR; eauto. }
    destruct (IH _ _ _ _ _ I1 S1 Y1 Y2 Y3 E2) as (u & I2 & S2).
    exists u. split; auto. destruct I2 as [A B C D F G].
        constructor; auto; intros; rewrite conn_closes_app, Nat.add_assoc; auto.
Qed.

(** After it, when nothing closes on its own any more. *)
Record lateinv (s : iosvc) (f : nat -> nat) : Prop := {
  li_stop : io_stopping s = true;
  li_listen : io_listening s = false;
  li_task : forall c, In c (io_stop_tasks s) -> f c = 0;
  li_once : forall c, f c <= 1
}.
Lemma lateinv_run os : forall s f s' es, lateinv s f -> (forall c, ~ In (IPeerClose c) os) ->
  iorun limit s os = Some (s', es) -> lateinv s' (fun c => f c + conn_closes c es).
Proof.
  induction os as [|o os IH]; intros s f s' es [A L B C] NP E; cbn in E.
  - inv E. constructor; cbn; auto; intros; rewrite Nat.add_0_r; auto.
  - destruct (iostep limit s o) as [[s1 e1]|] eqn:E1; [|discriminate].
    destruct (iorun limit s1 os) as [[s2 e2]|] eqn:E2; [|discriminate]. inv E.
    assert (I1 : lateinv s1 (fun c => f c + conn_closes c e1)).
    { clear IH E2. destruct o as [c|c| |c|]; unfold iostep in E1.
      - rewrite L in E1. discriminate.
      - exfalso. eapply NP. left. reflexivity.
      - rewrite A in E1. discriminate.
      - destruct (mem c (io_stop_tasks s)) eqn:M; [|discriminate]. apply mem_In in M. inv E1.
        constructor; cbn; auto; intros x; rewrite ?Nat.add_0_r, ?in_del; intros.
        + destruct H as [I N]. destruct (Nat.eqb_spec c x); [congruence|]. rewrite (B _ I). auto.
        + destruct (Nat.eqb_spec c x); [subst; rewrite (B _ M); auto|]. specialize (C x). lia.
      - destruct (io_removals s); [discriminate|]. inv E1.
        constructor; cbn; auto; intros x; intros; destruct (_ && _); cbn; rewrite Nat.add_0_r; auto. }
    assert (Y : forall c, ~ In (IPeerClose c) os) by (intros c J; eapply NP; right; eauto).
    destruct (IH _ _ _ _ I1 Y E2) as [A2 L2 B2 C2].
    constructor; auto; intros; rewrite conn_closes_app, Nat.add_assoc; auto.
Qed.
End I.
