From Verif.Model Require Import Common Accumulator.
From Verif.Spec Require Import AccSpec.
From Verif.Proofs Require Import Tac.

Section AccProofs.
Variable T : Type.
Variable add : T -> T -> T.
Variable dflt : T.
Variable c : nat.
Variable hash : nat -> nat.
Hypothesis SM : summable T add dflt.

Notation mfind := (mfind T).
Notation vals := (vals T).
Notation total := (total T add dflt).
Notation sums_up := (sums_up T add dflt).

Lemma mfind_upd k k' w f m : mfind k (mupd T k' w f m) =
  if key_eq_dec k' k then Some (match mfind k m with Some v => f v | None => w end) else mfind k m.
Proof.
  induction m as [|[k0 v] m IH]; cbn.
  - destruct (key_eq_dec k' k); reflexivity.
  - destruct (key_eq_dec k0 k') as [->|n]; cbn.
    + destruct (key_eq_dec k' k); reflexivity.
    + rewrite IH. destruct (key_eq_dec k' k) as [->|], (key_eq_dec k0 k) as [->|]; congruence.
Qed.
Lemma mfind_in k m : mfind k m <> None <-> In k (map fst m).
Proof.
  induction m as [|[k0 v] m IH]; cbn; [intuition|]. destruct (key_eq_dec k0 k) as [->|n]; [intuition congruence|].
  rewrite IH. intuition congruence.
Qed.
Lemma mupd_keys k w f m : map fst (mupd T k w f m) = match mfind k m with Some _ => map fst m | None => map fst m ++ [k] end.
Proof.
  induction m as [|[k0 v] m IH]; cbn; [reflexivity|]. destruct (key_eq_dec k0 k) as [->|n]; cbn; [reflexivity|].
  rewrite IH. destruct (mfind k m); reflexivity.
Qed.
Lemma mupd_nodup k w f m : NoDup (map fst m) -> NoDup (map fst (mupd T k w f m)).
Proof.
  intro H. rewrite mupd_keys. destruct (mfind k m) eqn:E; [exact H|].
  apply Permutation_NoDup with (k :: map fst m); [apply Permutation_cons_append|]. constructor; [|exact H].
  rewrite <- mfind_in. congruence.
Qed.

Lemma vals_app k l1 l2 : vals k (l1 ++ l2) = vals k l1 ++ vals k l2.
Proof. unfold AccSpec.vals. now rewrite filter_app, map_app. Qed.
Lemma vals_one k k' v : vals k [(k', v)] = if key_eq_dec k' k then [v] else [].
Proof. unfold AccSpec.vals. cbn [filter fst]. destruct (key_eq_dec k' k); reflexivity. Qed.
Lemma filter_perm {A} (p : A -> bool) l l' : Permutation l l' -> Permutation (filter p l) (filter p l').
Proof.
  induction 1 as [|x l l' H IH|x y l|l1 l2 l3 H1 IH1 H2 IH2]; cbn [filter].
  - constructor.
  - destruct (p x); [apply perm_skip|]; exact IH.
  - destruct (p x), (p y); try reflexivity. apply perm_swap.
  - eapply perm_trans; eassumption.
Qed.
Lemma vals_perm k l l' : Permutation l l' -> Permutation (vals k l) (vals k l').
Proof. intro H. apply Permutation_map, filter_perm, H. Qed.
Lemma total_cons x l : total (x :: l) = add x (total l).
Proof. reflexivity. Qed.
Lemma total_app l1 l2 : total (l1 ++ l2) = add (total l1) (total l2).
Proof.
  destruct SM as (_ & As & U). induction l1 as [|x l1 IH]; cbn [app].
  - change (total []) with dflt. now rewrite U.
  - rewrite !total_cons, IH. apply As.
Qed.
Lemma total_perm l l' : Permutation l l' -> total l = total l'.
Proof.
  destruct SM as (Cm & As & U). induction 1; rewrite ?total_cons; try congruence; rewrite ?As, ?(Cm x y); congruence.
Qed.
Lemma total_one v : total [v] = v.
Proof. destruct SM as (Cm & _ & U). rewrite total_cons. change (total []) with dflt. now rewrite Cm, U. Qed.

Lemma sums_up_perm l l' m : Permutation l l' -> sums_up l m -> sums_up l' m.
Proof.
  intros P [N S]. split; [exact N|]. intro k. rewrite S. pose proof (vals_perm k _ _ P) as V.
  destruct (vals k l) as [|x xs] eqn:E1, (vals k l') as [|y ys] eqn:E2; try reflexivity.
  - apply Permutation_nil in V. discriminate.
  - apply Permutation_sym, Permutation_nil in V. discriminate.
  - now rewrite (total_perm _ _ V).
Qed.
Lemma sums_up_nil : sums_up [] [].
Proof. split; [constructor|reflexivity]. Qed.

Lemma acc_sums l m k v : sums_up l m -> sums_up (l ++ [(k, v)]) (acc T add m k v).
Proof.
  intros [N S]. split; [apply mupd_nodup, N|]. intro k'. unfold acc. rewrite mfind_upd, vals_app, vals_one, S.
  destruct (key_eq_dec k k') as [->|n].
  - destruct (vals k' l) as [|x xs] eqn:E; cbn [app].
    + now rewrite total_one.
    + f_equal. rewrite app_comm_cons, total_app, total_one. reflexivity.
  - rewrite app_nil_r. reflexivity.
Qed.

Lemma merge_find k part : forall all, NoDup (map fst part) -> mfind k (merge T add dflt all part) =
  match mfind k part with
  | None => mfind k all
  | Some v => Some (match mfind k all with None => add dflt v | Some o => add o v end)
  end.
Proof.
  induction part as [|[k0 v0] part IH]; intros all N; [reflexivity|]. cbn [map fst] in N. inv N.
  unfold merge in *. cbn [fold_left]. rewrite IH by assumption. cbn [fst snd Accumulator.mfind]. rewrite mfind_upd.
  destruct (key_eq_dec k0 k) as [->|n]; [|reflexivity].
  assert (E : mfind k part = None). { destruct (mfind k part) eqn:E; [|reflexivity]. exfalso. apply H1, mfind_in. congruence. }
  rewrite E. destruct (mfind k all); reflexivity.
Qed.
Lemma merge_nodup part : forall all, NoDup (map fst all) -> NoDup (map fst (merge T add dflt all part)).
Proof. induction part as [|p part IH]; intros all N; [exact N|]. cbn. apply IH, mupd_nodup, N. Qed.
Lemma merge_sums l1 m1 l2 m2 : sums_up l1 m1 -> sums_up l2 m2 -> sums_up (l1 ++ l2) (merge T add dflt m1 m2).
Proof.
  destruct SM as (Cm & As & U). intros [N1 S1] [N2 S2]. split; [apply merge_nodup, N1|]. intro k.
  rewrite merge_find by exact N2. rewrite vals_app, S1, S2.
  destruct (vals k l2) as [|y ys] eqn:E2.
  - rewrite app_nil_r. reflexivity.
  - destruct (vals k l1) as [|x xs] eqn:E1; cbn [app].
    + now rewrite U.
    + f_equal. rewrite app_comm_cons, total_app. reflexivity.
Qed.

(** Lists per shard. *)
Definition lupd (L : nat -> list (key * T)) i l := fun j => if Nat.eqb j i then l else L j.
Definition flat (L : nat -> list (key * T)) n := concat (map L (seq 0 n)).
Lemma flat_S L n : flat L (S n) = flat L n ++ L n.
Proof. unfold flat. rewrite seq_S, map_app, concat_app. cbn. now rewrite app_nil_r. Qed.
Lemma flat_out L i l n : n <= i -> flat (lupd L i l) n = flat L n.
Proof.
  intro H. unfold flat. f_equal. apply map_ext_in. intros j J. apply in_seq in J. unfold lupd. destruct (Nat.eqb_spec j i); [lia|reflexivity].
Qed.
Lemma flat_in L i l n : i < n -> Permutation (flat (lupd L i l) n ++ L i) (flat L n ++ l).
Proof.
  induction n as [|n IH]; [lia|]. intro H. rewrite !flat_S. destruct (Nat.eq_dec i n) as [->|n0].
  - rewrite flat_out by lia. unfold lupd. rewrite Nat.eqb_refl. rewrite <- !app_assoc. apply Permutation_app_head, Permutation_app_comm.
  - assert (E : lupd L i l n = L n) by (unfold lupd; destruct (Nat.eqb_spec n i); [lia|reflexivity]). rewrite E.
    rewrite <- !app_assoc. rewrite (Permutation_app_comm (L n) (L i)), (Permutation_app_comm (L n) l). rewrite !app_assoc.
    apply Permutation_app_tail, IH. lia.
Qed.
Lemma flat_add L i x n : i < n -> Permutation (flat (lupd L i (L i ++ x)) n) (flat L n ++ x).
Proof.
  intro H. pose proof (flat_in L i (L i ++ x) n H) as P. set (L' := lupd L i (L i ++ x)) in *.
  clearbody L'. apply (Permutation_app_inv_r (L i)). rewrite P, <- app_assoc. apply Permutation_app_head, Permutation_app_comm.
Qed.
Lemma flat_clear L i n : i < n -> Permutation (flat L n) (flat (lupd L i []) n ++ L i).
Proof. intro H. pose proof (flat_in L i [] n H) as P. rewrite app_nil_r in P. symmetry. exact P. Qed.

Definition idx (s : ast T) : nat := match apcs T s with ASweep _ i _ => i | _ => c end.

Definition ainv (h : alog T) (s : ast T) : Prop := exists Ds A L Q,
  Permutation (collects T h) (concat Ds ++ A ++ flat L c) /\
  Forall2 sums_up Ds (handled T h) /\
  (forall i, i < c -> sums_up (L i) (shards T s i)) /\
  match apcs T s with ASweep _ i all => i <= c /\ sums_up A all | _ => A = [] end /\
  Permutation (since T h) (flat L (idx s) ++ Q) /\
  match thr T s with TThread => apcs T s <> ANone T | _ => apcs T s = ANone T \/ apcs T s = AExited T end.

Lemma collects_snoc h x : collects T (h ++ [x]) = collects T h ++ collect1 T x.
Proof. unfold collects. rewrite flat_map_app. cbn. now rewrite app_nil_r. Qed.
Lemma since_snoc h x : since T (h ++ [x]) = since_step T (since T h) x.
Proof. unfold since. now rewrite fold_left_app. Qed.
Lemma handled_snoc h x : handled T (h ++ [x]) = handled T h ++ match snd x with VHandled _ m => [m] | _ => [] end.
Proof. unfold handled. rewrite flat_map_app. cbn. now rewrite app_nil_r. Qed.

Lemma ahist_inv h s : ahist T add dflt c hash h s -> ainv h s.
Proof.
  induction 1 as [|h s x s' e H (Ds & A & L & Q & I1 & I2 & I3 & I4 & I5 & I6) St].
  - exists [], [], (fun _ => []), []. unfold flat, idx. cbn [apcs ainit shards].
    assert (Z : forall n, concat (map (fun _ : nat => @nil (key * T)) (seq 0 n)) = []).
    { intro n. induction (seq 0 n) as [|a l IH]; cbn; auto. }
    rewrite Z. split; [constructor|]. split; [constructor|]. split; [intros; apply sums_up_nil|]. cbn. auto.
  - assert (ST : collect1 T (x, e) = [] -> e <> VWake T -> (forall m, e <> VHandled T m) ->
      shards T s' = shards T s -> apcs T s' = apcs T s \/ ((match apcs T s with ASweep _ _ _ => False | _ => True end) /\ (match apcs T s' with ASweep _ _ _ => False | _ => True end)) ->
      match thr T s' with TThread => apcs T s' <> ANone T | _ => apcs T s' = ANone T \/ apcs T s' = AExited T end ->
      ainv (h ++ [(x, e)]) s').
    { intros N1 N2 N3 N4 N5 N7. exists Ds, A, L, Q. rewrite collects_snoc, since_snoc, handled_snoc, N1, N4, app_nil_r.
      assert (X : match snd (x, e) with VHandled _ m => [m] | _ => [] end = []) by (cbn; destruct e; try reflexivity; exfalso; eapply N3; reflexivity).
      rewrite X, app_nil_r. unfold since_step. rewrite N1, app_nil_r. unfold idx in *.
      split; [exact I1|]. split; [exact I2|]. split; [exact I3|]. rewrite <- and_assoc. split; [|exact N7]. destruct N5 as [->|[N5 N6]].
      - split; [exact I4|]. cbn [snd]. destruct e; try exact I5. congruence.
      - destruct (apcs T s); try destruct N5; destruct (apcs T s'); try destruct N6; (split; [exact I4|]); cbn [snd]; destruct e; try exact I5; congruence. }
    destruct x; cbn [astep] in St.
    + inv St. apply ST; cbn; auto; discriminate.
    + destruct (thr T s) eqn:TH; inv St; (apply ST; cbn; auto; try discriminate).
      all: right; destruct I6 as [P|P]; rewrite P; auto.
    + destruct (thr T s) eqn:TH; inv St; (apply ST; cbn; auto; try discriminate).
    + destruct (thr T s) eqn:TH, (apcs T s) eqn:P, (running T s); inv St; (apply ST; cbn; rewrite ?P; auto; try discriminate).
    + destruct (Nat.eqb_spec c 0) as [C0|C0]; [discriminate|]. inv St.
      set (i := hash t mod c). assert (Hi : i < c) by (apply Nat.mod_upper_bound, C0).
      exists Ds, A, (lupd L i (L i ++ [(k, v)])).
      assert (X : exists Q', Permutation (since T h ++ [(k, v)]) (flat (lupd L i (L i ++ [(k, v)])) (idx s) ++ Q')).
      { destruct (Nat.lt_ge_cases i (idx s)) as [Y|Y].
        - exists Q. rewrite (flat_add L i [(k, v)] _ Y), I5, <- !app_assoc. apply Permutation_app_head, Permutation_app_comm.
        - exists (Q ++ [(k, v)]). rewrite flat_out by exact Y. rewrite I5, app_assoc. reflexivity. }
      destruct X as (Q' & X). exists Q'. rewrite collects_snoc, since_snoc, handled_snoc. cbn [collect1 fst snd since_step shards apcs thr].
      rewrite app_nil_r. split; [|split; [exact I2|split; [|split; [exact I4|split; [exact X|exact I6]]]]].
      * rewrite (flat_add L i _ c Hi), I1, <- !app_assoc. reflexivity.
      * intros j Hj. unfold set_shard, lupd. destruct (Nat.eqb_spec j i) as [->|]; [apply acc_sums|]; auto.
    + destruct (apcs T s) as [| | |i all|] eqn:P; try discriminate.
      * destruct (running T s); inv St; (apply ST; cbn; auto; try discriminate).
        all: try (right; rewrite P; auto).
        all: destruct (thr T s); try discriminate; destruct I6; congruence.
      * (* wakes *) inv St. exists Ds, [], L, []. rewrite collects_snoc, since_snoc, handled_snoc.
        unfold since_step, collect1, idx. cbn [fst snd set_pc apcs shards thr]. rewrite !app_nil_r.
        split; [exact I1|]. split; [exact I2|]. split; [exact I3|]. split; [split; [lia|apply sums_up_nil]|].
        split; [constructor|]. destruct (thr T s); try discriminate; destruct I6; congruence.
      * destruct I4 as [I4 I4']. destruct (Nat.ltb_spec i c) as [C|C].
        -- (* swaps *) inv St. exists Ds, (A ++ L i), (lupd L i []), Q. rewrite collects_snoc, since_snoc, handled_snoc.
           unfold since_step, collect1, idx in *. rewrite P in I5. cbn [fst snd apcs shards thr]. rewrite !app_nil_r.
           split; [|split; [exact I2|split; [|split; [split; [lia|apply merge_sums; auto]|split]]]].
           ++ rewrite I1, (flat_clear L i c C), <- !app_assoc. apply Permutation_app_head, Permutation_app_head, Permutation_app_comm.
           ++ intros j Hj. unfold set_shard, lupd. destruct (Nat.eqb_spec j i) as [->|]; [apply sums_up_nil|]; auto.
           ++ rewrite I5, flat_S, flat_out by lia. unfold lupd. rewrite Nat.eqb_refl, app_nil_r. reflexivity.
           ++ destruct (thr T s); try discriminate; destruct I6; congruence.
        -- (* handler *) destruct (hset T s); inv St. exists (Ds ++ [A]), [], L, Q. rewrite collects_snoc, since_snoc, handled_snoc.
           unfold since_step, collect1, idx in *. rewrite P in I5. assert (i = c) by lia. subst i.
           cbn [fst snd set_pc apcs shards thr]. rewrite !app_nil_r. rewrite concat_app. cbn [concat app]. rewrite app_nil_r, <- app_assoc.
           split; [exact I1|]. split; [apply Forall2_app; [exact I2|repeat constructor; apply I4']|]. split; [exact I3|].
           split; [reflexivity|]. split; [exact I5|]. destruct (thr T s); try discriminate; destruct I6; congruence.
    + destruct (thr T s) eqn:TH; inv St; (apply ST; cbn; auto; try discriminate). rewrite TH. exact I6.
Qed.

(** Life cycle. *)
Notation ahist := (ahist T add dflt c hash).
Lemma started_snoc (h : alog T) x : started (h ++ [x]) = started_step (started h) x.
Proof. unfold started. now rewrite fold_left_app. Qed.
Record linv (h : alog T) (s : ast T) : Prop := {
  l_thr : started h = true <-> thr T s = TThread;
  l_un : thr T s = TUninit -> ~ In (OStart T) (map fst h);
  l_set : In (OSetHandler T) (map fst h) -> hset T s = true;
  l_pc : started h = true -> apcs T s <> ANone T;
  l_le : match apcs T s with ASweep _ i _ => i <= c | _ => True end
}.
Lemma ahist_linv h s : ahist h s -> linv h s.
Proof.
  induction 1 as [|h s x s' e H I St].
  - split; cbn; try tauto; try discriminate. split; discriminate.
  - destruct I as [I1 I2 I3 I4 I5]. split; rewrite ?started_snoc, ?map_app; cbn [map fst]; rewrite ?in_app_iff; cbn [In].
    + destruct x; cbn [astep] in St; unfold started_step; cbn [fst].
      all: try (inv St; cbn [thr]; exact I1).
      * destruct (thr T s); inv St; cbn; tauto.
      * destruct (thr T s) eqn:E; inv St; cbn [thr]; rewrite ?E in *; exact I1.
      * destruct (thr T s), (apcs T s), (running T s); inv St; cbn; intuition congruence.
      * destruct (Nat.eqb c 0); inv St; cbn [thr]; exact I1.
      * destruct (apcs T s); try discriminate; try (destruct (running T s)); try (destruct (Nat.ltb i c)); try (destruct (hset T s)); inv St; cbn [thr set_pc]; exact I1.
      * destruct (thr T s) eqn:E; inv St; cbn [thr]; rewrite ?E in *; exact I1.
    + destruct x; cbn [astep] in St.
      all: try (inv St; cbn [thr]; intros Z [Y|[Y|[]]]; [exact (I2 Z Y)|discriminate]).
      * destruct (thr T s); inv St; discriminate.
      * destruct (thr T s) eqn:E; inv St; cbn [thr]; rewrite ?E in *; discriminate.
      * destruct (thr T s), (apcs T s), (running T s); inv St; discriminate.
      * destruct (Nat.eqb c 0); inv St; cbn [thr]; intros Z [Y|[Y|[]]]; [exact (I2 Z Y)|discriminate].
      * destruct (apcs T s); try discriminate; try (destruct (running T s)); try (destruct (Nat.ltb i c)); try (destruct (hset T s)); inv St; cbn [thr set_pc];
          intros Z [Y|[Y|[]]]; try discriminate; exact (I2 Z Y).
      * destruct (thr T s) eqn:E; inv St; cbn [thr]; rewrite ?E; discriminate.
    + destruct x; cbn [astep] in St.
      all: try (inv St; cbn [hset]; intros [Y|[Y|[]]]; [exact (I3 Y)|discriminate]).
      * inv St. reflexivity.
      * destruct (thr T s); inv St; intros [Y|[Y|[]]]; try discriminate; exact (I3 Y).
      * destruct (thr T s) eqn:E; inv St; intros [Y|[Y|[]]]; try discriminate; exact (I3 Y).
      * destruct (thr T s), (apcs T s), (running T s); inv St; intros [Y|[Y|[]]]; try discriminate; exact (I3 Y).
      * destruct (Nat.eqb c 0); inv St; intros [Y|[Y|[]]]; try discriminate; exact (I3 Y).
      * destruct (apcs T s); try discriminate; try (destruct (running T s)); try (destruct (Nat.ltb i c)); try (destruct (hset T s) eqn:HS); inv St; cbn [hset set_pc];
          intros [Y|[Y|[]]]; try discriminate; try reflexivity; try assumption; (exact (I3 Y) || (specialize (I3 Y); congruence)).
      * destruct (thr T s) eqn:E; inv St; intros [Y|[Y|[]]]; try discriminate; exact (I3 Y).
    + destruct x; cbn [astep] in St; unfold started_step; cbn [fst].
      all: try (inv St; cbn [apcs]; exact I4).
      * destruct (thr T s); inv St; discriminate.
      * destruct (thr T s) eqn:E; inv St; exact I4.
      * discriminate.
      * destruct (Nat.eqb c 0); inv St; exact I4.
      * destruct (apcs T s); try discriminate; try (destruct (running T s)); try (destruct (Nat.ltb i c)); try (destruct (hset T s)); inv St; discriminate.
      * destruct (thr T s) eqn:E; inv St; exact I4.
    + destruct x; cbn [astep] in St.
      all: try (inv St; cbn [apcs]; exact I5).
      * destruct (thr T s); inv St; exact Logic.I.
      * destruct (thr T s) eqn:E; inv St; exact I5.
      * destruct (thr T s), (apcs T s), (running T s); inv St; exact Logic.I.
      * destruct (Nat.eqb c 0); inv St; exact I5.
      * destruct (apcs T s); try discriminate; try (destruct (running T s)); try (destruct (Nat.ltb_spec i c)); try (destruct (hset T s)); inv St; cbn; try exact Logic.I; lia.
      * destruct (thr T s) eqn:E; inv St; exact I5.
Qed.

(** The collector thread alone reaches its end once running_ is cleared. *)
Definition main_run (h : alog T) (n : nat) : Prop :=
  exists h2 s', ahist (h ++ h2) s' /\ Forall (fun x => fst x = OMain T) h2 /\ length h2 <= n /\ apcs T s' = AExited T /\ thr T s' = TThread /\ running T s' = false.
Lemma main_step h s s1 e n : ahist h s -> astep T add dflt c hash s (OMain T) = Some (Ok (s1, e)) ->
  (ahist (h ++ [(OMain T, e)]) s1 -> main_run (h ++ [(OMain T, e)]) n) -> main_run h (S n).
Proof.
  intros H E K. destruct K as (h2 & s' & K1 & K2 & K3 & K4); [econstructor; eassumption|].
  exists ((OMain T, e) :: h2), s'. rewrite <- app_assoc in K1. split; [exact K1|]. split; [constructor; auto|]. split; [cbn; lia|exact K4].
Qed.
Lemma run_exited h s n : ahist h s -> apcs T s = AExited T -> thr T s = TThread -> running T s = false -> main_run h n.
Proof. intros H P TH R. exists [], s. rewrite app_nil_r. repeat split; auto. cbn. lia. Qed.
Lemma run_top h s n : ahist h s -> apcs T s = ATop T -> thr T s = TThread -> running T s = false -> main_run h (S n).
Proof.
  intros H P TH R. apply (main_step h s (set_pc T s (AExited T)) (VExit T)); [exact H|cbn; rewrite P, R; reflexivity|].
  intro H1. apply (run_exited _ _ _ H1); auto.
Qed.
Lemma run_sweep k : forall h s i all n, ahist h s -> apcs T s = ASweep T i all -> c - i <= k -> thr T s = TThread -> running T s = false -> hset T s = true ->
  main_run h (S (S (k + n))).
Proof.
  induction k as [|k IH]; intros h s i all n H P K TH R HS.
  - apply (main_step h s (set_pc T s (ATop T)) (VHandled T all)); [exact H| |].
    + cbn [astep]. rewrite P. destruct (Nat.ltb_spec i c); [lia|]. rewrite HS. reflexivity.
    + intro H1. apply (run_top _ _ _ H1); auto.
  - destruct (Nat.lt_ge_cases i c) as [C|C].
    + eapply (main_step h s); [exact H| |].
      * cbn [astep]. rewrite P. destruct (Nat.ltb_spec i c); [reflexivity|lia].
      * intro H1. eapply (IH _ _ (S i) _ n H1); [reflexivity|..]; cbn; auto. lia.
    + apply (main_step h s (set_pc T s (ATop T)) (VHandled T all)); [exact H| |].
      * cbn [astep]. rewrite P. destruct (Nat.ltb_spec i c); [lia|]. rewrite HS. reflexivity.
      * intro H1. apply (run_top _ _ _ H1); auto.
Qed.
Lemma main_ends h s : ahist h s -> started h = true -> running T s = false -> hset T s = true -> main_run h (c + 3).
Proof.
  intros H S R HS. destruct (ahist_linv h s H) as [I1 _ _ I4 _]. pose proof (proj1 I1 S) as TH. specialize (I4 S).
  destruct (apcs T s) as [| | |i all|] eqn:P.
  - congruence.
  - replace (c + 3) with (Datatypes.S (c + 2)) by lia. apply (run_top h s); auto.
  - replace (c + 3) with (Datatypes.S (Datatypes.S (Datatypes.S (c + 0)))) by lia. apply (main_step h s (set_pc T s (ASweep T 0 [])) (VWake T)); [exact H|cbn; rewrite P; reflexivity|].
    intro H1. apply (run_sweep c _ _ 0 [] 0 H1); auto. lia.
  - replace (c + 3) with (Datatypes.S (Datatypes.S (c + 1))) by lia. apply (run_sweep c h s i all 1); auto. lia.
  - apply (run_exited h s); auto.
Qed.
End AccProofs.
