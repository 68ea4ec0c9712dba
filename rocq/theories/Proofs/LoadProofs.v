(** Proofs about tables loaded from files. *)
From Verif.Model Require Import Common Decimal StrUtil SourceLoad.
From Verif.Spec Require Import StrSpec LoadSpec.
From Verif.Proofs Require Import Tac DecimalProofs StrProofs.
Local Open Scope Z_scope.

Lemma beq_refl a : beq a a = true. Proof. apply beq_eq. reflexivity. Qed.
Lemma beq_neq a b : a <> b -> beq a b = false.
Proof. intros H. destruct (beq a b) eqn:E; [ apply beq_eq in E; contradiction | reflexivity ]. Qed.
Lemma member_assign r k v k' : member (assign r k v) k' = if beq k k' then Some v else member r k'.
Proof.
  induction r as [|[a w] r IH]; cbn; [ reflexivity | ]. destruct (beq a k) eqn:E.
  - apply beq_eq in E. subst. cbn. destruct (beq k k'); reflexivity.
  - cbn. rewrite IH. destruct (beq a k') eqn:E2; [ | reflexivity ]. apply beq_eq in E2. subst. rewrite beq_neq; [ reflexivity | ]. intros ->. rewrite beq_refl in E. discriminate.
Qed.
Lemma find_column_name cs h c : find_column cs h = Some c -> c_name c = h.
Proof.
  induction cs as [|a cs IH]; cbn; [ discriminate | ]. destruct (find_column cs h) as [c'|]; [ intros H; inv H; auto | ].
  destruct (beq (c_name a) h) eqn:E; [ | discriminate ]. intros H. inv H. apply beq_eq. exact E.
Qed.
Lemma digit_bounds c : isdigit c = true -> 48 <= c <= 57.
Proof. unfold isdigit. intros H. apply andb_true_iff in H. lia. Qed.
Lemma digits_all l : Forall (fun c => isdigit c = true) l -> digits l = (l, []).
Proof. induction 1 as [|c l Hc Hl IH]; cbn; [ reflexivity | ]. rewrite Hc, IH. reflexivity. Qed.
Lemma atoi_sdec n : - 2 ^ 31 <= n < 2 ^ 31 -> atoi (sdec n) = Ok n.
Proof.
  intros H. assert (Hg : forall m, 0 <= m <= 2 ^ 31 -> exists c q, udec m = c :: q /\ isdigit c = true /\ digits (udec m) = (udec m, []) /\ strtol_digits 0 (udec m) = m).
  { intros m Hm. assert (Hd : Forall (fun c => isdigit c = true) (udec m)) by (apply udec_digits; lia).
    destruct (udec m) as [|c q] eqn:E; [ destruct (udec_nonempty m E) | ]. exists c, q. split; [ reflexivity | ]. split; [ now inversion Hd | ].
    split; [ apply digits_all; exact Hd | ]. rewrite <- E. apply udec_val. split; [lia|]. eapply Z.le_lt_trans; [exact (proj2 Hm)|]. vm_compute. reflexivity. }
  unfold atoi, sdec. destruct (Z.ltb_spec n 0).
  - destruct (Hg (- n)) as (c & q & E & Hc & Hd & Hv); [ lia | ]. cbn [skip_ws isspace]. change (isspace 45) with false. cbv iota. unfold sign_of. change (45 =? 45) with true. cbv iota beta.
    rewrite Hd. cbn [fst]. rewrite Hv. rewrite Z.opp_involutive. replace (- 2 ^ 31 <=? n) with true by (symmetry; apply Z.leb_le; lia).
    replace (n <? 2 ^ 31) with true by (symmetry; apply Z.ltb_lt; lia). reflexivity.
  - destruct (Hg n) as (c & q & E & Hc & Hd & Hv); [ lia | ]. rewrite E in *. pose proof (digit_bounds c Hc). cbn [skip_ws].
    replace (isspace c) with false; [ | symmetry; unfold isspace; apply orb_false_iff; split; [ apply Z.eqb_neq; lia | apply andb_false_iff; right; apply Z.leb_gt; lia ] ].
    cbv iota. unfold sign_of. replace (c =? 45) with false by (symmetry; apply Z.eqb_neq; lia). replace (c =? 43) with false by (symmetry; apply Z.eqb_neq; lia). cbv iota beta.
    rewrite Hd. cbn [fst]. rewrite Hv. replace (- 2 ^ 31 <=? n) with true by (symmetry; apply Z.leb_le; lia).
    replace (n <? 2 ^ 31) with true by (symmetry; apply Z.ltb_lt; lia). reflexivity.
Qed.
Lemma handle_ok J c t v : reads J (c_kind c) t v -> HanleColumn J c t = Ok v.
Proof.
  unfold reads, HanleColumn. destruct (c_kind c).
  - intros (n & Hn & -> & ->). rewrite atoi_sdec by exact Hn. reflexivity.
  - intros ->. reflexivity.
  - intros ->. reflexivity.
  - intros [[-> ->]|[-> ->]]; reflexivity.
  - intros [-> ->]. reflexivity.
Qed.
Lemma columns_ok J cs : forall hs fs out, length hs = length fs -> NoDup hs ->
  (forall i h c t, nth_error hs i = Some h -> find_column cs h = Some c -> nth_error fs i = Some t -> exists v, reads J (c_kind c) t v) ->
  exists r, columns J cs hs fs out = Ok r /\
    (forall i h c t, nth_error hs i = Some h -> find_column cs h = Some c -> nth_error fs i = Some t -> exists v, member r h = Some v /\ reads J (c_kind c) t v) /\
    (forall h, ~ In h hs \/ find_column cs h = None -> member r h = member out h).
Proof.
  induction hs as [|h hs IH]; intros [|f fs] out HL HN HR; try discriminate HL.
  - exists out. split; [ reflexivity | ]. split; [ intros [|i] h c t H; discriminate H | reflexivity ].
  - inversion HN as [|? ? Hni HN']; subst. cbn [columns].
    assert (HR' : forall i h c t, nth_error hs i = Some h -> find_column cs h = Some c -> nth_error fs i = Some t -> exists v, reads J (c_kind c) t v) by (intros i; exact (HR (S i))).
    destruct (find_column cs h) as [c|] eqn:Ec.
    + destruct (HR 0%nat h c f eq_refl Ec eq_refl) as [v Hv]. rewrite (handle_ok _ _ _ _ Hv). cbn [obind].
      pose proof (find_column_name _ _ _ Ec) as Hn. rewrite Hn.
      destruct (IH fs (assign out h v)) as (r & E & H1 & H2); auto. exists r. split; [ exact E | ]. split.
      * intros [|i] h' c' t Hh Hc Ht; [ | exact (H1 i h' c' t Hh Hc Ht) ]. cbn in Hh, Ht. inv Hh. inv Ht. exists v. rewrite Ec in Hc. inv Hc.
        split; [ rewrite H2 by (left; exact Hni); rewrite member_assign, beq_refl; reflexivity | exact Hv ].
      * intros h' Hh. assert (Hne : h <> h') by (intros ->; destruct Hh as [Hh|Hh]; [ apply Hh; left; reflexivity | congruence ]).
        rewrite H2 by (destruct Hh as [Hh|Hh]; [ left; intros X; apply Hh; right; exact X | right; exact Hh ]). rewrite member_assign, beq_neq by exact Hne. reflexivity.
    + destruct (IH fs out) as (r & E & H1 & H2); auto. exists r. split; [ exact E | ]. split.
      * intros [|i] h' c' t Hh Hc Ht; [ cbn in Hh; inv Hh; congruence | exact (H1 i h' c' t Hh Hc Ht) ].
      * intros h' Hh. apply H2. destruct Hh as [Hh|Hh]; [ left; intros X; apply Hh; right; exact X | right; exact Hh ].
Qed.
Lemma split_fields d text fs : fields_of d text fs -> Split text [d] false = Some fs.
Proof.
  intros H. destruct (split_loop_false d [] text (S (length text)) 0 []) as (ts & A & N & J & F & _); [lia|lia|].
  assert (X : fields_of d text ts) by (split; [assumption|split; [now apply F|exact J]]).
  rewrite (fields_unique d fs ts text H X). exact A.
Qed.
Lemma parse_row J cf d row : delimiter cf = [d] -> NoDup (header cf) -> header cf <> [] -> row_ok J cf d row ->
  exists r, ParseContent J cf (join [d] row) = Ok (Some r) /\ describes J cf row r.
Proof.
  intros Hd Hn Hne (Hl & Hf & Hr). unfold ParseContent. rewrite Hd, (split_fields d _ row), Hl, Nat.eqb_refl.
  - destruct (columns_ok J (schemes cf) (header cf) row [] (eq_sym Hl) Hn Hr) as (r & E & H1 & H2). rewrite E. exists r. split; [ reflexivity | ]. split; [ exact H1 | exact H2 ].
  - split; [ intros ->; destruct (header cf); [ congruence | discriminate Hl ] | ]. split; [ exact Hf | reflexivity ].
Qed.

(** * Lines *)
Lemma until_first t d r : ~ In d t -> until_delim (t ++ d :: r) d = (t, r).
Proof.
  induction t as [|c t IH]; cbn; intros H; [ rewrite Z.eqb_refl; reflexivity | ].
  destruct (Z.eqb_spec c d); [ destruct H; auto | ]. rewrite IH; [ reflexivity | tauto ].
Qed.
Lemma existsb_in d s : existsb (Z.eqb d) s = true <-> In d s.
Proof. rewrite existsb_exists. split; [ intros (x & Hx & E); apply Z.eqb_eq in E; subst; exact Hx | intros H; exists d; split; [ exact H | apply Z.eqb_refl ] ]. Qed.
Lemma getlines_fields : forall l s fuel, fields_of 10 s l -> (length l <= fuel)%nat -> getlines fuel s = Some l.
Proof.
  induction l as [|t l IH]; intros s fuel (Hne & Hf & Hj) Hl; [ congruence | ]. inversion Hf as [|? ? Ht Hf']; subst.
  destruct fuel as [|fuel]; [ cbn in Hl; lia | ]. cbn [getlines]. destruct l as [|u l].
  - cbn. destruct (existsb (Z.eqb 10) t) eqn:E; [ apply existsb_in in E; contradiction | reflexivity ].
  - rewrite join_cons by discriminate. cbn [app]. assert (E : existsb (Z.eqb 10) (t ++ 10 :: join [10] (u :: l)) = true) by (apply existsb_in, in_or_app; right; left; reflexivity).
    rewrite E, until_first by exact Ht. rewrite (IH (join [10] (u :: l)) fuel); [ reflexivity | | cbn in Hl |- *; lia ].
    split; [ discriminate | ]. split; [ exact Hf' | reflexivity ].
Qed.
Lemma file_fields ls : Forall (fun l => ~ In 10 l) ls -> fields_of 10 (file_of ls) (ls ++ [[]]).
Proof.
  intros H. split; [ destruct ls; discriminate | ]. split; [ apply Forall_app; split; [ exact H | repeat constructor; intros [] ] | ].
  clear H. unfold file_of. induction ls as [|l ls IH]; [ reflexivity | ]. cbn [app map concat]. rewrite join_cons by (destruct ls; discriminate). rewrite IH, <- app_assoc. reflexivity.
Qed.
Lemma fields_exist s : exists l, fields_of 10 s l.
Proof.
  destruct (split_loop_false 10 [] s (S (length s)) 0 []) as (ts & A & N & J & F & _); [lia|lia|]. exists ts. split; [assumption|split; [now apply F|exact J]].
Qed.
Lemma getlines_more : forall s fuel fuel' l, getlines fuel s = Some l -> (fuel <= fuel')%nat -> getlines fuel' s = Some l.
Proof.
  intros s fuel. revert s. induction fuel as [|fuel IH]; intros s fuel' l E H; [ discriminate E | ]. destruct fuel' as [|fuel']; [ lia | ].
  cbn [getlines] in *. destruct (existsb (Z.eqb 10) s); [ | exact E ]. destruct (until_delim s 10) as [t r].
  destruct (getlines fuel r) as [l'|] eqn:E'; [ | discriminate E ]. rewrite (IH r fuel' l' E') by lia. exact E.
Qed.
Definition readable (f : file) : Prop := f <> Unreadable.
Lemma load_ok m fs : Forall readable fs -> exists fuel0 l c, forall fuel, (fuel0 <= fuel)%nat -> Load fuel m fs = Some (l, c).
Proof.
  induction fs as [|f fs IH]; intros H; [ exists 0%nat, [], 0; reflexivity | ]. inversion H as [|? ? Hf H']; subst. destruct (IH H') as (f0 & l & c & E).
  destruct f as [|s|]; [ exists f0, l, c; exact E | | now destruct Hf ].
  destruct m.
  - destruct (fields_exist s) as [ls Hs]. exists (Nat.max (length ls) f0), (ls ++ l), c. intros fuel Hle. cbn [Load read_file].
    rewrite (getlines_fields ls s fuel Hs) by lia. rewrite E by lia. reflexivity.
  - exists f0, ([s] ++ l), c. intros fuel Hle. cbn [Load read_file]. rewrite E by exact Hle. reflexivity.
  - exists 0%nat, [], (-1). reflexivity.
Qed.
Lemma spin_none : forall fuel, spin fuel = None.
Proof. induction fuel; auto. Qed.

(** * Tables *)
Lemma get_cons t k r k' : GetByName ((k, r) :: t) k' = if beq k k' then Some r else GetByName t k'. Proof. reflexivity. Qed.
Definition stored (J : list Z -> bool) (cf : config) (p : nat) (rows : list (list (list Z))) (t : table) : Prop := forall k,
  match last_with p k rows with
  | Some row => exists r, GetByName t k = Some r /\ describes J cf row r
  | None => GetByName t k = None
  end.
Lemma read_rows J cf d p c : delimiter cf = [d] -> NoDup (header cf) -> nth_error (header cf) p = Some (primary cf) -> find_column (schemes cf) (primary cf) = Some c -> c_kind c = KString ->
  forall rows seen t, Forall (row_ok J cf d) rows -> stored J cf p seen t ->
  exists t', OnReadAll J cf t (map (join [d]) rows) = Ok t' /\ stored J cf p (seen ++ rows) t'.
Proof.
  intros Hd Hn Hp Hc Hk. induction rows as [|row rows IH]; intros seen t HF HS; [ exists t; split; [ reflexivity | rewrite app_nil_r; exact HS ] | ].
  inversion HF as [|? ? Hr HF']; subst. destruct (parse_row J cf d row Hd Hn) as (r & E & D); [ intros X; rewrite X in Hp; destruct p; discriminate Hp | exact Hr | ].
  cbn [map OnReadAll]. unfold OnReadData. rewrite E. cbn [obind].
  destruct Hr as (Hl & _ & _). assert (Ht : exists txt, nth_error row p = Some txt).
  { destruct (nth_error row p) as [x|] eqn:X; [ eauto | ]. apply nth_error_None in X. assert (p < length (header cf))%nat by (apply nth_error_Some; congruence). lia. }
  destruct Ht as [txt Ht]. destruct (proj1 D p _ _ _ Hp Hc Ht) as (v & Hv & Hr). rewrite Hk in Hr. cbn in Hr. subst v.
  unfold OnContentParsed. rewrite Hv. destruct (IH (seen ++ [row]) ((txt, r) :: t)) as (t' & E' & S'); [ exact HF' | | exists t'; split; [ exact E' | rewrite <- app_assoc in S'; exact S' ] ].
  intros k. unfold last_with. rewrite rev_unit. cbn [find]. rewrite (nth_error_nth row p [] Ht), get_cons.
  destruct (beq txt k); [ exists r; auto | exact (HS k) ].
Qed.
