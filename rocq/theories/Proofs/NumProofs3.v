From Verif.Model Require Import Common Numerics.
From Verif.Spec Require Import NumSpec.
From Verif.Proofs Require Import Tac NumProofs NumProofs2.
Local Open Scope Z_scope.

Lemma fits_dec t z : {fits t z} + {~ fits t z}.
Proof. destruct ((lo t <=? z) && (z <=? hi t)) eqn:E; [left|right]; [now apply in_rangeb|]. intro H. apply in_rangeb in H. congruence. Qed.
Lemma builtin_spec v z : builtin v z = if fits_dec v z then Some z else None.
Proof. unfold builtin. destruct (fits_dec v z) as [F|F]; [apply in_rangeb in F; now rewrite F|]. destruct (_ && _) eqn:E; auto. apply in_rangeb in E. tauto. Qed.
Lemma inrange_dec {A} v z (a b : A) : (if (lo v <=? z) && (z <=? hi v) then a else b) = if fits_dec v z then a else b.
Proof. destruct (fits_dec v z) as [F|F]; [apply in_rangeb in F; now rewrite F|]. destruct (_ && _) eqn:E; auto. apply in_rangeb in E. tauto. Qed.

(** ** Division *)
Lemma quot_between x y : y <> 0 -> (0 <= x -> 0 <= y -> 0 <= Z.quot x y <= x) /\ (x <= 0 -> 0 <= y -> x <= Z.quot x y <= 0) /\
  (0 <= x -> y <= 0 -> - x <= Z.quot x y <= 0) /\ (x <= 0 -> y <= 0 -> 0 <= Z.quot x y <= - x).
Proof.
  intro N.
  assert (P : forall a b, 0 <= a -> 0 < b -> 0 <= Z.quot a b <= a).
  { intros a b A B. rewrite Z.quot_div_nonneg by lia. split; [apply Z.div_pos; lia|]. apply Z.div_le_upper_bound; [lia|]. nia. }
  split; [intros; apply P; lia|]. split; [|split]; intros.
  - assert (E := Z.quot_opp_l x y N). specialize (P (- x) y ltac:(lia) ltac:(lia)). lia.
  - assert (E := Z.quot_opp_r x y N). specialize (P x (- y) ltac:(lia) ltac:(lia)). lia.
  - assert (E := Z.quot_opp_opp x y N). specialize (P (- x) (- y) ltac:(lia) ltac:(lia)). lia.
Qed.
Lemma quot_m1 x : Z.quot x (-1) = - x.
Proof. change (-1) with (- (1)). rewrite (Z.quot_opp_r x 1) by lia. now rewrite Z.quot_1_r. Qed.
Lemma quot_small_neg x y : x < 0 -> y < -1 -> Z.quot x y < - x.
Proof.
  intros X Y. rewrite <- (Z.opp_involutive x) at 1. rewrite <- (Z.opp_involutive y). rewrite Z.quot_opp_opp by lia. rewrite Z.quot_div_nonneg by lia.
  apply Z.div_lt_upper_bound; nia.
Qed.
(** The quotient of two values of a type fits, except for lo / -1. *)
Lemma quot_fits p x y : fits p x -> fits p y -> y <> 0 -> ~ (x = lo p /\ y = -1 /\ sgn p = true) -> fits p (Z.quot x y).
Proof.
  intros X Y N E. assert (H := halves p). unfold fits in *. destruct (quot_between x y N) as (Q1 & Q2 & Q3 & Q4).
  destruct (range p) as [(S & L & U)|(S & L & U)]; rewrite L, U in *.
  - destruct (Z.leb_spec 0 x), (Z.leb_spec 0 y); try lia.
    destruct (Z.eq_dec y (-1)) as [->|M].
    + rewrite quot_m1 in *. assert (x <> - half p) by tauto. lia.
    + assert (Q := quot_small_neg x y ltac:(lia) ltac:(lia)). lia.
  - lia.
Qed.
Lemma rem_between x y : y <> 0 -> (0 <= x -> 0 <= Z.rem x y <= x) /\ (x <= 0 -> x <= Z.rem x y <= 0).
Proof.
  intro N. split; intro X.
  - assert (B := Z.rem_bound_pos x (Z.abs y) X ltac:(lia)).
    assert (E : Z.rem x (Z.abs y) = Z.rem x y). { destruct (Z.abs_spec y) as [[_ ->]|[_ ->]]; auto. now apply Z.rem_opp_r. }
    assert (L := Z.rem_le x (Z.abs y) X ltac:(lia)). lia.
  - assert (O : Z.rem x y = - Z.rem (- x) y). { rewrite Z.rem_opp_l by auto. lia. } rewrite O.
    assert (B := Z.rem_bound_pos (- x) (Z.abs y) ltac:(lia) ltac:(lia)).
    assert (E : Z.rem (- x) (Z.abs y) = Z.rem (- x) y). { destruct (Z.abs_spec y) as [[_ ->]|[_ ->]]; auto. now apply Z.rem_opp_r. }
    assert (L := Z.rem_le (- x) (Z.abs y) ltac:(lia) ltac:(lia)). lia.
Qed.
Lemma promote_wider p : TypeInRange (promote p) p = true.  Proof. allty. Qed.
Lemma cast_nonzero p u y : fits u y -> bits u <= bits p -> y <> 0 -> cast p y <> 0.
Proof.
  intros F B N E. destruct (cast_shift p y) as (k & K). rewrite E in K. destruct (halves p) as [P HP]. destruct (halves u) as [U HU].
  assert (2 ^ bits u <= 2 ^ bits p) by (apply Z.pow_le_mono_r; lia). rewrite P in *. rewrite U in *. unfold fits in F.
  assert (k <> 0) by lia. destruct (range u) as [(_ & L & H')|(_ & L & H')]; rewrite L, H' in F; nia.
Qed.
Lemma BigEnough_wide t u : bits t <= bits (fst (BigEnough t u)) /\ bits u <= bits (fst (BigEnough t u)).
Proof. tys; vm_compute; split; congruence. Qed.
(** The special case of the code is the overflow of the promoted type. *)
Lemma special_case t u x y : fits t x -> fits u y -> let p := fst (BigEnough t u) in
  (sgn t && sgn u && TypeInRange t p && (cast p x =? lo p) && (y =? cast u (-1)) = true) <-> (sgn t = true /\ sgn u = true /\ x = lo p /\ y = -1).
Proof.
  intros X Y p.
  assert (M : sgn u = true -> cast u (-1) = -1).
  { intro S. apply cast_id. destruct (range u) as [(_ & L & U)|(A & _)]; [|congruence]. assert (H := halves u). unfold fits. lia. }
  assert (PT : sgn t = true -> sgn u = true -> TypeInRange p t = true) by (subst p; tys; vm_compute; auto).
  assert (SP : sgn t = true -> sgn u = true -> sgn p = true) by (subst p; tys; vm_compute; auto).
  split.
  - intro H. repeat (apply andb_prop in H; destruct H as [H ?]). apply andb_prop in H || idtac.
    assert (S1 : sgn t = true) by tauto. assert (S2 : sgn u = true) by tauto. b2p. rewrite M in * by auto.
    rewrite (cast_id p x) in * by (apply in_type with t; auto). tauto.
  - intros (S1 & S2 & EX & EY). rewrite S1, S2, M by auto. rewrite (cast_id p x) by (apply in_type with t; auto). rewrite EX, EY, !Z.eqb_refl, !andb_true_r.
    cbn [andb]. specialize (PT S1 S2). specialize (SP S1 S2). rewrite TypeInRange_ok in *. unfold fits in X. rewrite EX in X.
    destruct (range t) as [(_ & L & U)|(A & _)]; [|congruence]. destruct (range p) as [(_ & L' & U')|(A & _)]; [|congruence]. lia.
Qed.
Lemma negb_in p t x : fits t x -> negb (IsValueInRange p t x) = if fits_dec p x then false else true.
Proof. intro F. rewrite IsValueInRange_ok by auto. rewrite <- inrange_dec. destruct (_ && _); reflexivity. Qed.
Lemma div__ok p x y : y <> 0 -> fits p (Z.quot x y) -> div_ p x y = Ok (Z.quot x y).
Proof.
  intros N F. unfold div_. replace (y =? 0) with false by (symmetry; now apply Z.eqb_neq). apply (in_type (promote p)) in F; [|apply promote_wider]. apply in_rangeb in F. rewrite F. reflexivity.
Qed.
Lemma mod__ok p x y : y <> 0 -> fits p (Z.quot x y) -> mod_ p x y = Ok (Z.rem x y).
Proof.
  intros N F. unfold mod_. replace (y =? 0) with false by (symmetry; now apply Z.eqb_neq). apply (in_type (promote p)) in F; [|apply promote_wider]. apply in_rangeb in F. rewrite F. reflexivity.
Qed.
Lemma p_signed t u : sgn t = true -> sgn u = true -> sgn (fst (BigEnough t u)) = true.  Proof. tys; vm_compute; auto. Qed.
Lemma p_lo_fits t u x : fits t x -> x = lo (fst (BigEnough t u)) -> sgn (fst (BigEnough t u)) = true -> sgn t = true.
Proof.
  intros F E S. destruct (range (fst (BigEnough t u))) as [(_ & L & _)|(A & _)]; [|congruence]. unfold fits in F. assert (H := halves (fst (BigEnough t u))).
  rewrite sgn_lo. apply Z.ltb_lt. lia.
Qed.

(** What CheckedDivOp computes. *)
Definition divides_in (t u : ity) (x y : Z) : Prop :=
  let p := fst (BigEnough t u) in x = 0 \/ (fits p x /\ fits p y).
Lemma CheckedDivOp_ok t u v x y : fits t x -> fits u y ->
  let p := fst (BigEnough t u) in
  CheckedDivOp t u v x y =
    Ok (if Z.eq_dec y 0 then None
        else if fits_dec p x then if fits_dec p y then if fits_dec p (Z.quot x y) then if fits_dec v (Z.quot x y) then Some (Z.quot x y) else None else None
             else if Z.eq_dec x 0 then Some 0 else None
        else None).
Proof.
  intros X Y p. unfold CheckedDivOp. cbn zeta. fold p.
  destruct (Z.eq_dec y 0) as [->|N]; [reflexivity|]. replace (y =? 0) with false by (symmetry; now apply Z.eqb_neq).
  assert (SC := special_case t u x y X Y). cbn zeta in SC. fold p in SC.
  rewrite !negb_in by auto.
  destruct (sgn t && sgn u && TypeInRange t p && (cast p x =? lo p) && (y =? cast u (-1))).
  - destruct SC as [SC _]. destruct (SC eq_refl) as (S1 & S2 & EX & EY). assert (SP := p_signed t u S1 S2). fold p in SP.
    assert (FX : fits p x) by (rewrite EX; apply lo_fits). destruct (fits_dec p x) as [_|]; [|tauto].
    destruct (range p) as [(_ & L & U)|(A & _)]; [|congruence]. assert (H := halves p).
    destruct (fits_dec p y) as [FY|FY]; [|exfalso; apply FY; unfold fits; lia].
    destruct (fits_dec p (Z.quot x y)) as [F|F]; auto. exfalso. rewrite EY, quot_m1 in F. unfold fits in F. lia.
  - assert (NS : ~ (x = lo p /\ y = -1 /\ sgn p = true)).
    { intros (EX & EY & SP). destruct SC as [_ SC]. discriminate SC. split; [now apply (p_lo_fits t u x)|]. split; auto.
      rewrite sgn_lo. unfold fits in Y. apply Z.ltb_lt. lia. }
    destruct (BigEnough_wide t u) as [_ WU]. fold p in WU.
    destruct (fits_dec p x) as [FX|FX], (fits_dec p y) as [FY|FY]; cbn [orb andb].
    + rewrite (cast_id p x), (cast_id p y) by auto. assert (Q := quot_fits p x y FX FY N NS). rewrite div__ok by auto. cbn [obind].
      rewrite (cast_id p) by auto. destruct (fits_dec p (Z.quot x y)) as [_|]; [|tauto].
      rewrite negb_in by auto. destruct (fits_dec v (Z.quot x y)) as [FV|FV]; [|reflexivity]. now rewrite cast_id.
    + destruct (Z.eq_dec x 0) as [->|NX].
      * cbn [Z.eqb negb]. rewrite (cast_id p 0) by apply zero_fits. assert (CY := cast_nonzero p u y Y WU N).
        rewrite div__ok; [|auto|rewrite Z.quot_0_l by auto; apply zero_fits]. cbn [obind]. rewrite Z.quot_0_l by auto. rewrite (cast_id p 0) by apply zero_fits.
        rewrite negb_in by apply zero_fits. destruct (fits_dec v 0) as [_|F0]; [|exfalso; apply F0, zero_fits]. rewrite (cast_id v 0) by apply zero_fits. reflexivity.
      * replace (x =? 0) with false by (symmetry; now apply Z.eqb_neq). reflexivity.
    + assert (x <> 0) by (intros ->; apply FX, zero_fits). replace (x =? 0) with false by (symmetry; now apply Z.eqb_neq). reflexivity.
    + assert (x <> 0) by (intros ->; apply FX, zero_fits). replace (x =? 0) with false by (symmetry; now apply Z.eqb_neq). reflexivity.
Qed.
