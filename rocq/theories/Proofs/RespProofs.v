(** The decoder as a byte at a time machine; chunk independence. *)
From Verif.Model Require Import Common Decimal Resp.
From Verif.Proofs Require Import Tac.
Open Scope Z_scope.

Inductive lex :=
| LStart | LStr (b : list Z) | LStrLf (b : list Z) | LErrS (b : list Z) | LErrLf (b : list Z)
| LInt (b : list Z) | LIntLf (b : list Z) | LBs (b : list Z) | LBsLf (b : list Z)
| LBulk (b : list Z) (n : Z) | LBcr (b : list Z) | LBlf (b : list Z) | LAs (b : list Z) | LAsLf (b : list Z).

Definition absl (d : dec) : lex :=
  match stat d with
  | st_start => LStart | st_string => LStr (buf d) | st_string_lf => LStrLf (buf d)
  | st_error_string => LErrS (buf d) | st_error_lf => LErrLf (buf d)
  | st_integer => LInt (buf d) | st_integer_lf => LIntLf (buf d)
  | st_bulk_size => LBs (buf d) | st_bulk_size_lf => LBsLf (buf d)
  | st_bulk => LBulk (buf d) (bulk d) | st_bulk_cr => LBcr (buf d) | st_bulk_lf => LBlf (buf d)
  | st_array_size => LAs (buf d) | st_array_size_lf => LAsLf (buf d)
  end.

Inductive lres := Lerr | Lub | Lval (v : rval) | Larr (n : Z) | Lcont (l : lex).

Definition num_step (mk mklf : list Z -> lex) (b : list Z) (c : Z) : lres :=
  if c =? 13 then match b with [] => Lerr | _ => Lcont (mklf b) end
  else if isdigit c || (c =? 45) then Lcont (mk (b ++ [c])) else Lerr.

Definition lstep (l : lex) (c : Z) : lres :=
  match l with
  | LStart => if c =? 43 then Lcont (LStr []) else if c =? 45 then Lcont (LErrS [])
              else if c =? 58 then Lcont (LInt []) else if c =? 36 then Lcont (LBs [])
              else if c =? 42 then Lcont (LAs []) else Lerr
  | LStr b => if c =? 13 then Lcont (LStrLf b) else if printable c then Lcont (LStr (b ++ [c])) else Lerr
  | LErrS b => if c =? 13 then Lcont (LErrLf b) else if printable c then Lcont (LErrS (b ++ [c])) else Lerr
  | LStrLf b => if c =? 10 then Lval (RString b) else Lerr
  | LErrLf b => if c =? 10 then Lval (RError b) else Lerr
  | LInt b => num_step LInt LIntLf b c
  | LBs b => num_step LBs LBsLf b c
  | LAs b => num_step LAs LAsLf b c
  | LIntLf b => if c =? 10 then match parse_num b with Ok n => Lval (RInt n) | _ => Lub end else Lerr
  | LBsLf b => if c =? 10 then
                 match parse_num b with
                 | Ok n => if n =? -1 then Lval RNull else if n =? 0 then Lcont (LBcr [])
                           else if n <? 0 then Lerr else Lcont (LBulk [] n)
                 | _ => Lub end
               else Lerr
  | LBulk b n => if 0 <? n - 1 then Lcont (LBulk (b ++ [c]) (n - 1)) else Lcont (LBcr (b ++ [c]))
  | LBcr b => if c =? 13 then Lcont (LBlf b) else Lerr
  | LBlf b => if c =? 10 then Lval (RBulk b) else Lerr
  | LAsLf b => if c =? 10 then
                 match parse_num b with
                 | Ok n => if (n =? -1) || (n =? 0) then Lval (RArray []) else if n <? 0 then Lerr else Larr n
                 | _ => Lub end
               else Lerr
  end.

Definition frs := list (Z * list rval).
Fixpoint complete (v : rval) (fs : frs) : rval + frs :=
  match fs with
  | [] => inl v
  | (n, its) :: fs => if n =? 1 then complete (RArray (its ++ [v])) fs else inr ((n - 1, its ++ [v]) :: fs)
  end.

Inductive mres := MDone (k : nat) (v : rval) | MInc (l : lex) (fs : frs) | MErr (k : nat) | MUB.
Definition mshift (k : nat) (r : mres) : mres :=
  match r with MDone j v => MDone (k + j) v | MErr j => MErr (k + j) | r => r end.

Fixpoint run (l : lex) (fs : frs) (p : list Z) : mres :=
  match p with
  | [] => MInc l fs
  | c :: p =>
    match lstep l c with
    | Lerr => MErr 1
    | Lub => MUB
    | Lcont l => mshift 1 (run l fs p)
    | Larr n => mshift 1 (run LStart ((n, []) :: fs) p)
    | Lval v => match complete v fs with inl v => MDone 1 v | inr fs => mshift 1 (run LStart fs p) end
    end
  end.

Definition wfl (l : lex) : Prop := match l with LBulk _ n => 0 < n | _ => True end.
Definition wff (fs : frs) : Prop := Forall (fun x => 0 < fst x) fs.

Lemma mshift_0 r : mshift 0 r = r.
Proof. destruct r; reflexivity. Qed.
Lemma mshift_add a b r : mshift a (mshift b r) = mshift (a + b) r.
Proof. destruct r; simpl; rewrite ?Nat.add_assoc; reflexivity. Qed.

Ltac deq := repeat match goal with |- context [if ?b then _ else _] => match type of b with bool => destruct b eqn:? end end.

Lemma lstep_wf l c : wfl l -> match lstep l c with Lcont l => wfl l | Larr n => 0 < n | _ => True end.
Proof.
  intro H. destruct l; cbn [lstep]; unfold num_step;
    repeat match goal with
    | |- match (if ?b then _ else _) with _ => _ end => destruct b eqn:?
    | |- match (match ?b with _ => _ end) with _ => _ end => destruct b eqn:?
    end; cbn [wfl] in *; b2p; auto; try lia.
Qed.

Lemma complete_wf v fs : wff fs -> match complete v fs with inr fs => wff fs | _ => True end.
Proof.
  revert v; induction fs as [|[n its] fs IH]; intros v H; simpl; auto.
  inv H. simpl in *. destruct (n =? 1) eqn:E; b2p. now apply IH. constructor; simpl; auto. lia.
Qed.

Lemma run_wf p : forall l fs, wfl l -> wff fs -> match run l fs p with MInc l fs => wfl l /\ wff fs | _ => True end.
Proof.
  induction p as [|c p IH]; intros l fs Hl Hf; simpl; auto.
  pose proof (lstep_wf l c Hl) as W. destruct (lstep l c) as [| |v|n|l']; auto.
  - pose proof (complete_wf v fs Hf) as W2. destruct (complete v fs); auto.
    specialize (IH LStart f I W2). destruct (run LStart f p); simpl; auto.
  - assert (W2 : wff ((n, []) :: fs)) by (constructor; auto). specialize (IH LStart _ I W2).
    destruct (run LStart _ p); simpl; auto.
  - specialize (IH l' fs W Hf). destruct (run l' fs p); simpl; auto.
Qed.

Lemma run_done_pos p : forall l fs k v, run l fs p = MDone k v -> (1 <= k <= length p)%nat.
Proof.
  induction p as [|c p IH]; intros l fs k v H; simpl in H; [discriminate|].
  destruct (lstep l c); try discriminate.
  - destruct (complete v0 fs); [inv H; simpl; lia|].
    destruct (run LStart f p) eqn:E; try discriminate; simpl in H; inv H. apply IH in E. simpl. lia.
  - destruct (run LStart _ p) eqn:E; try discriminate; simpl in H; inv H. apply IH in E. simpl. lia.
  - destruct (run l0 fs p) eqn:E; try discriminate; simpl in H; inv H. apply IH in E. simpl. lia.
Qed.

Lemma complete_app v fs n its : 
  complete v (fs ++ [(n, its)]) =
  match complete v fs with
  | inl w => if n =? 1 then inl (RArray (its ++ [w])) else inr [(n - 1, its ++ [w])]
  | inr fs' => inr (fs' ++ [(n, its)])
  end.
Proof.
  revert v; induction fs as [|[m jts] fs IH]; intro v; simpl.
  - destruct (n =? 1); reflexivity.
  - destruct (m =? 1); auto.
Qed.

(** Parsing inside one more outer array. *)
Lemma run_frame p : forall l fs n its, 
  run l (fs ++ [(n, its)]) p =
  match run l fs p with
  | MDone k v => if n =? 1 then MDone k (RArray (its ++ [v]))
                 else mshift k (run LStart [(n - 1, its ++ [v])] (skipn k p))
  | MInc l' fs' => MInc l' (fs' ++ [(n, its)])
  | r => r
  end.
Proof.
  induction p as [|c p IH]; intros l fs n its; simpl; auto.
  destruct (lstep l c) as [| |v|m|l']; auto.
  - rewrite complete_app. destruct (complete v fs) as [w|fs'] eqn:E.
    + destruct (n =? 1); simpl; auto.
    + rewrite IH. destruct (run LStart fs' p); simpl; auto. destruct (n =? 1); simpl; auto.
      now rewrite mshift_add.
  - change ((m, []) :: fs ++ [(n, its)]) with (((m, []) :: fs) ++ [(n, its)]). rewrite IH.
    destruct (run LStart _ p); simpl; auto. destruct (n =? 1); simpl; auto. now rewrite mshift_add.
  - rewrite IH. destruct (run l' fs p); simpl; auto. destruct (n =? 1); simpl; auto. now rewrite mshift_add.
Qed.

(** Chunk independence of the machine. *)
Lemma run_app p q : forall l fs,
  run l fs (p ++ q) =
  match run l fs p with MInc l' fs' => mshift (length p) (run l' fs' q) | r => r end.
Proof.
  induction p as [|c p IH]; intros l fs; simpl; [now rewrite mshift_0|].
  destruct (lstep l c) as [| |v|m|l']; auto.
  - destruct (complete v fs); auto. rewrite IH. destruct (run LStart f p); simpl; auto. now rewrite mshift_add.
  - rewrite IH. destruct (run LStart _ p); simpl; auto. now rewrite mshift_add.
  - rewrite IH. destruct (run l' fs p); simpl; auto. now rewrite mshift_add.
Qed.

(** A bulk body in one go. *)
Lemma run_bulk q : forall b n fs, 0 < n ->
  run (LBulk b n) fs q =
  if Z.of_nat (length q) <? n then MInc (LBulk (b ++ q) (n - Z.of_nat (length q))) fs
  else mshift (Z.to_nat n) (run (LBcr (b ++ firstn (Z.to_nat n) q)) fs (skipn (Z.to_nat n) q)).
Proof.
  induction q as [|c q IH]; intros b n fs Hn.
  - cbn [length run]. destruct (Z.of_nat 0 <? n) eqn:E; b2p; [|lia].
    rewrite app_nil_r. do 2 f_equal. simpl. lia.
  - cbn [run lstep]. destruct (0 <? n - 1) eqn:E; b2p.
    + rewrite IH by lia. cbn [length]. rewrite <- app_assoc. cbn [app].
      replace (Z.of_nat (S (length q)) <? n) with (Z.of_nat (length q) <? n - 1)
        by (destruct (Z.of_nat (length q) <? n - 1) eqn:A; symmetry; b2p; [apply Z.ltb_lt|apply Z.ltb_ge]; lia).
      destruct (Z.of_nat (length q) <? n - 1).
      * cbn [mshift]. do 2 f_equal. lia.
      * replace (Z.to_nat n) with (S (Z.to_nat (n - 1))) by lia. cbn [firstn skipn].
        rewrite mshift_add, <- app_assoc. reflexivity.
    + assert (n = 1) by lia. subst n. cbn [length].
      destruct (Z.of_nat (S (length q)) <? 1) eqn:A; b2p; [lia|]. 
      change (Z.to_nat 1) with 1%nat. reflexivity.
Qed.

(** The code simulates the machine. *)
Definition sim (o : outcome (rres * dec)) (len : nat) (r : mres) : Prop :=
  match r with
  | MDone k v => exists d, o = Ok (RCompleted k v, d) /\ absl d = LStart /\ frames d = []
  | MInc l fs => exists d, o = Ok (RIncompleted len, d) /\ absl d = l /\ frames d = rev fs
  | MErr k => exists d, o = Ok (RErr k, d)
  | MUB => o = UB
  end.

Lemma skipn_cons_nth i (p : list Z) : (i < length p)%nat -> skipn i p = nth i p 0 :: skipn (i + 1) p.
Proof.
  revert p; induction i; intros [|c p] H; simpl in *; try lia; auto. apply IHi. lia.
Qed.

Lemma sim_shift_inc o len k r : sim o len (mshift k r) <->
  match r with
  | MDone j v => exists d, o = Ok (RCompleted (k + j) v, d) /\ absl d = LStart /\ frames d = []
  | MInc l fs => exists d, o = Ok (RIncompleted len, d) /\ absl d = l /\ frames d = rev fs
  | MErr j => exists d, o = Ok (RErr (k + j), d)
  | MUB => o = UB
  end.
Proof. destruct r; reflexivity. Qed.

Definition P_chunk f := forall d p i, frames d = [] -> wfl (absl d) -> (stat d = st_bulk -> i = 0%nat) ->
  (i <= length p)%nat -> (4 * (length p - i) + 1 <= f)%nat ->
  sim (decode_chunk_f f d p i) (length p) (mshift i (run (absl d) [] (skipn i p))).
Definition P_array f := forall d p, frames d <> [] -> wfl (absl d) -> wff (frames d) ->
  (length (frames d) + 4 * length p + 3 <= f)%nat ->
  sim (decode_array_f f d p) (length p) (run (absl d) (rev (frames d)) p).
Definition P_loop f := forall d p i x n its, frames d = [] -> wfl (absl d) -> (x < n \/ absl d = LStart) ->
  0 <= x <= n ->
  (i <= length p)%nat -> (4 * (length p - i) + 3 <= f)%nat ->
  sim (array_loop_f f d p i x n its) (length p)
    (if x <? n then mshift i (run (absl d) [(n - x, its)] (skipn i p)) else MDone i (RArray its)).
Definition P_dec f := forall d p, wfl (absl d) -> wff (frames d) ->
  (length (frames d) + 4 * length p + 4 <= f)%nat \/ (frames d = [] /\ (4 * length p + 2 <= f)%nat) ->
  sim (decode_f f d p) (length p) (run (absl d) (rev (frames d)) p).

Lemma sim_next_chunk f d p i r : P_chunk f -> (i < length p)%nat ->
  frames d = [] -> wfl (absl d) -> stat d <> st_bulk -> (4 * (length p - i) + 1 <= S f)%nat ->
  r = mshift 1 (run (absl d) [] (skipn (i + 1) p)) ->
  sim (decode_chunk_f f d p (i + 1)) (length p) (mshift i r).
Proof.
  intros IH Hi Hf Hw Hb Hfu ->. rewrite mshift_add. apply IH; auto; try lia. congruence.
Qed.


Lemma chunk_step f : P_chunk f -> P_array f -> P_chunk (S f).
Proof.
  intros IHc IHa d p i Hfr Hwf Hst Hi Hfuel.
  cbn [decode_chunk_f]. destruct (i <? length p)%nat eqn:Elt; b2p.
  2:{ assert (i = length p) by lia. subst i. rewrite skipn_all. simpl.
      exists d. now rewrite Hfr. }
  rewrite (skipn_cons_nth i p) by lia. set (c := nth i p 0). cbn zeta. 
  destruct d as [s b n fs]. simpl in Hfr. subst fs. unfold absl in *. cbn [stat buf bulk frames setstat setbuf] in *.
  assert (NX : forall s', s' <> st_bulk -> forall b' n',
      sim (decode_chunk_f f (mkdec s' b' n' []) p (i + 1)) (length p)
          (mshift i (mshift 1 (run (absl (mkdec s' b' n' [])) [] (skipn (i + 1) p))))).
  { intros s' Hs' b' n'. eapply sim_next_chunk; eauto; try (cbn; auto; lia).
    unfold absl; destruct s'; cbn; auto; congruence. }
  unfold setbuf, setstat. cbn [stat buf bulk frames].
  destruct s; cbn [run lstep stat buf bulk frames].
  - (* start *) deq; try (cbn [mshift sim]; eexists; reflexivity); 
      match goal with |- sim (decode_chunk_f _ (mkdec ?s ?b ?n _) _ _) _ _ => apply (NX s ltac:(discriminate) b n) end.
  - deq; try (cbn [mshift sim]; eexists; reflexivity);
      match goal with |- sim (decode_chunk_f _ (mkdec ?s ?b ?n _) _ _) _ _ => apply (NX s ltac:(discriminate) b n) end.
  - deq; cbn [mshift sim complete]; eexists; split; try reflexivity; auto.
  - deq; try (cbn [mshift sim]; eexists; reflexivity);
      match goal with |- sim (decode_chunk_f _ (mkdec ?s ?b ?n _) _ _) _ _ => apply (NX s ltac:(discriminate) b n) end.
  - deq; cbn [mshift sim complete]; eexists; split; try reflexivity; auto.
  - unfold num_step. deq; try (cbn [mshift sim]; eexists; reflexivity).
    + destruct b; [cbn [mshift sim]; eexists; reflexivity|].
      match goal with |- sim (decode_chunk_f _ (mkdec ?s ?b ?n _) _ _) _ _ => apply (NX s ltac:(discriminate) b n) end.
    + match goal with |- sim (decode_chunk_f _ (mkdec ?s ?b ?n _) _ _) _ _ => apply (NX s ltac:(discriminate) b n) end.
  - deq; [|cbn [mshift sim]; eexists; reflexivity].
    unfold parse_num. destruct (32 <=? length b)%nat; cbn [obind]; [reflexivity|].
    cbn [mshift sim complete]; eexists; split; try reflexivity; auto.
  - unfold num_step. deq; try (cbn [mshift sim]; eexists; reflexivity).
    + destruct b; [cbn [mshift sim]; eexists; reflexivity|].
      match goal with |- sim (decode_chunk_f _ (mkdec ?s ?b ?n _) _ _) _ _ => apply (NX s ltac:(discriminate) b n) end.
    + match goal with |- sim (decode_chunk_f _ (mkdec ?s ?b ?n _) _ _) _ _ => apply (NX s ltac:(discriminate) b n) end.
  - (* bulk_size_lf *)
    deq; [|cbn [mshift sim]; eexists; reflexivity].
    unfold parse_num. destruct (32 <=? length b)%nat; cbn [obind]; [reflexivity|].
    set (m := strtol b). clearbody m.
    destruct (m =? -1) eqn:E1; b2p.
    { cbn [mshift sim complete]; eexists; split; try reflexivity; auto. }
    destruct (m =? 0) eqn:E2; b2p.
    { match goal with |- sim (decode_chunk_f _ (mkdec ?s ?b ?n _) _ _) _ _ => apply (NX s ltac:(discriminate) b n) end. }
    destruct (m <? 0) eqn:E3; b2p; [cbn [mshift sim]; eexists; reflexivity|].
    rewrite run_bulk by lia. rewrite skipn_length. cbn [app].
    assert (Hpos : 0 < m) by lia.
    destruct (Z.of_nat (length p) - Z.of_nat i - 1 <? m) eqn:E4; b2p.
    + destruct (Z.of_nat (length p - (i + 1)) <? m) eqn:E5; b2p; [|lia].
      cbn [mshift sim].
      rewrite Z.min_r by lia.
      replace (Z.to_nat (Z.of_nat (length p) - Z.of_nat i - 1)) with (length p - (i + 1))%nat by lia.
      eexists. split; [|split]; [f_equal; f_equal; f_equal; lia| |reflexivity].
      unfold absl. cbn. unfold slice. rewrite firstn_all2 by (rewrite skipn_length; lia).
      f_equal; lia.
    + destruct (Z.of_nat (length p - (i + 1)) <? m) eqn:E5; b2p; [lia|].
      rewrite Z.min_l by lia. rewrite !mshift_add.
      assert (A := IHc (mkdec st_bulk_cr (slice p (i + 1) (Z.to_nat m)) m []) p (i + Z.to_nat m + 1)%nat).
      cbn in A. replace (i + Z.to_nat m + 1)%nat with (i + (1 + Z.to_nat m))%nat in * by lia.
      rewrite <- skipn_add. replace (i + 1 + Z.to_nat m)%nat with (i + (1 + Z.to_nat m))%nat by lia.
      apply A; auto; try lia. discriminate.
  - (* bulk *)
    cbn in Hwf. assert (i = 0%nat) by auto. subst i.
    change (run (LBulk b n) [] (c :: skipn (0 + 1) p)) with (run (LBulk b n) [] (c :: skipn 1 p)).
    rewrite mshift_0.
    assert (Hp : c :: skipn 1 p = p) by (unfold c; destruct p; simpl in *; [lia|reflexivity]).
    change (match lstep (LBulk b n) c with | Lerr => MErr 1 | Lub => MUB | Lcont l => mshift 1 (run l [] (skipn (0+1) p)) | Larr n0 => mshift 1 (run LStart [(n0, [])] (skipn (0+1) p)) | Lval v => match complete v [] with inl v0 => MDone 1 v0 | inr fs => mshift 1 (run LStart fs (skipn (0+1) p)) end end) with (run (LBulk b n) [] (c :: skipn 1 p)).
    change (sim (let available := Z.of_nat (length p) - Z.of_nat 0 in
          let canRead := Z.to_nat (Z.min available n) in
          let b := b ++ slice p 0 (canRead - 0) in
          let n := n - Z.of_nat canRead in
          let i := (0 + (canRead - 1))%nat in
          if 0 <? n then Ok (RIncompleted (i + 1), mkdec st_bulk b n [])
          else if Nat.eqb (length p) (i + 1) then Ok (RIncompleted (i + 1), mkdec st_bulk_cr b n [])
          else decode_chunk_f f (mkdec st_bulk_cr b n []) p (i + 1)) (length p) (run (LBulk b n) [] (c :: skipn 1 p))).
    rewrite Hp. rewrite run_bulk by lia. cbn zeta.
    rewrite Nat.sub_0_r, slice_0, Nat.add_0_l, Z.sub_0_r.
    destruct (Z.of_nat (length p) <? n) eqn:E; b2p.
    + rewrite Z.min_l by lia. rewrite Nat2Z.id.
      destruct (0 <? n - Z.of_nat (length p)) eqn:E2; b2p; [|lia].
      rewrite firstn_all. cbn [sim]. eexists. split; [|split]; [f_equal; f_equal; f_equal; lia|reflexivity|reflexivity].
    + rewrite Z.min_r by lia. rewrite Z2Nat.id by lia.
      destruct (0 <? n - n) eqn:E2; b2p; [lia|].
      destruct (length p =? Z.to_nat n - 1 + 1)%nat eqn:E3; b2p.
      * rewrite skipn_all2 by lia. cbn [run mshift sim]. eexists. split; [|split]; [f_equal; f_equal; f_equal; lia| |reflexivity].
        reflexivity.
      * replace (Z.to_nat n - 1 + 1)%nat with (Z.to_nat n) by lia.
        assert (A := IHc (mkdec st_bulk_cr (b ++ firstn (Z.to_nat n) p) (n - n) []) p (Z.to_nat n)).
        apply A; try exact I; try reflexivity; try lia; cbn; discriminate.
  - deq; try (cbn [mshift sim]; eexists; reflexivity).
    match goal with |- sim (decode_chunk_f _ (mkdec ?s ?b ?n _) _ _) _ _ => apply (NX s ltac:(discriminate) b n) end.
  - deq; cbn [mshift sim complete]; eexists; split; try reflexivity; auto.
  - unfold num_step. deq; try (cbn [mshift sim]; eexists; reflexivity).
    + destruct b; [cbn [mshift sim]; eexists; reflexivity|].
      match goal with |- sim (decode_chunk_f _ (mkdec ?s ?b ?n _) _ _) _ _ => apply (NX s ltac:(discriminate) b n) end.
    + match goal with |- sim (decode_chunk_f _ (mkdec ?s ?b ?n _) _ _) _ _ => apply (NX s ltac:(discriminate) b n) end.
  - (* array_size_lf *)
    destruct (c =? 10) eqn:Ec; [|cbn [mshift sim]; eexists; reflexivity].
    unfold parse_num. destruct (32 <=? length b)%nat; cbn [obind]; [reflexivity|].
    set (m := strtol b). clearbody m.
    destruct ((m =? -1) || (m =? 0)) eqn:E1; b2p.
    { cbn [mshift sim complete]; eexists; split; try reflexivity; auto. }
    destruct (m <? 0) eqn:E3; b2p; [cbn [mshift sim]; eexists; reflexivity|].
    destruct (i + 1 =? length p)%nat eqn:E4; b2p.
    + rewrite skipn_all2 by lia. cbn [run mshift sim]. eexists. split; [|split]; [f_equal; f_equal; f_equal; lia|reflexivity|reflexivity].
    + assert (A := IHa (mkdec st_start [] n [(m, [])]) (skipn (i + 1) p)). cbn [frames rev app length] in A.
      rewrite skipn_length in A. rewrite mshift_add.
      assert (B : sim (decode_array_f f (mkdec st_start [] n [(m, [])]) (skipn (i + 1) p)) (length p - (i + 1))
             (run LStart [(m, [])] (skipn (i + 1) p))).
      { apply A; try discriminate; try exact I; try lia. constructor; [simpl; lia|constructor]. }
      destruct (run LStart [(m, [])] (skipn (i + 1) p)) as [k v|l fs|k|]; cbn [mshift sim] in *.
      * destruct B as (d & -> & ? & ?). cbn [obind radd]. exists d. split; auto. f_equal. f_equal. f_equal. lia.
      * destruct B as (d & -> & ? & ?). cbn [obind radd]. exists d. split; auto. f_equal. f_equal. f_equal. lia.
      * destruct B as (d & ->). cbn [obind radd]. exists d. f_equal. f_equal. f_equal. lia.
      * rewrite B. reflexivity.
Qed.

Lemma after_ok f d2 p i n its : P_loop f -> frames d2 = [] -> absl d2 = LStart -> 0 <= n ->
  (i <= length p)%nat -> (4 * (length p - i) + 3 <= f)%nat ->
  sim (if Nat.eqb i (length p)
       then if n =? 0 then Ok (RCompleted i (RArray its), d2)
            else Ok (RIncompleted i, mkdec (stat d2) (buf d2) (bulk d2) ((n, its) :: frames d2))
       else array_loop_f f d2 p i 0 n its) (length p)
      (if n =? 0 then MDone i (RArray its) else mshift i (run LStart [(n, its)] (skipn i p))).
Proof.
  intros IH Hf Hl Hn Hi Hfu. destruct (i =? length p)%nat eqn:E; b2p.
  - subst i. rewrite skipn_all. destruct (n =? 0); cbn [run mshift sim].
    + eauto.
    + eexists. split; [reflexivity|]. cbn. rewrite Hf. split; auto.
  - assert (A := IH d2 p i 0 n its Hf). rewrite Hl in A. specialize (A I (or_intror eq_refl) ltac:(lia) ltac:(lia) Hfu).
    rewrite Z.sub_0_r in A. destruct (n =? 0) eqn:E2; b2p.
    + subst n. exact A.
    + destruct (0 <? n) eqn:E3; b2p; [exact A|lia].
Qed.

Lemma array_step f : P_array f -> P_loop f -> P_array (S f).
Proof.
  intros IHa IHl d p Hne Hwl Hwf Hfu. cbn [decode_array_f].
  destruct (frames d) as [|[n its] rest] eqn:Efr; [congruence|]. clear Hne.
  inv Hwf. cbn [fst] in H1. cbn [length] in Hfu.
  destruct rest as [|fr rest].
  - cbn [rev app]. destruct d as [s b m fs]. cbn in Efr. subst fs. cbn [stat buf bulk].
    change (absl (mkdec s b m [(n, its)])) with (absl (mkdec s b m [])) in *.
    destruct (0 =? length p)%nat eqn:E; b2p.
    + destruct p; [|discriminate]. destruct (n =? 0) eqn:E2; b2p; [lia|]. cbn [run sim length]. eexists. split; [reflexivity|]. cbn. auto.
    + assert (A := IHl (mkdec s b m []) p 0%nat 0 n its eq_refl Hwl (or_introl H1) ltac:(lia) ltac:(lia) ltac:(lia)).
      destruct (0 <? n) eqn:E3; b2p; [|lia]. rewrite mshift_0, Z.sub_0_r in A. exact A.
  - set (d1 := mkdec (stat d) (buf d) (bulk d) (fr :: rest)).
    assert (A : sim (decode_array_f f d1 p) (length p) (run (absl d1) (rev (frames d1)) p)).
    { apply IHa; try discriminate; auto. cbn [frames d1 length] in *. lia. }
    change (absl d1) with (absl d) in A. change (frames d1) with (fr :: rest) in A.
    change (rev ((n, its) :: fr :: rest)) with (rev (fr :: rest) ++ [(n, its)]).
    rewrite run_frame.
    destruct (run (absl d) (rev (fr :: rest)) p) as [k v|l fs|k|] eqn:Er.
    + destruct A as (d2 & -> & Hl & Hf). cbn [obind].
      assert (K := run_done_pos _ _ _ _ _ Er).
      assert (B := after_ok f d2 p k (n - 1) (its ++ [v]) IHl Hf Hl ltac:(lia) ltac:(lia) ltac:(cbn [length] in *; lia)).
      replace (n =? 1) with (n - 1 =? 0); [exact B|].
      destruct (n =? 1) eqn:E; b2p; [apply Z.eqb_eq|apply Z.eqb_neq]; lia.
    + destruct A as (d2 & -> & Hl & Hf). cbn [obind]. eexists. split; [reflexivity|]. cbn. rewrite Hf, rev_app_distr. auto.
    + destruct A as (d2 & ->). cbn [obind]. eexists. reflexivity.
    + rewrite A. reflexivity.
Qed.

Lemma loop_step f : P_dec f -> P_loop f -> P_loop (S f).
Proof.
  intros IHd IHl d p i x n its Hf Hwl Hor Hx Hi Hfu. cbn [array_loop_f].
  destruct (x <? n) eqn:E; b2p.
  2:{ destruct Hor; [lia|]. cbn [sim]. eauto. }
  change [(n - x, its)] with (([] : frs) ++ [(n - x, its)]). rewrite run_frame.
  assert (A := IHd d (skipn i p) Hwl). rewrite Hf in A. specialize (A ltac:(constructor)).
  rewrite skipn_length in A. specialize (A ltac:(right; split; [reflexivity|lia])). cbn [rev] in A.
  destruct (run (absl d) [] (skipn i p)) as [k v|l fs|k|] eqn:Er; cbn [mshift].
  - destruct A as (d2 & -> & Hl2 & Hf2). cbn [obind rsize].
    assert (K := run_done_pos _ _ _ _ _ Er). rewrite skipn_length in K.
    assert (B := IHl d2 p (i + k)%nat (x + 1) n (its ++ [v]) Hf2). rewrite Hl2 in B.
    specialize (B I (or_intror eq_refl) ltac:(lia) ltac:(lia) ltac:(lia)).
    destruct (x + 1 <? n) eqn:E2; b2p.
    + destruct (n - x =? 1) eqn:E3; b2p; [lia|]. rewrite mshift_add, <- skipn_add.
      replace (n - x - 1) with (n - (x + 1)) by lia. exact B.
    + destruct (n - x =? 1) eqn:E3; b2p; [|lia]. exact B.
  - destruct A as (d2 & -> & Hl2 & Hf2). cbn [obind rsize sim]. eexists. split; [f_equal; f_equal; f_equal; lia|].
    cbn. rewrite Hf2, rev_app_distr. auto.
  - destruct A as (d2 & ->). cbn [obind rsize sim]. eauto.
  - rewrite A. reflexivity.
Qed.

Lemma dec_step f : P_chunk f -> P_array f -> P_dec (S f).
Proof.
  intros IHc IHa d p Hwl Hwf Hfu. cbn [decode_f].
  destruct (frames d) as [|fr rest] eqn:E.
  - cbn [rev]. rewrite <- (mshift_0 (run _ _ _)). change (skipn 0 p) with p.
    assert (A := IHc d p 0%nat E Hwl (fun _ => eq_refl) ltac:(lia)). apply A. cbn [length] in Hfu. destruct Hfu; lia.
  - rewrite <- E. apply IHa; [congruence|auto|rewrite E; exact Hwf|]. rewrite E. destruct Hfu as [Hfu|[? _]]; [lia|discriminate].
Qed.

Lemma all_sim f : P_chunk f /\ P_array f /\ P_loop f /\ P_dec f.
Proof.
  induction f as [|f (Hc & Ha & Hl & Hd)].
  - repeat split; red; intros; exfalso; try lia.
  - split; [|split; [|split]].
    + now apply chunk_step.
    + now apply array_step.
    + now apply loop_step.
    + now apply dec_step.
Qed.

Lemma decode_sim d p : wfl (absl d) -> wff (frames d) ->
  sim (decode d p) (length p) (run (absl d) (rev (frames d)) p).
Proof.
  intros H1 H2. unfold decode. set (n := (10 + 4 * length p + 4 * length (frames d))%nat).
  assert (Hn : (length (frames d) + 4 * length p + 4 <= n)%nat) by lia. clearbody n.
  destruct (all_sim n) as (_ & _ & _ & A). apply A; auto.
Qed.

(** Stream semantics of the machine: values up to the first error. *)
Inductive sres := SOk (vs : list rval) (e : bool) (l : lex) (fs : frs) | SUB.
Definition scons (v : rval) (s : sres) : sres := match s with SOk vs e l fs => SOk (v :: vs) e l fs | s => s end.
Fixpoint srun (l : lex) (fs : frs) (p : list Z) : sres :=
  match p with
  | [] => SOk [] false l fs
  | c :: p =>
    match lstep l c with
    | Lerr => SOk [] true l fs
    | Lub => SUB
    | Lcont l => srun l fs p
    | Larr n => srun LStart ((n, []) :: fs) p
    | Lval v => match complete v fs with inl v => scons v (srun LStart [] p) | inr fs => srun LStart fs p end
    end
  end.

Lemma srun_run p : forall l fs, exists l0 fs0,
  srun l fs p = match run l fs p with
                | MDone k v => scons v (srun LStart [] (skipn k p))
                | MInc l fs => SOk [] false l fs
                | MErr k => SOk [] true l0 fs0
                | MUB => SUB
                end.
Proof.
  induction p as [|c p IH]; intros l fs; [exists l, fs; reflexivity|]. cbn [srun run].
  destruct (lstep l c) as [| |v|n|l'].
  - exists l, fs. reflexivity.
  - exists l, fs. reflexivity.
  - destruct (complete v fs) as [w|fs'].
    + exists l, fs. reflexivity.
    + destruct (IH LStart fs') as (l0 & f0 & E). exists l0, f0. rewrite E. destruct (run LStart fs' p); reflexivity.
  - destruct (IH LStart ((n, []) :: fs)) as (l0 & f0 & E). exists l0, f0. rewrite E. destruct (run LStart _ p); reflexivity.
  - destruct (IH l' fs) as (l0 & f0 & E). exists l0, f0. rewrite E. destruct (run l' fs p); reflexivity.
Qed.

Lemma srun_app p q : forall l fs,
  srun l fs (p ++ q) =
  match srun l fs p with
  | SOk vs false l' fs' => match srun l' fs' q with SOk ws e l2 f2 => SOk (vs ++ ws) e l2 f2 | SUB => SUB end
  | r => r
  end.
Proof.
  induction p as [|c p IH]; intros l fs.
  - cbn [app srun]. destruct (srun l fs q); reflexivity.
  - cbn [app srun]. destruct (lstep l c) as [| |v|n|l']; auto.
    destruct (complete v fs) as [w|fs']; auto. rewrite IH.
    destruct (srun LStart [] p) as [vs e l0 f0|]; auto. destruct e; auto. cbn [scons].
    destruct (srun l0 f0 q); auto.
Qed.

Definition feed_sim (o : outcome (list rval * bool * dec)) (r : sres) : Prop :=
  match r with
  | SOk vs true _ _ => exists d, o = Ok (vs, true, d)
  | SOk vs false l fs => exists d, o = Ok (vs, false, d) /\ absl d = l /\ frames d = rev fs /\ wfl l /\ wff fs
  | SUB => o = UB
  end.

Lemma wff_rev fs : wff fs -> wff (rev fs).
Proof. apply Forall_rev. Qed.

Lemma feed_f_sim f : forall d p, (length p < f)%nat -> wfl (absl d) -> wff (frames d) ->
  feed_sim (feed_f f d p) (srun (absl d) (rev (frames d)) p).
Proof.
  induction f as [|f IH]; intros d p Hf Hl Hw; [lia|]. cbn [feed_f].
  assert (A := decode_sim d p Hl Hw).
  destruct (srun_run p (absl d) (rev (frames d))) as (l0 & f0 & E). rewrite E. clear E.
  assert (W := run_wf p (absl d) (rev (frames d)) Hl (wff_rev _ Hw)).
  destruct (run (absl d) (rev (frames d)) p) as [k v|l fs|k|] eqn:Er.
  - destruct A as (d2 & -> & Hl2 & Hf2). cbn [obind].
    assert (K := run_done_pos _ _ _ _ _ Er).
    assert (B := IH d2 (skipn k p) ltac:(rewrite skipn_length; lia)). rewrite Hl2, Hf2 in B.
    specialize (B I ltac:(constructor)). cbn [rev] in B.
    destruct (srun LStart [] (skipn k p)) as [vs [] l fs|]; cbn [scons feed_sim] in *.
    + destruct B as (d3 & ->). cbn. eauto.
    + destruct B as (d3 & -> & ?). cbn. eauto.
    + rewrite B. reflexivity.
  - destruct A as (d2 & -> & Hl2 & Hf2). cbn. eauto 7.
  - destruct A as (d2 & ->). cbn. eauto.
  - rewrite A. reflexivity.
Qed.

Lemma feed_all_sim chunks : forall d, wfl (absl d) -> wff (frames d) ->
  feed_all d chunks = match srun (absl d) (rev (frames d)) (concat chunks) with
                      | SOk vs e _ _ => Ok (vs, e) | SUB => UB end.
Proof.
  induction chunks as [|p rest IH]; intros d Hl Hw; [reflexivity|].
  cbn [feed_all concat]. rewrite srun_app.
  assert (A : feed_sim (feed d p) (srun (absl d) (rev (frames d)) p)).
  { unfold feed. set (n := (2 + length p)%nat). assert (length p < n)%nat by lia. clearbody n. now apply feed_f_sim. }
  destruct (srun (absl d) (rev (frames d)) p) as [vs [] l fs|]; cbn [feed_sim] in A.
  - destruct A as (d2 & ->). reflexivity.
  - destruct A as (d2 & -> & Ha & Hf & H1 & H2). cbn [obind]. rewrite IH.
    + rewrite Ha, Hf, rev_involutive. destruct (srun l fs (concat rest)); reflexivity.
    + now rewrite Ha.
    + rewrite Hf. now apply wff_rev.
  - rewrite A. reflexivity.
Qed.

Lemma chunk_independent c1 c2 : concat c1 = concat c2 -> feed_all new_dec c1 = feed_all new_dec c2.
Proof.
  intro H. rewrite (feed_all_sim c1 new_dec I (Forall_nil _)), (feed_all_sim c2 new_dec I (Forall_nil _)). now rewrite H.
Qed.
