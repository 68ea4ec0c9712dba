(** Socket addresses and literals. *)
From Verif.Model Require Import Common Bytes Decimal StrUtil IpAddress.
From Verif.Spec Require Import IpSpec StrSpec.
From Verif.Proofs Require Import Tac BytesProofs DecimalProofs StrProofs UrlProofs IpProofs IpProofs2.
Open Scope Z_scope.

Definition port (p : Z) : Prop := 0 <= p < 65536.

Ltac list4 a L := destruct a as [|? [|? [|? [|? [|? ?]]]]]; try discriminate L.
Ltac list16 a L := do 16 (destruct a as [|? a]; [discriminate L|]); destruct a as [|? a]; [|discriminate L].

Lemma be2 p : be_encode 2 p = [(p / 256) mod 256; p mod 256].
Proof. reflexivity. Qed.

Lemma be2_decode p : port p -> be_decode [(p / 256) mod 256; p mod 256] = p.
Proof. intros P. rewrite <- be2. apply be_round. exact P. Qed.

Lemma from_v4 a p tl len : length a = 4%nat -> port p -> (16 <= len)%nat ->
  FromSockAddr (le_encode 2 AF_INET ++ be_encode 2 p ++ a ++ tl) len = Ok (Some (mkEP a p)).
Proof.
  intros L P N. list4 a L. rewrite be2. unfold FromSockAddr. cbn [app le_encode mread length].
  change (AF_INET mod 256) with 2. change ((AF_INET / 256) mod 256) with 0. cbn [mread].
  unfold mread. cbn [length Nat.add Nat.leb slice skipn firstn obind].
  unfold slice. cbn [skipn firstn]. change (le_decode [2; 0]) with 2. unfold AF_INET. rewrite Z.eqb_refl.
  replace (len <? 16)%nat with false by (symmetry; apply Nat.ltb_ge; lia).
  rewrite be2_decode by auto. reflexivity.
Qed.

Lemma from_v6 flow a p tl len : length flow = 4%nat -> length a = 16%nat -> port p -> (28 <= len)%nat ->
  FromSockAddr (le_encode 2 AF_INET6 ++ be_encode 2 p ++ flow ++ a ++ tl) len = Ok (Some (mkEP a p)).
Proof.
  intros LF L P N. list4 flow LF. rewrite be2. unfold FromSockAddr, mread.
  change (le_encode 2 AF_INET6) with [10; 0]. rewrite !app_length, L. cbn [length Nat.add Nat.leb obind].
  unfold slice. cbn [app skipn firstn]. change (le_decode [10; 0]) with 10. unfold AF_INET, AF_INET6.
  change (10 =? 2) with false. rewrite Z.eqb_refl.
  replace (len <? 28)%nat with false by (symmetry; apply Nat.ltb_ge; lia).
  rewrite be2_decode by auto. list16 a L. reflexivity.
Qed.

Lemma write0 {A} (mem bs : list A) : (length bs <= length mem)%nat -> mem_write mem 0 bs = Some (bs ++ skipn (length bs) mem).
Proof. intros L. unfold mem_write. cbn [Nat.add]. apply Nat.leb_le in L. rewrite L. reflexivity. Qed.

Lemma sin_len a p : length a = 4%nat -> length (sockaddr_in a p) = 16%nat.
Proof. intros L. unfold sockaddr_in. rewrite !app_length, L. reflexivity. Qed.
Lemma sin6_len f a p s : length f = 4%nat -> length a = 16%nat -> length s = 4%nat -> length (sockaddr_in6 f a p s) = 28%nat.
Proof. intros F L S. unfold sockaddr_in6. rewrite !app_length, L, F, S. reflexivity. Qed.

Lemma to_v4 a p mem len : length a = 4%nat -> (16 <= len <= length mem)%nat ->
  ToSockAddr (mkEP a p) mem len = Ok (16%nat, sockaddr_in a p ++ skipn 16 mem).
Proof.
  intros L N. unfold ToSockAddr. cbn [ep_addr ep_port]. rewrite IsIPv4_true by auto.
  replace (len <? 16)%nat with false by (symmetry; apply Nat.ltb_ge; lia).
  rewrite write0 by (rewrite sin_len; auto; lia). rewrite sin_len by auto. reflexivity.
Qed.
Lemma to_v6 a p mem len : length a = 16%nat -> (28 <= len <= length mem)%nat ->
  ToSockAddr (mkEP a p) mem len = Ok (28%nat, sockaddr_in6 (repeat 0 4) a p (repeat 0 4) ++ skipn 28 mem).
Proof.
  intros L N. unfold ToSockAddr. cbn [ep_addr ep_port]. rewrite IsIPv4_false, IsIPv6_true by auto.
  replace (len <? 28)%nat with false by (symmetry; apply Nat.ltb_ge; lia).
  rewrite write0 by (rewrite sin6_len; auto; lia). rewrite sin6_len by auto. reflexivity.
Qed.

Lemma get_v4 a p : length a = 4%nat -> port p -> GetEndpoint (Some (sockaddr_in a p)) = Ok (Some (mkEP a p)).
Proof.
  intros L P. unfold GetEndpoint, k_getname. rewrite (sin_len a p L), repeat_length.
  rewrite firstn_all2 by (rewrite sin_len; auto). rewrite skipn_all2 by (rewrite repeat_length; lia). rewrite app_nil_r.
  unfold sockaddr_in. apply from_v4; auto.
Qed.

Lemma get_v6 f a p s : length f = 4%nat -> length a = 16%nat -> length s = 4%nat ->
  GetEndpoint (Some (sockaddr_in6 f a p s)) = UB.
Proof.
  intros F L S. unfold GetEndpoint, k_getname. rewrite (sin6_len f a p s F L S), repeat_length.
  rewrite skipn_all2 by (rewrite repeat_length; lia). rewrite app_nil_r.
  unfold sockaddr_in6. list4 f F. list16 a L. reflexivity.
Qed.

Lemma self_v4 a p b q : length a = 4%nat -> length b = 4%nat -> port p -> port q ->
  exists r, IsSelfConnect (Some (sockaddr_in a p)) (Some (sockaddr_in b q)) = Ok r /\ (r = true <-> a = b /\ p = q).
Proof.
  intros A B P Q. unfold IsSelfConnect. rewrite !get_v4 by auto. cbn [obind].
  rewrite !to_v4 by (auto; rewrite repeat_length; lia). cbn [obind fst snd Nat.eqb ep_addr]. rewrite IsIPv4_true by auto.
  eexists. split; [reflexivity|]. unfold sockaddr_in. rewrite !be2. change (le_encode 2 AF_INET) with [2; 0].
  unfold slice. list4 a A. list4 b B. cbn [app skipn firstn]. rewrite andb_true_iff, !beq_eq.
  split.
  - intros [E1 E2]. split; [exact E2|]. apply (f_equal be_decode) in E1. rewrite !be2_decode in E1 by auto. exact E1.
  - intros [E1 ->]. auto.
Qed.

(** ** Dotted decimal *)
Lemma udec_snoc c d : 1 <= c -> 0 <= d <= 9 -> c * 10 + d <= 255 -> udec (c * 10 + d) = udec c ++ [48 + d].
Proof.
  intros C D L.
  assert (K : forallb (fun c => forallb (fun d => beq (udec (c * 10 + d)) (udec c ++ [48 + d])) (map Z.of_nat (seq 0 10)))
     (map Z.of_nat (seq 1 25)) = true) by (vm_compute; reflexivity).
  rewrite forallb_forall in K.
  assert (H1 : In c (map Z.of_nat (seq 1 25))). { replace c with (Z.of_nat (Z.to_nat c)) by lia. apply in_map, in_seq. lia. }
  specialize (K c H1). rewrite forallb_forall in K.
  assert (H2 : In d (map Z.of_nat (seq 0 10))). { replace d with (Z.of_nat (Z.to_nat d)) by lia. apply in_map, in_seq. lia. }
  specialize (K d H2). now apply beq_eq in K.
Qed.
Lemma udec_one d : 0 <= d <= 9 -> udec d = [48 + d].
Proof.
  intros D.
  assert (K : forallb (fun d => beq (udec d) [48 + d]) (map Z.of_nat (seq 0 10)) = true) by (vm_compute; reflexivity).
  rewrite forallb_forall in K. apply beq_eq, K. replace d with (Z.of_nat (Z.to_nat d)) by lia. apply in_map, in_seq. lia.
Qed.

Definition dots (l : list Z) : list Z := concat (map (fun o => udec o ++ [46]) l).
Definition shown (l : list Z) (cur : Z) (saw : bool) : list Z := dots l ++ (if saw then udec cur else []).

Lemma dots_snoc l c : dots (l ++ [c]) = dots l ++ udec c ++ [46].
Proof. unfold dots. rewrite map_app, concat_app. cbn. now rewrite app_nil_r. Qed.

Lemma pton4_sound : forall s l cur saw r, pton4_loop s l cur saw = Some r ->
  is_byte cur -> (saw = false -> cur = 0) -> (length l <= 3)%nat -> Forall is_byte l ->
  exists l' c, r = l' ++ [c] /\ length l' = 3%nat /\ Forall is_byte l' /\ is_byte c /\ shown l cur saw ++ s = dots l' ++ udec c.
Proof.
  induction s as [|c s IH]; intros l cur saw r E B W L F; cbn [pton4_loop] in E.
  - destruct saw; cbn [negb] in E.
    + destruct (Nat.ltb_spec (length l + 1) 4); [discriminate|]. inv E. exists l, cur. repeat split; auto; try lia.
      * apply B.
      * apply B.
      * unfold shown. now rewrite app_nil_r.
    + destruct (Nat.ltb_spec (length l + 0) 4); [discriminate|]. lia.
  - destruct (isdigit c) eqn:D.
    + unfold isdigit in D. b2p. cbv zeta in E.
      destruct (saw && (cur =? 0)) eqn:Z0; [discriminate|].
      destruct (Z.ltb_spec 255 (cur * 10 + (c - 48))); [discriminate|].
      destruct (negb saw && (4 <? S (length l))%nat) eqn:O; [discriminate|].
      assert (NB : is_byte (cur * 10 + (c - 48))) by (unfold is_byte in *; lia).
      destruct (IH _ _ _ _ E NB ltac:(discriminate) L F) as (l' & c' & R & L' & F' & B' & S).
      exists l', c'. repeat split; auto; try apply B'. rewrite <- S. unfold shown. rewrite <- app_assoc.
      replace ((if saw then udec cur else []) ++ c :: s) with (udec (cur * 10 + (c - 48)) ++ s); [now rewrite <- app_assoc|].
      destruct saw.
      * cbn [andb] in Z0. apply Z.eqb_neq in Z0. unfold is_byte in B. rewrite udec_snoc by lia.
        rewrite <- app_assoc. cbn [app]. do 2 f_equal. lia.
      * rewrite (W eq_refl). cbn [app]. replace (0 * 10 + (c - 48)) with (c - 48) by lia. rewrite udec_one by lia.
        cbn [app]. f_equal. lia.
    + destruct ((c =? 46) && saw) eqn:DOT; [|discriminate]. b2p. subst.
      destruct (Nat.eqb_spec (length l) 3); [discriminate|].
      destruct (IH _ _ _ _ E) as (l' & c' & R & L' & F' & B' & S).
      * unfold is_byte; lia.
      * auto.
      * rewrite app_length. cbn. lia.
      * apply Forall_app; split; auto.
      * exists l', c'. repeat split; auto; try apply B'. rewrite <- S. unfold shown. rewrite dots_snoc, app_nil_r.
        rewrite <- !app_assoc. reflexivity.
Qed.

Lemma pton4_octet a l s : is_byte a -> (length l <= 3)%nat -> pton4_loop (udec a ++ s) l 0 false = pton4_loop s l a true.
Proof.
  intros A L.
  assert (O : negb false && (4 <? S (length l))%nat = false) by (cbn [negb andb]; apply Nat.ltb_ge; lia).
  destruct (Z.lt_ge_cases a 10) as [C|C].
  - rewrite udec_one by (unfold is_byte in A; lia). cbn [app pton4_loop].
    replace (isdigit (48 + a)) with true by (symmetry; unfold isdigit, is_byte in *; apply andb_true_iff; split; apply Z.leb_le; lia).
    cbv zeta. cbn [andb]. unfold is_byte in A. replace (255 <? 0 * 10 + (48 + a - 48)) with false by (symmetry; apply Z.ltb_ge; lia).
    rewrite O. f_equal. lia.
  - destruct (Z.lt_ge_cases a 100) as [C2|C2].
    + unfold is_byte in A. pose proof (Z.div_mod a 10 ltac:(lia)) as D. pose proof (Z.mod_pos_bound a 10 ltac:(lia)) as M.
      assert (1 <= a / 10 <= 9) by (Z.div_mod_to_equations; lia).
      replace (udec a) with (udec (a / 10 * 10 + a mod 10)) by (f_equal; lia).
      rewrite udec_snoc, udec_one by lia. cbn [app pton4_loop].
      replace (isdigit (48 + a / 10)) with true by (symmetry; unfold isdigit; apply andb_true_iff; split; apply Z.leb_le; lia).
      replace (isdigit (48 + a mod 10)) with true by (symmetry; unfold isdigit; apply andb_true_iff; split; apply Z.leb_le; lia).
      cbv zeta. cbn [andb]. rewrite O. cbn [negb andb].
      replace (255 <? 0 * 10 + (48 + a / 10 - 48)) with false by (symmetry; apply Z.ltb_ge; lia).
      replace (0 * 10 + (48 + a / 10 - 48) =? 0) with false by (symmetry; apply Z.eqb_neq; lia).
      replace (255 <? (0 * 10 + (48 + a / 10 - 48)) * 10 + (48 + a mod 10 - 48)) with false by (symmetry; apply Z.ltb_ge; lia).
      f_equal. lia.
    + unfold is_byte in A. pose proof (Z.div_mod a 10 ltac:(lia)) as D. pose proof (Z.mod_pos_bound a 10 ltac:(lia)) as M.
      pose proof (Z.div_mod (a / 10) 10 ltac:(lia)) as D2. pose proof (Z.mod_pos_bound (a / 10) 10 ltac:(lia)) as M2.
      assert (1 <= a / 10 / 10 <= 9) by (Z.div_mod_to_equations; lia).
      replace (udec a) with (udec (a / 10 * 10 + a mod 10)) by (f_equal; lia).
      rewrite udec_snoc by lia.
      replace (udec (a / 10)) with (udec (a / 10 / 10 * 10 + (a / 10) mod 10)) by (f_equal; lia).
      rewrite udec_snoc, udec_one by lia. cbn [app pton4_loop].
      replace (isdigit (48 + a / 10 / 10)) with true by (symmetry; unfold isdigit; apply andb_true_iff; split; apply Z.leb_le; lia).
      replace (isdigit (48 + (a / 10) mod 10)) with true by (symmetry; unfold isdigit; apply andb_true_iff; split; apply Z.leb_le; lia).
      replace (isdigit (48 + a mod 10)) with true by (symmetry; unfold isdigit; apply andb_true_iff; split; apply Z.leb_le; lia).
      cbv zeta. cbn [andb]. rewrite O. cbn [negb andb].
      set (u := 0 * 10 + (48 + a / 10 / 10 - 48)). replace (255 <? u) with false by (symmetry; apply Z.ltb_ge; lia).
      replace (u =? 0) with false by (symmetry; apply Z.eqb_neq; lia).
      set (v := u * 10 + (48 + (a / 10) mod 10 - 48)). replace (255 <? v) with false by (symmetry; apply Z.ltb_ge; lia).
      replace (v =? 0) with false by (symmetry; apply Z.eqb_neq; lia).
      replace (255 <? v * 10 + (48 + a mod 10 - 48)) with false by (symmetry; apply Z.ltb_ge; lia).
      f_equal. lia.
Qed.

Lemma pton4_dot l a s : (length l <= 2)%nat -> pton4_loop (46 :: s) l a true = pton4_loop s (l ++ [a]) 0 false.
Proof. intros L. cbn. replace (length l =? 3)%nat with false; [reflexivity|]. symmetry. apply Nat.eqb_neq. lia. Qed.

Lemma pton4_iff s r : inet_pton4 s = Some r <->
  exists a b c d, is_byte a /\ is_byte b /\ is_byte c /\ is_byte d /\ r = [a; b; c; d] /\ s = dotted a b c d.
Proof.
  unfold inet_pton4. split.
  - intros E. destruct (pton4_sound _ _ _ _ _ E) as (l & d & R & L & F & B & S); cbn; auto; try lia.
    + unfold is_byte; lia.
    + destruct l as [|a [|b [|c [|? ?]]]]; try discriminate L. inv F. inv H2. inv H4.
      exists a, b, c, d. repeat (split; [assumption|]). split; [reflexivity|].
      unfold shown, dots in S. cbn [map concat app] in S. rewrite S. unfold dotted. rewrite <- !app_assoc. reflexivity.
  - intros (a & b & c & d & A & B & C & D & -> & ->). unfold dotted.
    rewrite pton4_octet by (auto; cbn; lia). cbn [app]. rewrite pton4_dot by (cbn; lia).
    rewrite pton4_octet by (auto; cbn; lia). rewrite pton4_dot by (cbn; lia).
    rewrite pton4_octet by (auto; cbn; lia). rewrite pton4_dot by (cbn; lia).
    rewrite <- (app_nil_r (udec d)). rewrite pton4_octet by (auto; cbn; lia). reflexivity.
Qed.

Lemma cstr_app s tl : ~ In 0 s -> cstr (s ++ 0 :: tl) = Ok s.
Proof.
  induction s as [|c s IH]; intros N; cbn [app cstr].
  - reflexivity.
  - destruct (Z.eqb_spec c 0) as [->|]; [elim N; now left|]. rewrite IH by (intros I; apply N; now right). reflexivity.
Qed.

Lemma has_colon s : existsb (Z.eqb 58) s = true <-> In 58 s.
Proof.
  rewrite existsb_exists. split.
  - intros (x & I & E). apply Z.eqb_eq in E. now subst.
  - intros I. exists 58. auto.
Qed.

Lemma dotted_chars a b c d : is_byte a -> is_byte b -> is_byte c -> is_byte d ->
  Forall (fun x => x = 46 \/ 48 <= x <= 57) (dotted a b c d).
Proof.
  intros A B C D.
  assert (U : forall n, is_byte n -> Forall (fun x => x = 46 \/ 48 <= x <= 57) (udec n)).
  { intros n N. assert (Q := udec_digits 20 n ltac:(unfold is_byte in N; lia)). unfold udec.
    eapply Forall_impl; [|exact Q]. intros x X. unfold isdigit in X. cbn beta in X. b2p. lia. }
  unfold dotted. repeat (apply Forall_app; split); auto.
Qed.
