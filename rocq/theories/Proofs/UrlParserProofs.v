From Verif.Model Require Import Common UrlParser.
From Verif.Spec Require Import UriSpec.
From Verif.Proofs Require Import Tac.
Local Open Scope Z_scope.

(** ** Character classes *)
Ltac chars := repeat rewrite ?orb_true_iff, ?andb_true_iff, ?negb_true_iff, ?Z.leb_le, ?Z.eqb_eq, ?Z.eqb_neq in *.
Lemma memb_spec (c : Z) l : existsb (Z.eqb c) l = true <-> In c l.
Proof. rewrite existsb_exists. split; [intros (y & I & E); apply Z.eqb_eq in E; now subst|intros I; exists c; split; [exact I|apply Z.eqb_refl]]. Qed.
Lemma alpha_spec c : is_alpha c = true <-> letter c.
Proof. unfold is_alpha, letter. chars. lia. Qed.
Lemma num_spec c : is_num c = true <-> digit c.
Proof. unfold is_num, digit. chars. lia. Qed.
Lemma alnum_spec c : is_alphanum c = true <-> letter c \/ digit c.
Proof. unfold is_alphanum. rewrite orb_true_iff, alpha_spec, num_spec. tauto. Qed.
Lemma hex_spec c : is_hex c = true <-> hexdigit c.
Proof. unfold is_hex, hexdigit. rewrite !orb_true_iff, num_spec, !andb_true_iff, !Z.leb_le. tauto. Qed.
Lemma user_spec c : is_userinfo_char c = true <-> uchar c.
Proof. unfold is_userinfo_char, is_mark, uchar. rewrite !orb_true_iff, alnum_spec, !memb_spec. cbn [In]. tauto. Qed.
Lemma hostc_spec c : is_host_char c = true <-> name_char c.
Proof. unfold is_host_char, name_char. rewrite !orb_true_iff, alnum_spec, !Z.eqb_eq. tauto. Qed.
Lemma urlc_spec c : is_url_char c = true <-> pchar c.
Proof. unfold is_url_char, pchar. rewrite !andb_true_iff, !negb_true_iff, !Z.leb_le, !Z.eqb_neq. tauto. Qed.
Lemma zone_spec c : zone_char c = true <-> zchar c.
Proof. unfold zone_char, zchar. rewrite orb_true_iff, alnum_spec, memb_spec. tauto. Qed.
Lemma v6_spec c : is_hex c || (c =? 58) || (c =? 46) = true <-> v6_char c.
Proof. unfold v6_char. rewrite !orb_true_iff, hex_spec, !Z.eqb_eq. tauto. Qed.

(** Decide the comparisons of a goal by arithmetic. *)
Lemma true_of (b : bool) (P : Prop) : (b = true <-> P) -> P -> b = true. Proof. tauto. Qed.
Lemma false_of (b : bool) (P : Prop) : (b = true <-> P) -> ~ P -> b = false. Proof. destruct b; intuition congruence. Qed.
Lemma not_ws c : 33 <= c -> (c =? 32) || (c =? 13) || (c =? 10) || (c =? 9) || (c =? 12) = false.
Proof. intros H. destruct (Z.eqb_spec c 32), (Z.eqb_spec c 13), (Z.eqb_spec c 10), (Z.eqb_spec c 9), (Z.eqb_spec c 12); cbn; lia || reflexivity. Qed.
Lemma uchar_range c : uchar c -> 33 <= c <= 126 /\ c <> 47 /\ c <> 63 /\ c <> 64 /\ c <> 35 /\ c <> 91 /\ c <> 93.
Proof. unfold uchar, letter, digit. cbn [In]. lia. Qed.

(** ** How the single steps go *)
Lemma step_path c : pchar c -> url_char UPath c = UPath.
Proof. intros P. unfold url_char. rewrite not_ws by (unfold pchar in P; lia). now rewrite (proj2 (urlc_spec c) P). Qed.
Lemma step_query c : qchar c -> url_char UQuery c = UQuery /\ url_char UQueryStart c = UQuery.
Proof.
  intros P. unfold url_char. rewrite not_ws by (unfold qchar, pchar in P; lia). destruct P as [P| ->]; [now rewrite (proj2 (urlc_spec c) P)|]. split; reflexivity.
Qed.
Lemma step_frag c : fchar c -> url_char UFrag c = UFrag.
Proof. intros P. unfold url_char. rewrite not_ws by (unfold fchar, pchar in P; lia). destruct P as [P|[->| ->]]; [now rewrite (proj2 (urlc_spec c) P)|reflexivity|reflexivity]. Qed.
Lemma step_frag_start c : fchar c -> url_char UFragStart c = if c =? 35 then UFragStart else UFrag.
Proof.
  intros P. unfold url_char. rewrite not_ws by (unfold fchar, pchar in P; lia). destruct P as [P|[->| ->]]; [|reflexivity|reflexivity].
  rewrite (proj2 (urlc_spec c) P). destruct (Z.eqb_spec c 35); [unfold pchar in P; lia|reflexivity].
Qed.
Lemma step_schema c : letter c -> url_char USchema c = USchema /\ url_char USpaces c = USchema.
Proof.
  intros P. unfold url_char. rewrite not_ws by (unfold letter in P; lia). rewrite (proj2 (alpha_spec c) P). split; [reflexivity|].
  destruct (Z.eqb_spec c 47), (Z.eqb_spec c 42); try (unfold letter in P; lia). reflexivity.
Qed.

(** ** Fields *)
Definition bumpn (f : fld) (n : Z) (u : urlf) : urlf := match get f u with Some (o, m) => put f (o, w16 (m + n)) u | None => u end.
Lemma get_put f v u : get f (put f v u) = Some v. Proof. destruct u, f; reflexivity. Qed.
Lemma get_put_other f g v u : f <> g -> get f (put g v u) = get f u. Proof. destruct u, f, g; intros H; try reflexivity; congruence. Qed.
Lemma put_put f v w u : put f v (put f w u) = put f v u. Proof. destruct u, f; reflexivity. Qed.
Lemma fld_eqb_refl f : fld_eqb f f = true. Proof. destruct f; reflexivity. Qed.
Lemma w16_add a b : w16 (w16 a + b) = w16 (a + b). Proof. unfold w16. rewrite Zplus_mod_idemp_l. reflexivity. Qed.

Lemma bump_bumpn f n o u : get f u <> None -> (o = 1 + n) -> bumpn f n (bump f u) = bumpn f o u.
Proof.
  intros N ->. unfold bump, bumpn. destruct (get f u) as [[x m]|] eqn:E; [|congruence]. rewrite get_put, put_put, w16_add. do 3 f_equal. lia.
Qed.
Lemma bumpn_get f n u : get f u <> None -> get f (bumpn f n u) <> None.
Proof. unfold bumpn. destruct (get f u) as [[x m]|] eqn:E; [rewrite get_put; congruence|congruence]. Qed.
(** Field lengths stay below 2^16. *)
Definition small (u : urlf) (f : fld) : Prop := match get f u with Some (_, m) => 0 <= m < 65536 | None => False end.
Lemma bumpn_0 f u : small u f -> bumpn f 0 u = u.
Proof. unfold small, bumpn. destruct (get f u) as [[x m]|] eqn:E; [|tauto]. intros H. unfold w16. rewrite Z.add_0_r, Z.mod_small by lia. destruct u, f; cbn in *; inv E; reflexivity. Qed.
Lemma small_bump u f : small u f -> small (bump f u) f.
Proof. unfold small, bump. destruct (get f u) as [[x m]|] eqn:E; [|tauto]. rewrite get_put. intros _. unfold w16. pose proof (Z.mod_pos_bound (m + 1) 65536). lia. Qed.

(** A run of characters that stay in one state. *)
Lemma scan_run s f : field_of s = Some f -> s <> UServerAt -> s <> UDead -> forall l r p at_ u, (forall c, In c l -> url_char s c = s) -> small u f ->
  scan (l ++ r) p s (Some f) at_ u = scan r (p + Z.of_nat (length l)) s (Some f) at_ (bumpn f (Z.of_nat (length l)) u).
Proof.
  intros F NA ND. induction l as [|c l IH]; intros r p at_ u ST SM; cbn [app length]; [rewrite Z.add_0_r, bumpn_0 by exact SM; reflexivity|].
  cbn [scan]. rewrite (ST c (or_introl eq_refl)). assert (X : scan (l ++ r) (p + 1) s (Some f) at_ (bump f u) = scan r (p + Z.of_nat (S (length l))) s (Some f) at_ (bumpn f (Z.of_nat (S (length l))) u)).
  { rewrite IH; [|intros d D; apply ST; right; exact D|now apply small_bump]. rewrite (bump_bumpn f (Z.of_nat (length l)) (Z.of_nat (S (length l)))); [|unfold small in SM; destruct (get f u); [congruence|tauto]|lia].
    f_equal. lia. }
  destruct s; try discriminate F; try congruence; cbn [field_of] in *; inv F; exact X.
Qed.
(** The first character of a field and the run after it. *)
Lemma scan_first s0 s f c l r p old at_ u : url_char s0 c = s -> field_of s = Some f -> s <> UServerAt -> s <> UDead -> old <> Some f -> (forall d, In d l -> url_char s d = s) ->
  scan (c :: l ++ r) p s0 old at_ u = scan r (p + Z.of_nat (S (length l))) s (Some f) at_ (put f (w16 p, w16 (Z.of_nat (S (length l)))) u).
Proof.
  intros E F NA ND O ST. cbn [scan]. rewrite E. assert (X : scan (l ++ r) (p + 1) s (Some f) at_ (put f (w16 p, 1) u) = scan r (p + Z.of_nat (Datatypes.S (length l))) s (Some f) at_ (put f (w16 p, w16 (Z.of_nat (Datatypes.S (length l)))) u)).
  { rewrite (scan_run s f F NA ND l r (p + 1)); [|exact ST|unfold small; rewrite get_put; lia]. unfold bumpn. rewrite get_put, put_put. f_equal; [lia|]. do 3 f_equal. lia. }
  assert (Y : match old with Some g => fld_eqb f g | None => false end = false) by (destruct old as [g|]; [|reflexivity]; destruct f, g; try reflexivity; congruence).
  destruct s; try discriminate F; try congruence; cbn [field_of] in *; inv F; rewrite Y; exact X.
Qed.
(** A delimiter. *)
Lemma scan_delim s0 s c r p old at_ u : url_char s0 c = s -> field_of s = None -> s <> UDead -> scan (c :: r) p s0 old at_ u = scan r (p + 1) s old at_ u.
Proof. intros E F ND. cbn [scan]. rewrite E. destruct s; try discriminate F; try congruence; reflexivity. Qed.

(** ** From a state on: what is accepted and which fields come out *)
Definition with_field (f : fld) (p : Z) (l : list Z) (u : urlf) : urlf := match l with [] => u | _ => put f (w16 p, w16 (Z.of_nat (length l))) u end.
Definition frag_off (f : list Z) : Z := Z.of_nat (length f) - Z.of_nat (length (strip f)).
Lemma strip_forall (P : Z -> Prop) l : Forall P l -> Forall P (strip l).
Proof. induction 1 as [|c l H F IH]; cbn; [constructor|]. destruct (c =? 35); [exact IH|]. constructor; assumption. Qed.
Lemma scan_frag f : Forall fchar f -> forall p old at_ u, old <> Some FFragment -> scan f p UFragStart old at_ u = Some (at_, with_field FFragment (p + frag_off f) (strip f) u).
Proof.
  induction 1 as [|c l P F IH]; intros p old at_ u O; [reflexivity|]. unfold frag_off in *. cbn [strip]. pose proof (step_frag_start c P) as E. destruct (Z.eqb_spec c 35) as [->|N].
  - rewrite (scan_delim UFragStart UFragStart 35 l p old at_ u E eq_refl) by discriminate. rewrite IH by exact O. do 3 f_equal. cbn [length]. lia.
  - rewrite <- (app_nil_r l) at 1. rewrite (scan_first UFragStart UFrag FFragment c l [] p old at_ u E eq_refl); try discriminate; [|exact O|intros d D; apply step_frag; rewrite Forall_forall in F; now apply F].
    cbn [scan with_field]. rewrite Z.sub_diag, Z.add_0_r. reflexivity.
Qed.
Definition frag_field (p : Z) (f : option (list Z)) (u : urlf) : urlf := match f with Some f => with_field FFragment (p + 1 + frag_off f) (strip f) u | None => u end.
(** After the path: query and fragment; [s] is a state in which '#' starts the fragment. *)
Lemma scan_tail_frag s f p old at_ u : match f with Some f => Forall fchar f | None => True end -> url_char s 35 = UFragStart -> old <> Some FFragment ->
  scan (opt [35] f) p s old at_ u = Some (at_, frag_field p f u).
Proof.
  intros F E O. destruct f as [f|]; [|reflexivity]. cbn [opt app]. rewrite (scan_delim s UFragStart 35 f p old at_ u E eq_refl) by discriminate. now rewrite scan_frag.
Qed.
Definition query_field (p : Z) (q : option (list Z)) (u : urlf) : urlf := match q with Some q => with_field FQuery (p + 1) q u | None => u end.
Lemma scan_query s q f p old at_ u : match q with Some q => Forall qchar q | None => True end -> match f with Some f => Forall fchar f | None => True end ->
  url_char s 63 = UQueryStart -> (q = None -> f = None \/ url_char s 35 = UFragStart) -> old <> Some FQuery -> old <> Some FFragment ->
  scan (opt [63] q ++ opt [35] f) p s old at_ u = Some (at_, frag_field (p + Z.of_nat (length (opt [63] q))) f (query_field p q u)).
Proof.
  intros Q F E NF O O2. destruct q as [q|]; cbn [opt app length].
  - rewrite (scan_delim s UQueryStart 63 _ p old at_ u E eq_refl) by discriminate. destruct q as [|c q]; cbn [app query_field with_field length].
    + rewrite scan_tail_frag; [|exact F|reflexivity|exact O2]. reflexivity.
    + inv Q. rewrite (scan_first UQueryStart UQuery FQuery c q (opt [35] f) (p + 1)); try reflexivity; try discriminate; [|now apply step_query|exact O|intros d D; apply step_query; rewrite Forall_forall in *; auto].
      rewrite scan_tail_frag; [|exact F|reflexivity|discriminate]. cbn [length]. do 3 f_equal. lia.
  - destruct (NF eq_refl) as [->|E2]; [cbn; reflexivity|]. rewrite scan_tail_frag by assumption. rewrite Z.add_0_r. reflexivity.
Qed.
(** From a state in which [c] starts the path. *)
Lemma scan_rest s c t q f p old at_ u : url_char s c = UPath -> Forall pchar t -> match q with Some q => Forall qchar q | None => True end -> match f with Some f => Forall fchar f | None => True end ->
  old <> Some FPath -> old <> Some FQuery -> old <> Some FFragment ->
  scan ((c :: t) ++ opt [63] q ++ opt [35] f) p s old at_ u =
  Some (at_, let p1 := p + Z.of_nat (length (c :: t)) in frag_field (p1 + Z.of_nat (length (opt [63] q))) f (query_field p1 q (with_field FPath p (c :: t) u))).
Proof.
  intros E T Q F O1 O2 O3. cbn [app]. rewrite (scan_first s UPath FPath c t _ p old at_ u E eq_refl); try discriminate; [|exact O1|intros d D; apply step_path; rewrite Forall_forall in T; now apply T].
  rewrite scan_query; [|exact Q|exact F|reflexivity|right; reflexivity|discriminate|discriminate]. reflexivity.
Qed.

(** ** The authority in the first pass *)
Definition achar (c : Z) : Prop := uchar c \/ c = 91 \/ c = 93 \/ c = 64.
(** No '@' directly after another. *)
Fixpoint no_double (prev : bool) (l : list Z) : Prop := match l with [] => True | c :: l => (prev = true -> c <> 64) /\ no_double (c =? 64) l end.
Definition server_state (b : bool) : ust := if b then UServerAt else UServer.
Lemma step_server c : achar c -> server_char c = server_state (c =? 64).
Proof.
  intros A. unfold server_char, server_state. destruct A as [U|[->|[->| ->]]]; try reflexivity. pose proof (uchar_range c U).
  destruct (Z.eqb_spec c 47), (Z.eqb_spec c 63), (Z.eqb_spec c 64); try lia. now rewrite (proj2 (user_spec c) U).
Qed.
Lemma achar_ws c : achar c -> (c =? 32) || (c =? 13) || (c =? 10) || (c =? 9) || (c =? 12) = false.
Proof. intros A. apply not_ws. destruct A as [U|[->|[->| ->]]]; try lia. apply uchar_range in U. lia. Qed.
Lemma url_char_server b c : achar c -> (b = true -> c <> 64) -> url_char (server_state b) c = server_state (c =? 64).
Proof.
  intros A N. unfold url_char. rewrite (achar_ws c A). destruct b; cbn [server_state]; [|now apply step_server].
  destruct (Z.eqb_spec c 64) as [E|E]; [exfalso; exact (N eq_refl E)|]. rewrite (step_server c A). destruct (Z.eqb_spec c 64); [congruence|reflexivity].
Qed.
Fixpoint last_at (b : bool) (l : list Z) : bool := match l with [] => b | c :: l => last_at (c =? 64) l end.
Definition has_at (l : list Z) : bool := existsb (fun c => c =? 64) l.
Lemma scan_auth l : forall r p b at_ u, Forall achar l -> no_double b l -> small u FHost ->
  scan (l ++ r) p (server_state b) (Some FHost) at_ u = scan r (p + Z.of_nat (length l)) (server_state (last_at b l)) (Some FHost) (at_ || has_at l) (bumpn FHost (Z.of_nat (length l)) u).
Proof.
  induction l as [|c l IH]; intros r p b at_ u A N SM; cbn [app length last_at]; [rewrite Z.add_0_r, orb_false_r, bumpn_0 by exact SM; reflexivity|].
  inv A. destruct N as [N1 N2]. cbn [scan]. rewrite (url_char_server b c) by assumption.
  assert (X : forall a, scan (l ++ r) (p + 1) (server_state (c =? 64)) (Some FHost) a (bump FHost u) =
    scan r (p + Z.of_nat (S (length l))) (server_state (last_at (c =? 64) l)) (Some FHost) (a || has_at l) (bumpn FHost (Z.of_nat (S (length l))) u)).
  { intros a. rewrite IH; [|assumption|exact N2|now apply small_bump]. rewrite (bump_bumpn FHost (Z.of_nat (length l)) (Z.of_nat (S (length l)))); [|unfold small in SM; destruct (get FHost u); [congruence|tauto]|lia].
    f_equal. lia. }
  unfold has_at in *. cbn [existsb]. destruct (Z.eqb_spec c 64) as [->|E]; [etransitivity; [exact (X true)|rewrite orb_true_r; reflexivity]|exact (X at_)].
Qed.
(** The first character of the authority. *)
Lemma scan_auth0 c l r p old at_ u : Forall achar (c :: l) -> no_double false (c :: l) -> old <> Some FHost ->
  scan ((c :: l) ++ r) p UServerStart old at_ u =
  scan r (p + Z.of_nat (length (c :: l))) (server_state (last_at false (c :: l))) (Some FHost) (at_ || has_at (c :: l)) (put FHost (w16 p, w16 (Z.of_nat (length (c :: l)))) u).
Proof.
  intros A N O. inv A. destruct N as [_ N2]. cbn [app scan]. assert (E : url_char UServerStart c = server_state (c =? 64)) by (apply (url_char_server false c); [assumption|discriminate]). rewrite E.
  assert (Y : match old with Some g => fld_eqb FHost g | None => false end = false) by (destruct old as [[]|]; try reflexivity; congruence).
  assert (X : forall a, scan (l ++ r) (p + 1) (server_state (c =? 64)) (Some FHost) a (put FHost (w16 p, 1) u) =
    scan r (p + Z.of_nat (S (length l))) (server_state (last_at (c =? 64) l)) (Some FHost) (a || has_at l) (put FHost (w16 p, w16 (Z.of_nat (S (length l)))) u)).
  { intros a. rewrite scan_auth; [|assumption|exact N2|unfold small; rewrite get_put; lia]. unfold bumpn. rewrite get_put, put_put. f_equal; [lia|]. do 3 f_equal. lia. }
  unfold has_at in *. cbn [existsb last_at length]. destruct (Z.eqb_spec c 64) as [->|NE]; cbn [server_state field_of]; rewrite Y; [etransitivity; [exact (X true)|rewrite orb_true_r; reflexivity]|exact (X at_)].
Qed.

(** ** What the first pass accepts *)
Fixpoint alive (s : ust) (l : list Z) : Prop := match l with [] => True | c :: l => url_char s c <> UDead /\ alive (url_char s c) l end.
Lemma scan_alive l : forall p s old at_ u x, scan l p s old at_ u = Some x -> alive s l.
Proof.
  induction l as [|c l IH]; intros p s old at_ u x; cbn [scan alive]; [trivial|]. destruct (url_char s c) eqn:E; try discriminate; intros H; (split; [discriminate|]);
    cbn [field_of] in H; repeat match type of H with (if ?b then _ else _) = _ => destruct b end; eapply IH; eauto.
Qed.
Ltac step_cases H :=
  unfold url_char in H; destruct ((_ =? 32) || _ || _ || _ || _); [tauto|]; cbn iota beta in H.
Lemma alive_frag l : forall s, s = UFrag \/ s = UFragStart -> alive s l -> Forall fchar l.
Proof.
  induction l as [|c l IH]; intros s S; cbn [alive]; [constructor|]. intros [D A].
  assert (X : fchar c /\ (url_char s c = UFrag \/ url_char s c = UFragStart)).
  { destruct S as [->| ->]; revert D; unfold url_char; (destruct ((c =? 32) || (c =? 13) || (c =? 10) || (c =? 9) || (c =? 12)); [intros []; reflexivity|]);
      (destruct (is_url_char c) eqn:U; [apply urlc_spec in U; split; [left; exact U|auto]|]); destruct (Z.eqb_spec c 63) as [->|]; cbn [orb] in *; try (split; [unfold fchar; solve [auto]|solve [auto]]);
      destruct (Z.eqb_spec c 35) as [->|]; try (split; [unfold fchar; solve [auto]|solve [auto]]); intros []; reflexivity. }
  destruct X as [X Y]. constructor; [exact X|]. eapply IH; eauto.
Qed.
Definition fopt (f : option (list Z)) : Prop := match f with Some f => Forall fchar f | None => True end.
Definition qopt (q : option (list Z)) : Prop := match q with Some q => Forall qchar q | None => True end.
Lemma alive_query l : forall s, s = UQuery \/ s = UQueryStart -> alive s l -> exists q f, l = q ++ opt [35] f /\ Forall qchar q /\ fopt f.
Proof.
  induction l as [|c l IH]; intros s S; cbn [alive]; [exists [], None; repeat constructor|]. intros [D A].
  assert (X : (qchar c /\ url_char s c = UQuery) \/ (c = 35 /\ url_char s c = UFragStart)).
  { destruct S as [->| ->]; revert D; unfold url_char; (destruct ((c =? 32) || (c =? 13) || (c =? 10) || (c =? 9) || (c =? 12)); [intros []; reflexivity|]);
      (destruct (is_url_char c) eqn:U; [apply urlc_spec in U; left; split; [left; exact U|auto]|]); destruct (Z.eqb_spec c 63) as [->|]; try (left; split; [right; reflexivity|reflexivity]);
      destruct (Z.eqb_spec c 35) as [->|]; try (right; auto; fail); intros []; reflexivity. }
  destruct X as [[Q E]|[-> E] ]; rewrite E in A.
  - destruct (IH UQuery (or_introl eq_refl) A) as (q & f & -> & Q' & F). exists (c :: q), f. split; [reflexivity|]. split; [now constructor|exact F].
  - exists [], (Some l). split; [reflexivity|]. split; [constructor|]. exact (alive_frag l UFragStart (or_intror eq_refl) A).
Qed.
Lemma alive_path l : alive UPath l -> exists t q f, l = t ++ opt [63] q ++ opt [35] f /\ Forall pchar t /\ qopt q /\ fopt f.
Proof.
  induction l as [|c l IH]; cbn [alive]; [exists [], None, None; repeat constructor|]. intros [D A].
  assert (X : (pchar c /\ url_char UPath c = UPath) \/ (c = 63 /\ url_char UPath c = UQueryStart) \/ (c = 35 /\ url_char UPath c = UFragStart)).
  { revert D; unfold url_char. destruct ((c =? 32) || (c =? 13) || (c =? 10) || (c =? 9) || (c =? 12)); [intros []; reflexivity|].
    destruct (is_url_char c) eqn:U; [apply urlc_spec in U; auto|]. destruct (Z.eqb_spec c 63) as [->|]; [auto|]. destruct (Z.eqb_spec c 35) as [->|]; [auto|]. intros []; reflexivity. }
  destruct X as [[P E]|[[-> E]|[-> E] ] ]; rewrite E in A.
  - destruct (IH A) as (t & q & f & -> & T & QF). exists (c :: t), q, f. split; [reflexivity|]. split; [now constructor|exact QF].
  - destruct (alive_query l UQueryStart (or_intror eq_refl) A) as (q & f & -> & Q & F). exists [], (Some q), f. split; [reflexivity|]. split; [constructor|]. split; assumption.
  - exists [], None, (Some l). split; [reflexivity|]. split; [constructor|]. split; [exact I|]. exact (alive_frag l UFragStart (or_intror eq_refl) A).
Qed.
(** What may follow the authority. *)
Definition after_auth (r : list Z) : Prop := exists t q f, r = t ++ opt [63] q ++ opt [35] f /\ Forall pchar t /\ qopt q /\ fopt f /\ (t = [] \/ exists t', t = 47 :: t') /\ (t = [] -> q = None -> f = None).
Lemma pchar_slash : pchar 47. Proof. unfold pchar. lia. Qed.
Lemma alive_server l : forall b, alive (server_state b) l -> exists a r, l = a ++ r /\ Forall achar a /\ no_double b a /\ after_auth r.
Proof.
  induction l as [|c l IH]; intros b; cbn [alive].
  { intros _. exists [], []. split; [reflexivity|]. split; [constructor|]. split; [exact I|]. exists [], None, None. repeat split; auto. }
  intros [D A]. assert (X : (achar c /\ (b = true -> c <> 64) /\ url_char (server_state b) c = server_state (c =? 64)) \/ (c = 47 /\ url_char (server_state b) c = UPath) \/ (c = 63 /\ url_char (server_state b) c = UQueryStart)).
  { assert (Y : server_char c <> UDead -> achar c \/ (c = 47 /\ server_char c = UPath) \/ (c = 63 /\ server_char c = UQueryStart)).
    { unfold server_char. destruct (Z.eqb_spec c 47); [auto|]. destruct (Z.eqb_spec c 63); [auto|]. destruct (Z.eqb_spec c 64) as [->|]; [left; unfold achar; auto|].
      destruct (is_userinfo_char c) eqn:U; [apply user_spec in U; left; left; exact U|]. destruct (Z.eqb_spec c 91) as [->|]; [left; unfold achar; auto|]. destruct (Z.eqb_spec c 93) as [->|]; [left; unfold achar; auto|]. cbn. congruence. }
    assert (E : b = true /\ c = 64 \/ url_char (server_state b) c = (if (c =? 32) || (c =? 13) || (c =? 10) || (c =? 9) || (c =? 12) then UDead else server_char c)).
    { unfold url_char. destruct b; cbn [server_state]; [|right; reflexivity]. destruct (Z.eqb_spec c 64) as [->|]; [left; auto|]. right. reflexivity. }
    destruct E as [[-> ->]|E]; [exfalso; apply D; reflexivity|]. rewrite E in D.
    assert (W : (c =? 32) || (c =? 13) || (c =? 10) || (c =? 9) || (c =? 12) = false) by (destruct ((c =? 32) || (c =? 13) || (c =? 10) || (c =? 9) || (c =? 12)); [congruence|reflexivity]).
    rewrite W in *. destruct (Y D) as [AC|[ [-> Z]|[-> Z] ] ]; [|right; left; split; [reflexivity|rewrite E; exact Z]|right; right; split; [reflexivity|rewrite E; exact Z]].
    left. split; [exact AC|]. assert (N : b = true -> c <> 64). { intros -> ->. cbn in E. discriminate E. } split; [exact N|]. now apply url_char_server. }
  destruct X as [(AC & N & E)|[ [-> E]|[-> E] ] ]; rewrite E in A.
  - destruct (IH _ A) as (a & r & -> & AA & ND & R). exists (c :: a), r. split; [reflexivity|]. split; [now constructor|]. split; [split; assumption|exact R].
  - destruct (alive_path l A) as (t & q & f & -> & T & Q & F). exists [], (47 :: t ++ opt [63] q ++ opt [35] f). split; [reflexivity|]. split; [constructor|]. split; [exact I|].
    exists (47 :: t), q, f. split; [reflexivity|]. split; [constructor; [exact pchar_slash|exact T]|]. split; [exact Q|]. split; [exact F|]. split; [right; eauto|discriminate].
  - destruct (alive_query l UQueryStart (or_intror eq_refl) A) as (q & f & -> & Q & F). exists [], (63 :: q ++ opt [35] f). split; [reflexivity|]. split; [constructor|]. split; [exact I|].
    exists [], (Some q), f. split; [reflexivity|]. split; [constructor|]. split; [exact Q|]. split; [exact F|]. split; [auto|discriminate].
Qed.

Lemma alive_schema l : alive USchema l -> exists s r, l = s ++ r /\ Forall letter s /\ (r = [] \/ r = [58] \/ r = [58; 47] \/ exists r', r = 58 :: 47 :: 47 :: r' /\ alive UServer r').
Proof.
  induction l as [|c l IH]; cbn [alive]; [exists [], []; repeat split; auto|]. intros [D A].
  assert (X : (letter c /\ url_char USchema c = USchema) \/ (c = 58 /\ url_char USchema c = USlash)).
  { revert D; unfold url_char. destruct ((c =? 32) || (c =? 13) || (c =? 10) || (c =? 9) || (c =? 12)); [intros []; reflexivity|].
    destruct (is_alpha c) eqn:U; [apply alpha_spec in U; auto|]. destruct (Z.eqb_spec c 58) as [->|]; [auto|]. intros []; reflexivity. }
  destruct X as [[P E]|[-> E] ]; rewrite E in A.
  - destruct (IH A) as (s & r & -> & S & R). exists (c :: s), r. split; [reflexivity|]. split; [now constructor|exact R].
  - exists [], (58 :: l). split; [reflexivity|]. split; [constructor|]. clear E D IH. destruct l as [|d l]; [auto|]. cbn [alive] in A. destruct A as [D A].
    assert (d = 47) as ->. { revert D; unfold url_char. destruct ((d =? 32) || (d =? 13) || (d =? 10) || (d =? 9) || (d =? 12)); [intros []; reflexivity|]. destruct (Z.eqb_spec d 47); [auto|intros []; reflexivity]. }
    change (url_char USlash 47) with USlashSlash in A. destruct l as [|e l]; [auto|]. cbn [alive] in A. destruct A as [D2 A].
    assert (e = 47) as ->. { revert D2; unfold url_char. destruct ((e =? 32) || (e =? 13) || (e =? 10) || (e =? 9) || (e =? 12)); [intros []; reflexivity|]. destruct (Z.eqb_spec e 47); [auto|intros []; reflexivity]. }
    change (url_char USlashSlash 47) with UServerStart in A. right; right; right. exists l. split; [reflexivity|]. destruct l; exact A.
Qed.
Lemma alive_start l : alive USpaces l -> l = [] \/ (exists c t, l = c :: t /\ (c = 47 \/ c = 42) /\ alive UPath t) \/ (exists c t, l = c :: t /\ letter c /\ alive USchema t).
Proof.
  destruct l as [|c l]; [auto|]. cbn [alive]. intros [D A]. right.
  assert (X : ((c = 47 \/ c = 42) /\ url_char USpaces c = UPath) \/ (letter c /\ url_char USpaces c = USchema)).
  { revert D; unfold url_char. destruct ((c =? 32) || (c =? 13) || (c =? 10) || (c =? 9) || (c =? 12)); [intros []; reflexivity|].
    destruct (Z.eqb_spec c 47); [auto|]. destruct (Z.eqb_spec c 42); [auto|]. cbn [orb]. destruct (is_alpha c) eqn:U; [apply alpha_spec in U; auto|]. intros []; reflexivity. }
  destruct X as [[P E]|[P E] ]; rewrite E in A; [left|right]; exists c, l; auto.
Qed.

(** ** The first pass of a whole text *)
Definition rest_fields (p : Z) (t : list Z) (q f : option (list Z)) (u : urlf) : urlf :=
  let p1 := p + Z.of_nat (length t) in frag_field (p1 + Z.of_nat (length (opt [63] q))) f (query_field p1 q (with_field FPath p t u)).
Lemma scan_after s t q f p old at_ u : url_char s 47 = UPath -> url_char s 63 = UQueryStart -> Forall pchar t -> qopt q -> fopt f -> (t = [] \/ exists t', t = 47 :: t') -> (t = [] -> q = None -> f = None) ->
  old <> Some FPath -> old <> Some FQuery -> old <> Some FFragment -> scan (t ++ opt [63] q ++ opt [35] f) p s old at_ u = Some (at_, rest_fields p t q f u).
Proof.
  intros E1 E2 T Q F [->|(t' & ->)] NF O1 O2 O3.
  - cbn [app]. rewrite scan_query; try assumption; [unfold rest_fields; cbn [length with_field]; rewrite !Z.add_0_r; reflexivity|]. intros H. left. exact (NF eq_refl H).
  - inv T. rewrite (scan_rest s 47 t' q f p old at_ u); auto.
Qed.
Lemma scan_origin c t q f : (c = 47 \/ c = 42) -> Forall pchar t -> qopt q -> fopt f ->
  scan ((c :: t) ++ opt [63] q ++ opt [35] f) 0 USpaces None false no_fields = Some (false, rest_fields 0 (c :: t) q f no_fields).
Proof. intros C T Q F. rewrite (scan_rest USpaces c t q f 0 None false no_fields); auto; try discriminate. destruct C as [->| ->]; reflexivity. Qed.
Lemma scan_abs c s a t q f : Forall letter (c :: s) -> Forall achar a -> no_double false a -> Forall pchar t -> qopt q -> fopt f -> (t = [] \/ exists t', t = 47 :: t') -> (t = [] -> q = None -> f = None) ->
  scan ((c :: s) ++ [58; 47; 47] ++ a ++ t ++ opt [63] q ++ opt [35] f) 0 USpaces None false no_fields =
  Some (has_at a, let p := Z.of_nat (length (c :: s)) + 3 in rest_fields (p + Z.of_nat (length a)) t q f (with_field FHost p a (with_field FSchema 0 (c :: s) no_fields))).
Proof.
  intros S A N T Q F R NF. inv S. cbn [app]. rewrite (scan_first USpaces USchema FSchema c s _ 0 None false no_fields); try discriminate; try reflexivity; [|now apply step_schema|intros d D; rewrite Forall_forall in *; apply step_schema; auto].
  rewrite (scan_delim USchema USlash 58) by (reflexivity || discriminate). rewrite (scan_delim USlash USlashSlash 47) by (reflexivity || discriminate). rewrite (scan_delim USlashSlash UServerStart 47) by (reflexivity || discriminate).
  rewrite Z.add_0_l. set (p := Z.of_nat (Datatypes.S (length s)) + 1 + 1 + 1). replace (Z.of_nat (length (c :: s)) + 3) with p by (cbn [length]; unfold p; lia). destruct a as [|x a].
  - cbn [app length with_field has_at existsb]. rewrite scan_after; try assumption; try reflexivity; try discriminate; rewrite ?Z.add_0_r; try reflexivity.
  - rewrite scan_auth0; try assumption; try discriminate. rewrite orb_false_l. rewrite scan_after; try assumption; try discriminate; [reflexivity| |]; destruct (last_at false (x :: a)); reflexivity.
Qed.

(** ** The second pass: the authority *)
Definition hfield (s : hst) : option fld := match s with HHost | HV6 | HZone => Some FHost | HPort => Some FPort | HUser => Some FUserinfo | _ => None end.
Lemma hrun s f : hfield s = Some f -> forall l r p u, (forall c, In c l -> host_char s c = s) -> small u f ->
  scan_host (l ++ r) p s u = scan_host r (p + Z.of_nat (length l)) s (bumpn f (Z.of_nat (length l)) u).
Proof.
  intros F. induction l as [|c l IH]; intros r p u S SM; cbn [app length]; [rewrite Z.add_0_r, bumpn_0 by exact SM; reflexivity|].
  cbn [scan_host]. rewrite (S c (or_introl eq_refl)). assert (X : scan_host (l ++ r) (p + 1) s (bump f u) = scan_host r (p + Z.of_nat (Datatypes.S (length l))) s (bumpn f (Z.of_nat (Datatypes.S (length l))) u)).
  { rewrite IH; [|intros d D; apply S; right; exact D|now apply small_bump]. rewrite (bump_bumpn f (Z.of_nat (length l)) (Z.of_nat (Datatypes.S (length l)))); [|unfold small in SM; destruct (get f u); [congruence|tauto]|lia]. f_equal. lia. }
  destruct s; try discriminate F; cbn [hfield] in F; inv F; exact X.
Qed.
Lemma hrun_put s f : hfield s = Some f -> forall l r p u o n, (forall c, In c l -> host_char s c = s) -> 0 <= n < 65536 ->
  scan_host (l ++ r) p s (put f (o, n) u) = scan_host r (p + Z.of_nat (length l)) s (put f (o, w16 (n + Z.of_nat (length l))) u).
Proof. intros F l r p u o n S N. rewrite (hrun s f F l r p); [|exact S|unfold small; rewrite get_put; exact N]. unfold bumpn. now rewrite get_put, put_put. Qed.
Lemma h_user t r p u : Forall uchar t -> scan_host (t ++ 64 :: r) p HUserStart u = scan_host r (p + Z.of_nat (length t) + 1) HHostStart (with_field FUserinfo p t u).
Proof.
  intros U. assert (ST : forall c, uchar c -> host_char HUser c = HUser /\ host_char HUserStart c = HUser).
  { intros c C. cbn [host_char]. pose proof (uchar_range c C). destruct (Z.eqb_spec c 64); [lia|]. rewrite (proj2 (user_spec c) C). auto. }
  destruct t as [|c t]; cbn [app with_field length]; [cbn [scan_host]; change (host_char HUserStart 64) with HHostStart; cbn; rewrite ?Z.add_0_r; reflexivity|]. inv U.
  cbn [scan_host]. rewrite (proj2 (ST c H1)). cbn [host_fields hst_eqb]. unfold bump. rewrite get_put, put_put. rewrite hrun_put; [|reflexivity|intros d D; apply ST; rewrite Forall_forall in *; auto|unfold w16; cbn; lia].
  cbn [scan_host]. change (host_char HUser 64) with HHostStart. cbn [host_fields]. change (w16 (0 + 1)) with 1. f_equal; [lia|]. do 3 f_equal. lia.
Qed.
Definition port_ok (po : option (list Z)) : Prop := match po with Some p => p <> [] /\ Forall digit p | None => True end.
Definition port_field (p : Z) (po : option (list Z)) (u : urlf) : urlf := match po with Some d => with_field FPort (p + 1) d u | None => u end.
Lemma h_port s po p u : s = HHost \/ s = HV6End -> port_ok po -> scan_host (opt [58] po) p s u = Some (port_field p po u).
Proof.
  intros S P. destruct po as [d|]; cbn [opt app]; [|destruct S as [->| ->]; reflexivity]. cbn [scan_host]. assert (E : host_char s 58 = HPortStart) by (destruct S as [->| ->]; reflexivity). rewrite E. cbn [host_fields].
  destruct P as [N D]. destruct d as [|c d]; [congruence|]. inv D. assert (ST : forall c, digit c -> host_char HPort c = HPort /\ host_char HPortStart c = HPort) by (intros x X; cbn [host_char]; rewrite (proj2 (num_spec x) X); auto).
  cbn [scan_host]. rewrite (proj2 (ST c H1)). cbn [host_fields hst_eqb]. unfold bump. rewrite get_put, put_put. rewrite <- (app_nil_r d) at 1. rewrite hrun_put; [|reflexivity|intros x X; apply ST; rewrite Forall_forall in *; auto|unfold w16; cbn; lia].
  cbn [scan_host port_field with_field length]. change (w16 (0 + 1)) with 1. do 4 f_equal. lia.
Qed.
Lemma set_off_put p o n u : set_off FHost p (put FHost (o, n) u) = put FHost (w16 p, n) u.
Proof. unfold set_off. now rewrite get_put, put_put. Qed.
Lemma name_range c : name_char c -> c <> 91 /\ c <> 58 /\ c <> 93. Proof. unfold name_char, letter, digit. lia. Qed.
Lemma v6_range c : v6_char c -> c <> 93 /\ c <> 37. Proof. unfold v6_char, hexdigit, digit. lia. Qed.
Lemma z_range c : zchar c -> c <> 93. Proof. unfold zchar, letter, digit. cbn [In]. lia. Qed.
Definition bracket (h : host_part) : Z := match h with Name _ => 0 | V6 _ _ => 1 end.
Lemma h_host h po p o u : host_ok h -> port_ok po ->
  scan_host (show_host h ++ opt [58] po) p HHostStart (put FHost (o, 0) u) =
  Some (port_field (p + Z.of_nat (length (show_host h))) po (put FHost (w16 (p + bracket h), w16 (Z.of_nat (length (host_inner h)))) u)).
Proof.
  intros H P. destruct h as [n|a z]; cbn [show_host host_inner bracket].
  - destruct H as [NE N]. destruct n as [|c n]; [congruence|]. inv N. assert (ST : forall c, name_char c -> host_char HHost c = HHost /\ host_char HHostStart c = HHost).
    { intros x X. cbn [host_char]. pose proof (name_range x X). rewrite (proj2 (hostc_spec x) X). destruct (Z.eqb_spec x 91); [lia|]. auto. }
    cbn [app scan_host]. rewrite (proj2 (ST c H1)). cbn [host_fields hst_eqb]. rewrite set_off_put. unfold bump. rewrite get_put, put_put. rewrite hrun_put; [|reflexivity|intros d D; apply ST; rewrite Forall_forall in *; auto|unfold w16; cbn; lia].
    rewrite h_port; auto. change (w16 (0 + 1)) with 1. rewrite Z.add_0_r. cbn [length]. do 2 f_equal; [lia|]. do 3 f_equal. lia.
  - destruct H as (NE & A & ZO). destruct a as [|c a]; [congruence|]. inv A. assert (ST : forall c, v6_char c -> host_char HV6 c = HV6 /\ host_char HV6Start c = HV6).
    { intros x X. cbn [host_char]. pose proof (v6_range x X). rewrite (proj2 (v6_spec x) X). destruct (Z.eqb_spec x 93); [lia|]. auto. }
    cbn [app scan_host]. change (host_char HHostStart 91) with HV6Start. cbn [host_fields]. cbn [app scan_host]. rewrite (proj2 (ST c H1)). cbn [host_fields hst_eqb]. rewrite set_off_put. unfold bump. rewrite get_put, put_put.
    rewrite <- !app_assoc. rewrite hrun_put; [|reflexivity|intros d D; apply ST; rewrite Forall_forall in *; auto|unfold w16; cbn; lia]. change (w16 (0 + 1)) with 1. destruct z as [z|]; cbn [opt app].
    + destruct ZO as [ZN ZO]. destruct z as [|e z]; [congruence|]. inv ZO. assert (SZ : forall c, zchar c -> host_char HZone c = HZone /\ host_char HZoneStart c = HZone).
      { intros x X. cbn [host_char]. pose proof (z_range x X). rewrite (proj2 (zone_spec x) X). destruct (Z.eqb_spec x 93); [lia|]. auto. }
      cbn [scan_host]. change (host_char HV6 37) with HZoneStart. cbn [host_fields]. unfold bump at 1. rewrite get_put, put_put. cbn [app scan_host]. rewrite (proj2 (SZ e H3)). cbn [host_fields]. unfold bump. rewrite get_put, put_put.
      rewrite hrun_put; [|reflexivity|intros d D; apply SZ; rewrite Forall_forall in *; auto|unfold w16; pose proof (Z.mod_pos_bound ((1 + Z.of_nat (length a)) mod 65536 + 1) 65536); pose proof (Z.mod_pos_bound ((((1 + Z.of_nat (length a)) mod 65536 + 1) mod 65536) + 1) 65536); lia].
      cbn [app scan_host]. change (host_char HZone 93) with HV6End. cbn [host_fields]. rewrite h_port; auto. rewrite !w16_add, <- !Z.add_assoc, !w16_add. cbn [length]. rewrite !app_length. cbn [length]. rewrite !app_length. cbn [length]. f_equal. f_equal; [lia|]. f_equal. f_equal. f_equal. lia.
    + cbn [scan_host]. change (host_char HV6 93) with HV6End. cbn [host_fields]. rewrite h_port; auto. cbn [length]. rewrite !app_length. cbn [length]. do 2 f_equal; [lia|]. do 3 f_equal; lia.
Qed.

Definition hok (s : hst) (l : list Z) : Prop := exists p u x, scan_host l p s u = Some x.
Lemma hok_step s c l : hok s (c :: l) -> host_char s c <> HDead /\ hok (host_char s c) l.
Proof. intros (p & u & x & E). cbn [scan_host] in E. destruct (host_char s c) eqn:D; try discriminate E; (split; [discriminate|]); unfold hok; eauto. Qed.
Lemma hok_nil s : hok s [] -> s = HDead \/ s = HHost \/ s = HV6End \/ s = HPort.
Proof. intros (p & u & x & E). destruct s; try discriminate E; auto. Qed.
Lemma hok_port l : hok HPort l -> Forall digit l.
Proof.
  induction l as [|c l IH]; [constructor|]. intros H. apply hok_step in H. destruct H as [D H]. cbn [host_char] in *. destruct (is_num c) eqn:E; [|congruence]. constructor; [now apply num_spec|auto].
Qed.
Lemma hok_port0 l : hok HPortStart l -> l <> [] /\ Forall digit l.
Proof.
  destruct l as [|c l]; intros H; [apply hok_nil in H; intuition discriminate|]. split; [discriminate|]. apply hok_step in H. destruct H as [D H]. cbn [host_char] in *. destruct (is_num c) eqn:E; [|congruence]. constructor; [now apply num_spec|now apply hok_port].
Qed.
Lemma hok_end l : hok HV6End l -> exists po, l = opt [58] po /\ port_ok po.
Proof.
  destruct l as [|c l]; intros H; [exists None; split; [reflexivity|exact I]|]. apply hok_step in H. destruct H as [D H]. cbn [host_char] in *. destruct (Z.eqb_spec c 58) as [->|]; [|congruence]. exists (Some l). split; [reflexivity|now apply hok_port0].
Qed.
Lemma hok_name l : hok HHost l -> exists n po, l = n ++ opt [58] po /\ Forall name_char n /\ port_ok po.
Proof.
  induction l as [|c l IH]; intros H; [exists [], None; repeat split; auto|]. apply hok_step in H. destruct H as [D H]. cbn [host_char] in *. destruct (is_host_char c) eqn:E.
  - destruct (IH H) as (n & po & -> & N & P). exists (c :: n), po. split; [reflexivity|]. split; [constructor; [now apply hostc_spec|exact N]|exact P].
  - destruct (Z.eqb_spec c 58) as [->|]; [|congruence]. exists [], (Some l). split; [reflexivity|]. split; [constructor|now apply hok_port0].
Qed.
Lemma hok_zone l : hok HZone l -> exists z po, l = z ++ 93 :: opt [58] po /\ Forall zchar z /\ port_ok po.
Proof.
  induction l as [|c l IH]; intros H; [apply hok_nil in H; intuition discriminate|]. apply hok_step in H. destruct H as [D H]. cbn [host_char] in *. destruct (Z.eqb_spec c 93) as [->|].
  - destruct (hok_end l H) as (po & -> & P). exists [], po. repeat split; auto.
  - destruct (zone_char c) eqn:E; [|congruence]. destruct (IH H) as (z & po & -> & Z & P). exists (c :: z), po. split; [reflexivity|]. split; [constructor; [now apply zone_spec|exact Z]|exact P].
Qed.
Definition zone_ok (z : option (list Z)) : Prop := match z with Some z => z <> [] /\ Forall zchar z | None => True end.
Lemma hok_v6 l : hok HV6 l -> exists a z po, l = a ++ opt [37] z ++ 93 :: opt [58] po /\ Forall v6_char a /\ zone_ok z /\ port_ok po.
Proof.
  induction l as [|c l IH]; intros H; [apply hok_nil in H; intuition discriminate|]. apply hok_step in H. destruct H as [D H]. cbn [host_char] in *. destruct (Z.eqb_spec c 93) as [->|].
  - destruct (hok_end l H) as (po & -> & P). exists [], None, po. repeat split; auto.
  - destruct (is_hex c || (c =? 58) || (c =? 46)) eqn:E.
    + destruct (IH H) as (a & z & po & -> & A & Z & P). exists (c :: a), z, po. split; [reflexivity|]. split; [constructor; [now apply v6_spec|exact A]|]. split; assumption.
    + destruct (Z.eqb_spec c 37) as [->|]; [|congruence]. destruct l as [|d l]; [apply hok_nil in H; intuition discriminate|]. apply hok_step in H. destruct H as [D2 H]. cbn [host_char] in *. destruct (zone_char d) eqn:E2; [|congruence].
      destruct (hok_zone l H) as (z & po & -> & Z & P). exists [], (Some (d :: z)), po. split; [reflexivity|]. split; [constructor|]. split; [split; [discriminate|constructor; [now apply zone_spec|exact Z]]|exact P].
Qed.
Lemma hok_host l : hok HHostStart l -> exists h po, l = show_host h ++ opt [58] po /\ host_ok h /\ port_ok po.
Proof.
  destruct l as [|c l]; intros H; [apply hok_nil in H; intuition discriminate|]. apply hok_step in H. destruct H as [D H]. cbn [host_char] in *. destruct (Z.eqb_spec c 91) as [->|].
  - destruct l as [|d l]; [apply hok_nil in H; intuition discriminate|]. apply hok_step in H. destruct H as [D2 H]. cbn [host_char] in *. destruct (is_hex d || (d =? 58) || (d =? 46)) eqn:E; [|congruence].
    destruct (hok_v6 l H) as (a & z & po & -> & A & Z & P). exists (V6 (d :: a) z), po. cbn [show_host host_inner host_ok]. split; [cbn [app]; rewrite <- !app_assoc; reflexivity|]. split; [|exact P]. split; [discriminate|]. split; [constructor; [now apply v6_spec|exact A]|exact Z].
  - destruct (is_host_char c) eqn:E; [|congruence]. destruct (hok_name l H) as (nm & po & -> & N & P). exists (Name (c :: nm)), po. split; [reflexivity|]. split; [|exact P]. split; [discriminate|]. constructor; [now apply hostc_spec|exact N].
Qed.
Lemma hok_user l : forall s, s = HUser \/ s = HUserStart -> hok s l -> exists t r, l = t ++ 64 :: r /\ Forall uchar t /\ hok HHostStart r.
Proof.
  induction l as [|c l IH]; intros s S H; [apply hok_nil in H; destruct S as [->| ->]; intuition discriminate|]. apply hok_step in H. destruct H as [D H].
  assert (E : host_char s c = if c =? 64 then HHostStart else if is_userinfo_char c then HUser else HDead) by (destruct S as [->| ->]; reflexivity). rewrite E in *. destruct (Z.eqb_spec c 64) as [->|].
  - exists [], l. repeat split; auto.
  - destruct (is_userinfo_char c) eqn:U; [|congruence]. destruct (IH HUser (or_introl eq_refl) H) as (t & r & -> & T & R). exists (c :: t), r. split; [reflexivity|]. split; [constructor; [now apply user_spec|exact T]|exact R].
Qed.

(** ** Together *)
Lemma port_value_spec : forall l, Forall digit l -> forall v, 0 <= v <= 65535 -> port_value l v = let d := fold_left (fun v c => v * 10 + (c - 48)) l v in if d <=? 65535 then Some d else None.
Proof.
  assert (M : forall l, Forall digit l -> forall v, 0 <= v -> v <= fold_left (fun v c => v * 10 + (c - 48)) l v).
  { induction 1 as [|c l D F IH]; intros v V; cbn; [lia|]. unfold digit in D. specialize (IH (v * 10 + (c - 48))). lia. }
  induction 1 as [|c l D F IH]; intros v V; cbn [port_value fold_left]; [destruct (Z.leb_spec v 65535); [reflexivity|lia]|]. unfold digit in D. cbv zeta. destruct (Z.ltb_spec 65535 (v * 10 + (c - 48))).
  - pose proof (M l F (v * 10 + (c - 48))). destruct (Z.leb_spec (fold_left (fun v0 c0 => v0 * 10 + (c0 - 48)) l (v * 10 + (c - 48))) 65535); [lia|reflexivity].
  - apply IH. lia.
Qed.
(** The field of a piece at [p]. *)
Definition fat (p : Z) (l : list Z) : option field := match l with [] => None | _ => Some (p, Z.of_nat (length l)) end.
Definition ftext (buf : list Z) (f : option field) : option (list Z) := match f with Some (o, n) => Some (sub_text buf o n) | None => None end.
Definition piece (l : list Z) : option (list Z) := match l with [] => None | _ => Some l end.
Lemma sub_piece a l b : sub_text (a ++ l ++ b) (Z.of_nat (length a)) (Z.of_nat (length l)) = l.
Proof. unfold sub_text. rewrite !Nat2Z.id. replace (skipn (length a) (a ++ l ++ b)) with (l ++ b) by (induction a; [reflexivity|exact IHa]). induction l as [|c l IH]; [reflexivity|]. cbn [length app firstn]. f_equal. exact IH. Qed.
Lemma ftext_fat a l b p : p = Z.of_nat (length a) -> ftext (a ++ l ++ b) (fat p l) = piece l.
Proof. intros ->. destruct l as [|c l]; [reflexivity|]. unfold ftext, fat, piece. f_equal. apply sub_piece. Qed.
Lemma w16_small z : 0 <= z < 65536 -> w16 z = z. Proof. apply Z.mod_small. Qed.
Definition set_fat (f : fld) (p : Z) (l : list Z) (u : urlf) : urlf := match fat p l with Some v => put f v u | None => u end.
Lemma with_fat f p l u : 0 <= p -> p + Z.of_nat (length l) < 65536 -> with_field f p l u = set_fat f p l u.
Proof. intros P L. unfold with_field, set_fat, fat. destruct l as [|c l]; [reflexivity|]. cbn [length] in *. rewrite !w16_small by lia. reflexivity. Qed.
Definition ofat (p : Z) (o : option (list Z)) : option field := match o with Some l => fat p l | None => None end.
Lemma strip_len f : (length (strip f) <= length f)%nat. Proof. induction f as [|c f IH]; cbn; [lia|]. destruct (c =? 35); cbn; lia. Qed.
Definition frag_fat (p : Z) (f : option (list Z)) : option field := match f with Some f => fat (p + 1 + frag_off f) (strip f) | None => None end.
Lemma rest_fat p t q f a b c d n : 0 <= p -> p + Z.of_nat (length (t ++ opt [63] q ++ opt [35] f)) < 65536 ->
  rest_fields p t q f (mkurlf a b c None None None d n) =
  mkurlf a b c (fat p t) (ofat (p + Z.of_nat (length t) + 1) q) (frag_fat (p + Z.of_nat (length t) + Z.of_nat (length (opt [63] q))) f) d n.
Proof.
  intros P L. rewrite !app_length in L. unfold rest_fields, query_field, frag_field, ofat, frag_fat. rewrite with_fat by lia.
  assert (X : set_fat FPath p t (mkurlf a b c None None None d n) = mkurlf a b c (fat p t) None None d n) by (unfold set_fat, fat; destruct t; reflexivity). rewrite X. clear X.
  assert (Y : match q with Some q => with_field FQuery (p + Z.of_nat (length t) + 1) q (mkurlf a b c (fat p t) None None d n) | None => mkurlf a b c (fat p t) None None d n end =
    mkurlf a b c (fat p t) (match q with Some q => fat (p + Z.of_nat (length t) + 1) q | None => None end) None d n).
  { destruct q as [q|]; [|reflexivity]. cbn [opt app length] in L. rewrite with_fat by lia. unfold set_fat. set (x := fat p t). unfold fat. destruct q; reflexivity. }
  rewrite Y. clear Y. set (y := match q with Some q => fat (p + Z.of_nat (length t) + 1) q | None => None end). destruct f as [f|]; [|reflexivity]. pose proof (strip_len f). cbn [opt app length] in L. rewrite with_fat by (unfold frag_off; lia).
  unfold set_fat. set (x := fat p t). unfold fat. destruct (strip f); reflexivity.
Qed.

(** The targets without the bound on the port. *)
Definition auth_ok0 (a : authority) : Prop := match a_user a with Some t => Forall uchar t | None => True end /\ host_ok (a_host a) /\ port_ok (a_port a).
Definition uri_ok0 (u : uri) : Prop :=
  match i_auth u with
  | Some (s, a) => s <> [] /\ Forall letter s /\ auth_ok0 a /\ (i_path u = [] \/ exists p, i_path u = 47 :: p) /\ (i_path u = [] -> i_query u = None -> i_frag u = None)
  | None => exists p, i_path u = 47 :: p \/ i_path u = 42 :: p
  end /\ Forall pchar (i_path u) /\ qopt (i_query u) /\ fopt (i_frag u).
Definition port_num (u : uri) : Z := match i_auth u with Some (_, a) => match a_port a with Some p => dec p | None => 0 end | None => 0 end.
Lemma uri_ok_split i : uri_ok i <-> uri_ok0 i /\ port_num i <= 65535.
Proof.
  unfold uri_ok, uri_ok0, port_num, auth_ok, auth_ok0, qopt, fopt, port_ok. destruct (i_auth i) as [[s a]|]; [|split; intros; intuition lia]. destruct (a_port a) as [p|]; split; intros; intuition lia.
Qed.
Definition ulen (a : authority) : Z := Z.of_nat (length (show_user (a_user a))).
Definition user_fat (p : Z) (a : authority) : option field := match a_user a with Some t => fat p t | None => None end.
Definition fields_of (i : uri) : urlf :=
  match i_auth i with
  | None => mkurlf None None None (fat 0 (i_path i)) (ofat (0 + Z.of_nat (length (i_path i)) + 1) (i_query i)) (frag_fat (0 + Z.of_nat (length (i_path i)) + Z.of_nat (length (opt [63] (i_query i)))) (i_frag i)) None 0
  | Some (s, a) =>
      let p := Z.of_nat (length s) + 3 in let r := p + Z.of_nat (length (show_auth a)) in
      mkurlf (fat 0 s) (Some (p + ulen a + bracket (a_host a), Z.of_nat (length (host_inner (a_host a))))) (ofat (p + ulen a + Z.of_nat (length (show_host (a_host a))) + 1) (a_port a))
        (fat r (i_path i)) (ofat (r + Z.of_nat (length (i_path i)) + 1) (i_query i)) (frag_fat (r + Z.of_nat (length (i_path i)) + Z.of_nat (length (opt [63] (i_query i)))) (i_frag i)) (user_fat p a) (port_num i)
  end.
Lemma host_chars h c : host_ok h -> In c (show_host h) -> (uchar c \/ c = 91 \/ c = 93) /\ c <> 64.
Proof.
  assert (NC : forall c, name_char c -> uchar c) by (unfold name_char, uchar; cbn [In]; intros; intuition).
  assert (VC : forall c, v6_char c -> uchar c) by (unfold v6_char, hexdigit, uchar, letter, digit; cbn [In]; intros; intuition).
  assert (ZC : forall c, zchar c -> uchar c) by (unfold zchar, uchar; cbn [In]; intros; intuition).
  assert (UC : forall c, uchar c -> (uchar c \/ c = 91 \/ c = 93) /\ c <> 64) by (intros x X; split; [auto|apply uchar_range in X; lia]).
  destruct h as [n|a z]; cbn [host_ok show_host host_inner]; intros H I.
  - destruct H as [_ H]. rewrite Forall_forall in H. apply UC. auto.
  - destruct H as (_ & A & ZO). rewrite Forall_forall in A. apply in_app_or in I. destruct I as [[<-|[]]|I]; [split; [auto|lia]|]. apply in_app_or in I. destruct I as [I|[<-|[]]]; [|split; [auto|lia]].
    apply in_app_or in I. destruct I as [I|I]; [apply UC; auto|]. destruct z as [z|]; [|destruct I]. cbn in I. destruct I as [<-|I]; [split; [left; unfold uchar; cbn [In]; auto 20|lia]|]. destruct ZO as [_ ZO]. rewrite Forall_forall in ZO. apply UC. auto.
Qed.
Lemma host_show_cons h : host_ok h -> show_host h <> [].
Proof. destruct h; cbn; [intros [H _]; exact H|discriminate]. Qed.
Lemma auth_shape a : auth_ok0 a -> Forall achar (show_auth a) /\ no_double false (show_auth a) /\ has_at (show_auth a) = (match a_user a with Some _ => true | None => false end) /\ show_auth a <> [].
Proof.
  intros (U & H & P). set (l := show_host (a_host a) ++ opt [58] (a_port a)).
  assert (L : forall c, In c l -> (uchar c \/ c = 91 \/ c = 93) /\ c <> 64).
  { intros c I. apply in_app_or in I. destruct I as [I|I]; [exact (host_chars _ c H I)|]. destruct (a_port a) as [p|]; [|destruct I]. destruct P as [_ P]. rewrite Forall_forall in P. destruct I as [<-|I]; [split; [left; unfold uchar; cbn [In]; auto 20|lia]|].
    pose proof (P c I) as D. split; [left; unfold uchar; auto|unfold digit in D; lia]. }
  assert (LN : l <> []) by (unfold l; pose proof (host_show_cons _ H); destruct (show_host (a_host a)); [congruence|discriminate]).
  assert (ND : forall l b, (forall c, In c l -> c <> 64) -> no_double b l) by (induction l0 as [|c l0 IH]; cbn; [auto|intros b X; split; [intros _; apply X; auto|apply IH; auto]]).
  assert (HA : forall l, (forall c, In c l -> c <> 64) -> has_at l = false) by (induction l0 as [|c l0 IH]; cbn; [auto|intros X; destruct (Z.eqb_spec c 64) as [E|E]; [exfalso; exact (X c (or_introl eq_refl) E)|cbn; apply IH; auto]]).
  assert (LF : Forall achar l) by (apply Forall_forall; intros c I; unfold achar; destruct (L c I); tauto). unfold show_auth. fold l. destruct (a_user a) as [t|]; cbn [show_user].
  - rewrite <- app_assoc. rewrite Forall_forall in U. split; [|split; [|split]].
    + apply Forall_app. split; [apply Forall_forall; intros c I; left; auto|]. constructor; [unfold achar; auto|exact LF].
    + assert (G : forall t b, (forall x, In x t -> uchar x) -> (b = true -> t <> []) -> no_double b (t ++ [64] ++ l)).
      { induction t0 as [|c t0 IH]; intros b X B; cbn [app no_double]; [split; [intros E; exfalso; exact (B E eq_refl)|]|].
        - change (64 =? 64) with true. destruct l as [|e l']; [congruence|]. cbn [no_double]. split; [intros _; apply L; left; reflexivity|]. apply ND. intros x I. apply L. right. exact I.
        - assert (C : c <> 64) by (pose proof (uchar_range c (X c (or_introl eq_refl))); lia). split; [intros _; exact C|]. destruct (Z.eqb_spec c 64); [congruence|]. apply IH; [intros; apply X; right; assumption|discriminate]. }
      apply G; [exact U|discriminate].
    + unfold has_at. rewrite existsb_app. cbn [app existsb]. now rewrite orb_true_r.
    + destruct t; discriminate.
  - cbn [app]. split; [exact LF|]. split; [apply ND; intros c I; apply L; exact I|]. split; [apply HA; intros c I; apply L; exact I|exact LN].
Qed.
Lemma host_pass a p s q pa qu fr : auth_ok0 a -> 0 <= p -> p + Z.of_nat (length (show_auth a)) < 65536 ->
  scan_host (show_auth a) p (if match a_user a with Some _ => true | None => false end then HUserStart else HHostStart) (mkurlf s (Some (q, 0)) None pa qu fr None 0) =
  Some (mkurlf s (Some (p + ulen a + bracket (a_host a), Z.of_nat (length (host_inner (a_host a))))) (ofat (p + ulen a + Z.of_nat (length (show_host (a_host a))) + 1) (a_port a)) pa qu fr (user_fat p a) 0).
Proof.
  intros (U & H & P) P0 L. unfold show_auth in *. rewrite !app_length in L. unfold ulen, user_fat.
  assert (BI : bracket (a_host a) + Z.of_nat (length (host_inner (a_host a))) <= Z.of_nat (length (show_host (a_host a)))) by (destruct (a_host a); cbn [bracket show_host host_inner]; rewrite ?app_length; cbn [length]; rewrite ?app_length; lia).
  assert (X : forall p' us, 0 <= p' -> p' + Z.of_nat (length (show_host (a_host a))) + Z.of_nat (length (opt [58] (a_port a))) < 65536 ->
    scan_host (show_host (a_host a) ++ opt [58] (a_port a)) p' HHostStart (mkurlf s (Some (q, 0)) None pa qu fr us 0) =
    Some (mkurlf s (Some (p' + bracket (a_host a), Z.of_nat (length (host_inner (a_host a))))) (ofat (p' + Z.of_nat (length (show_host (a_host a))) + 1) (a_port a)) pa qu fr us 0)).
  { intros p' us P' L'. change (mkurlf s (Some (q, 0)) None pa qu fr us 0) with (put FHost (q, 0) (mkurlf s None None pa qu fr us 0)). rewrite h_host by assumption. f_equal.
    assert (0 <= bracket (a_host a)) by (destruct (a_host a); cbn; lia). rewrite !w16_small by lia. cbn [put]. unfold port_field, ofat. destruct (a_port a) as [d|]; [|reflexivity]. cbn [opt app length] in L'. rewrite with_fat by lia. destruct d; reflexivity. }
  destruct (a_user a) as [t|]; cbn [show_user] in *.
  - rewrite <- app_assoc. cbn [app]. rewrite h_user by exact U. rewrite app_length in *. cbn [length] in *. rewrite with_fat by lia.
    assert (Y : set_fat FUserinfo p t (mkurlf s (Some (q, 0)) None pa qu fr None 0) = mkurlf s (Some (q, 0)) None pa qu fr (fat p t) 0) by (unfold set_fat, fat; destruct t; reflexivity). rewrite Y. rewrite X by lia.
    f_equal. replace (p + Z.of_nat (length t) + 1) with (p + Z.of_nat (length t + 1)) by lia. reflexivity.
  - cbn [app length]. rewrite X by (cbn [length] in L; lia). rewrite Z.add_0_r. reflexivity.
Qed.
Lemma parse_show0 i : uri_ok0 i -> Z.of_nat (length (show i)) < 65536 -> parse_url (show i) = if port_num i <=? 65535 then Some (fields_of i) else None.
Proof.
  intros (A & T & Q & F) L. unfold show, show_rest, fields_of, port_num in *. destruct (i_auth i) as [[s a]|].
  - destruct A as (SN & SL & AO & PA & NF). destruct s as [|c s]; [congruence|]. destruct (auth_shape a AO) as (AC & ND & HA & AN). rewrite <- app_assoc. rewrite <- app_assoc.
    assert (SC := scan_abs c s (show_auth a) (i_path i) (i_query i) (i_frag i) SL AC ND T Q F PA NF). set (P := Z.of_nat (length (c :: s)) + 3) in *. cbv zeta in SC.
    rewrite !app_length in L. cbn [length] in L. assert (0 <= P) by (unfold P; lia). rewrite !with_fat in SC by (unfold P; cbn [length]; lia).
    assert (Y : set_fat FHost P (show_auth a) (set_fat FSchema 0 (c :: s) no_fields) = mkurlf (fat 0 (c :: s)) (Some (P, Z.of_nat (length (show_auth a)))) None None None None None 0) by (unfold set_fat, fat; destruct (show_auth a); [congruence|reflexivity]).
    rewrite Y in SC. rewrite rest_fat in SC by (rewrite ?app_length; unfold P; cbn [length]; lia). set (buf := (c :: s) ++ [58; 47; 47] ++ show_auth a ++ i_path i ++ opt [63] (i_query i) ++ opt [35] (i_frag i)) in *.
    unfold parse_url. assert (BN : exists x y, buf = x :: y) by (unfold buf; cbn; eauto). destruct BN as (x & y & BN). rewrite BN. rewrite <- BN. rewrite SC. cbn [uf_schema uf_host fat].
    unfold parse_host. cbn [uf_host put].
    assert (SUB : sub_text buf P (Z.of_nat (length (show_auth a))) = show_auth a).
    { unfold buf. rewrite (app_assoc (c :: s)). replace P with (Z.of_nat (length ((c :: s) ++ [58; 47; 47]))) by (rewrite app_length; unfold P; cbn [length]; lia). apply sub_piece. }
    rewrite SUB, HA. rewrite host_pass by (assumption || (unfold P; cbn [length]; lia)). cbn [uf_port]. destruct (a_port a) as [d|] eqn:EP; [|reflexivity].
    destruct AO as (AU & AH & AP). rewrite EP in AP. destruct AP as [DN DD]. cbn [ofat fat]. destruct d as [|d0 d]; [congruence|]. cbn [fat].
    assert (SUB2 : sub_text buf (P + ulen a + Z.of_nat (length (show_host (a_host a))) + 1) (Z.of_nat (length (d0 :: d))) = d0 :: d).
    { assert (B2 : buf = ((c :: s) ++ [58; 47; 47] ++ show_user (a_user a) ++ show_host (a_host a) ++ [58]) ++ (d0 :: d) ++ i_path i ++ opt [63] (i_query i) ++ opt [35] (i_frag i)).
      { unfold buf, show_auth. rewrite EP. cbn [opt]. rewrite <- !app_assoc. reflexivity. }
      rewrite B2. replace (P + ulen a + Z.of_nat (length (show_host (a_host a))) + 1) with (Z.of_nat (length ((c :: s) ++ [58; 47; 47] ++ show_user (a_user a) ++ show_host (a_host a) ++ [58]))) by (rewrite !app_length; unfold P, ulen; cbn [length]; lia). apply sub_piece. }
    rewrite SUB2. rewrite port_value_spec by (assumption || lia). unfold dec. cbv zeta. destruct (_ <=? 65535); reflexivity.
  - destruct A as [p A]. assert (C : exists c, (c = 47 \/ c = 42) /\ i_path i = c :: p) by (destruct A; eauto). destruct C as (c & C & E). cbn [app] in *. rewrite E in *. inv T.
    rewrite (proj2 (Z.leb_le 0 65535)) by lia. unfold parse_url. rewrite scan_origin by assumption. cbn [app]. unfold no_fields. rewrite rest_fat by (rewrite <- ?app_assoc in *; cbn [app] in *; lia). reflexivity.
Qed.

Lemma parse_inv buf u : Z.of_nat (length buf) < 65536 -> parse_url buf = Some u -> exists i, uri_ok i /\ buf = show i.
Proof.
  intros L E. assert (OUT : forall i, uri_ok0 i -> buf = show i -> exists i, uri_ok i /\ buf = show i).
  { intros i O B. exists i. split; [|exact B]. apply uri_ok_split. split; [exact O|]. subst buf. rewrite parse_show0 in E by assumption. destruct (Z.leb_spec (port_num i) 65535); [assumption|discriminate]. }
  destruct buf as [|b0 buf0]; [discriminate|]. unfold parse_url in E. set (buf := b0 :: buf0) in *. destruct (scan buf 0 USpaces None false no_fields) as [[at_ u1]|] eqn:SC; [|discriminate].
  pose proof (scan_alive _ _ _ _ _ _ _ SC) as AL. destruct (alive_start buf AL) as [B|[(c & t & B & C & A)|(c & t & B & C & A)]]; [discriminate| |].
  - destruct (alive_path t A) as (t' & q & f & -> & T & Q & F). apply (OUT (mkuri None (c :: t') q f)); [|exact B]. split; [exists t'; cbn; destruct C as [->| ->]; auto|]. cbn. split; [|auto]. constructor; [|exact T]. unfold pchar. destruct C as [->| ->]; lia.
  - destruct (alive_schema t A) as (s & r & -> & SL & R). assert (CS : Forall letter (c :: s)) by (constructor; assumption).
    assert (SH : (exists r', r = 58 :: 47 :: 47 :: r' /\ alive UServer r') \/ (uf_host u1 = None /\ uf_schema u1 <> None)).
    { assert (FS : forall r, scan (c :: s ++ r) 0 USpaces None false no_fields = scan r (0 + Z.of_nat (S (length s))) USchema (Some FSchema) false (put FSchema (w16 0, w16 (Z.of_nat (S (length s)))) no_fields)).
      { intros r0. apply scan_first; try reflexivity; try discriminate; [now apply step_schema|]. intros d D. rewrite Forall_forall in SL. apply step_schema. auto. }
      rewrite B, FS in SC. destruct R as [->|[->|[->|R]]]; [right|right|right|left; exact R]; cbn in SC; injection SC as _ <-; split; reflexivity || discriminate. }
    destruct SH as [(r' & -> & AR)|[H1 H2]]; [|rewrite H1 in E; destruct (uf_schema u1); [discriminate|congruence]].
    destruct (alive_server r' false AR) as (a & r & -> & AC & ND & t & q & f & -> & T & Q & F & TP & NF). rewrite B in SC. change (c :: s ++ 58 :: 47 :: 47 :: a ++ t ++ opt [63] q ++ opt [35] f) with ((c :: s) ++ [58; 47; 47] ++ a ++ t ++ opt [63] q ++ opt [35] f) in *.
    rewrite scan_abs in SC by assumption. cbv zeta in SC. set (P := Z.of_nat (length (c :: s)) + 3) in *. assert (LB := L). rewrite B in LB. rewrite !app_length in LB. cbn [length] in LB. rewrite !with_fat in SC by (unfold P; cbn [length]; lia).
    assert (Y : set_fat FHost P a (set_fat FSchema 0 (c :: s) no_fields) = mkurlf (fat 0 (c :: s)) (fat P a) None None None None None 0) by (unfold set_fat, fat; destruct a; reflexivity).
    rewrite Y in SC. rewrite rest_fat in SC by (rewrite ?app_length; unfold P; cbn [length]; lia). injection SC as <- <-. cbn [uf_schema uf_host fat] in E. destruct a as [|a0 a]; [discriminate|]. cbn [fat] in E.
    unfold parse_host in E. cbn [uf_host put] in E.
    assert (SUB : sub_text buf P (Z.of_nat (length (a0 :: a))) = a0 :: a).
    { rewrite B. rewrite (app_assoc (c :: s)). replace P with (Z.of_nat (length ((c :: s) ++ [58; 47; 47]))) by (rewrite app_length; unfold P; cbn [length]; lia). apply sub_piece. }
    rewrite SUB in E.
    assert (HK : hok (if has_at (a0 :: a) then HUserStart else HHostStart) (a0 :: a)).
    { match type of E with match ?x with _ => _ end = _ => destruct x as [u2|] eqn:SH; [|discriminate] end. unfold hok. eauto. }
    assert (AU : exists au, auth_ok0 au /\ a0 :: a = show_auth au).
    { destruct (has_at (a0 :: a)).
      - destruct (hok_user _ HUserStart (or_intror eq_refl) HK) as (t0 & r0 & -> & U & HH). destruct (hok_host _ HH) as (h & po & -> & HO & PO). exists (mkauth (Some t0) h po). split; [split; [exact U|split; assumption]|]. unfold show_auth. cbn. rewrite <- app_assoc. reflexivity.
      - destruct (hok_host _ HK) as (h & po & -> & HO & PO). exists (mkauth None h po). split; [split; [exact I|split; assumption]|]. reflexivity. }
    destruct AU as (au & AO & AE). rewrite AE in B. apply (OUT (mkuri (Some (c :: s, au)) t q f)).
    + split; [|auto]. cbn. split; [discriminate|]. auto.
    + rewrite B. unfold show, show_rest. cbn [i_auth i_path i_query i_frag]. rewrite <- !app_assoc. reflexivity.
Qed.

(** The texts of the fields. *)
Lemma fields_text i : uri_ok i -> let buf := show i in let u := fields_of i in
  ftext buf (uf_path u) = piece (i_path i) /\ ftext buf (uf_query u) = (match i_query i with Some q => piece q | None => None end) /\
  ftext buf (uf_fragment u) = (match i_frag i with Some f => piece (strip f) | None => None end) /\
  match i_auth i with
  | None => uf_schema u = None /\ uf_host u = None /\ uf_port u = None /\ uf_userinfo u = None
  | Some (s, a) => ftext buf (uf_schema u) = Some s /\ ftext buf (uf_host u) = Some (host_inner (a_host a)) /\ ftext buf (uf_port u) = a_port a /\
      ftext buf (uf_userinfo u) = (match a_user a with Some t => piece t | None => None end) /\ uf_portnum u = port_num i
  end.
Proof.
  intros O. apply uri_ok_split in O. destruct O as [(A & _) _]. cbv zeta. unfold show, show_rest, fields_of in *. pose proof (i_frag i) as XX.
  assert (FR : forall pre f p, p = Z.of_nat (length pre) -> ftext (pre ++ opt [35] f) (frag_fat p f) = match f with Some f => piece (strip f) | None => None end).
  { intros pre f p ->. destruct f as [f|]; [|reflexivity]. unfold frag_fat. cbn [opt app].
    assert (SP : forall f, exists h, f = h ++ strip f /\ Z.of_nat (length h) = frag_off f).
    { unfold frag_off. induction f0 as [|c f0 IH]; cbn [strip]; [exists []; split; [reflexivity|cbn [length]; lia]|]. destruct (Z.eqb_spec c 35); [|exists []; split; [reflexivity|cbn [length]; lia]]. destruct IH as (h & E & LH). exists (c :: h). split; [cbn; f_equal; exact E|cbn [length]; lia]. }
    destruct (SP f) as (h & E & LH). rewrite E at 1. replace (pre ++ 35 :: h ++ strip f) with ((pre ++ 35 :: h) ++ strip f ++ []) by (rewrite <- app_assoc, app_nil_r; reflexivity). apply ftext_fat. rewrite app_length. cbn [length]. lia. }
  assert (QU : forall pre q post p, p = Z.of_nat (length pre) + 1 -> ftext (pre ++ opt [63] q ++ post) (ofat p q) = match q with Some q => piece q | None => None end).
  { intros pre q post p ->. destruct q as [q|]; [|reflexivity]. cbn [ofat opt app]. replace (pre ++ 63 :: q ++ post) with ((pre ++ [63]) ++ q ++ post) by (rewrite <- app_assoc; reflexivity). apply ftext_fat. rewrite app_length. cbn [length]. lia. }
  destruct (i_auth i) as [[s a]|].
  - destruct A as (SN & SL & (AU & AH & AP) & _). cbn [uf_path uf_query uf_fragment uf_schema uf_host uf_port uf_userinfo uf_portnum]. set (AA := show_auth a) in *.
    assert (PRE : Z.of_nat (length s) + 3 + Z.of_nat (length AA) = Z.of_nat (length (s ++ [58; 47; 47] ++ AA))) by (rewrite !app_length; cbn [length]; lia). split; [|split; [|split]].
    + rewrite PRE. now apply ftext_fat.
    + rewrite PRE. rewrite app_assoc. apply QU. rewrite !app_length. lia.
    + rewrite PRE. rewrite (app_assoc (i_path i)), app_assoc. apply FR. rewrite !app_length. lia.
    + split; [destruct s; [congruence|]; change ((z :: s) ++ [58; 47; 47] ++ AA) with ([] ++ (z :: s) ++ [58; 47; 47] ++ AA); rewrite <- !app_assoc; change (Some (z :: s)) with (piece (z :: s)); now apply (ftext_fat [] (z :: s))|].
      assert (HI : exists x y, show_host (a_host a) = x ++ host_inner (a_host a) ++ y /\ Z.of_nat (length x) = bracket (a_host a)).
      { destruct (a_host a) as [n|v z]; [exists [], []; split; [cbn; now rewrite app_nil_r|reflexivity]|exists [91], [93]; split; reflexivity]. }
      destruct HI as (x & y & HI & HX). split; [|split; [|split; [|reflexivity]]].
      * unfold AA, show_auth. rewrite HI. cbn [ftext]. f_equal. replace ((s ++ [58; 47; 47] ++ show_user (a_user a) ++ (x ++ host_inner (a_host a) ++ y) ++ opt [58] (a_port a)) ++ i_path i ++ opt [63] (i_query i) ++ opt [35] (i_frag i)) with ((s ++ [58; 47; 47] ++ show_user (a_user a) ++ x) ++ host_inner (a_host a) ++ (y ++ opt [58] (a_port a)) ++ i_path i ++ opt [63] (i_query i) ++ opt [35] (i_frag i)) by (rewrite <- !app_assoc; reflexivity).
        replace (Z.of_nat (length s) + 3 + ulen a + bracket (a_host a)) with (Z.of_nat (length (s ++ [58; 47; 47] ++ show_user (a_user a) ++ x))) by (rewrite !app_length; unfold ulen; cbn [length]; lia). apply sub_piece.
      * destruct (a_port a) as [d|] eqn:EP; [|reflexivity]. destruct AP as [DN _]. destruct d as [|d0 d]; [congruence|]. cbn [ofat]. change (Some (d0 :: d)) with (piece (d0 :: d)). unfold AA, show_auth. rewrite EP.
        replace ((s ++ [58; 47; 47] ++ show_user (a_user a) ++ show_host (a_host a) ++ opt [58] (Some (d0 :: d))) ++ i_path i ++ opt [63] (i_query i) ++ opt [35] (i_frag i)) with ((s ++ [58; 47; 47] ++ show_user (a_user a) ++ show_host (a_host a) ++ [58]) ++ (d0 :: d) ++ i_path i ++ opt [63] (i_query i) ++ opt [35] (i_frag i)) by (cbn [opt]; rewrite <- !app_assoc; reflexivity).
        apply ftext_fat. rewrite !app_length. unfold ulen. cbn [length]. lia.
      * unfold user_fat, AA, show_auth. destruct (a_user a) as [t|] eqn:EU; [|reflexivity]. rewrite ?EU. cbn [show_user].
        replace ((s ++ [58; 47; 47] ++ (t ++ [64]) ++ show_host (a_host a) ++ opt [58] (a_port a)) ++ i_path i ++ opt [63] (i_query i) ++ opt [35] (i_frag i)) with ((s ++ [58; 47; 47]) ++ t ++ ([64] ++ show_host (a_host a) ++ opt [58] (a_port a)) ++ i_path i ++ opt [63] (i_query i) ++ opt [35] (i_frag i)) by (rewrite <- !app_assoc; reflexivity).
        apply ftext_fat. rewrite !app_length. cbn [length]. lia.
  - cbn [uf_path uf_query uf_fragment uf_schema uf_host uf_port uf_userinfo app]. split; [now apply (ftext_fat [])|]. split; [apply QU; lia|]. split; [rewrite app_assoc; apply FR; rewrite app_length; lia|]. auto.
Qed.

(** ** Beginnings of a target *)
Fixpoint run (s : ust) (l : list Z) : ust := match l with [] => s | c :: l => run (url_char s c) l end.
Lemma alive_app l : forall s r, alive s (l ++ r) <-> alive s l /\ alive (run s l) r.
Proof. induction l as [|c l IH]; intros s r; cbn [app alive run]; [tauto|]. rewrite IH. tauto. Qed.
Lemma run_app l : forall s r, run s (l ++ r) = run (run s l) r. Proof. induction l as [|c l IH]; intros s r; cbn; auto. Qed.
Lemma run_stay s l : (forall c, In c l -> url_char s c = s) -> run s l = s.
Proof. induction l as [|c l IH]; intros H; cbn [run]; [reflexivity|]. rewrite (H c) by (left; reflexivity). apply IH. intros d D. apply H. right. exact D. Qed.
Lemma run_server l : forall b, Forall achar l -> no_double b l -> run (server_state b) l = server_state (last_at b l).
Proof. induction l as [|c l IH]; intros b A N; cbn [run last_at]; [reflexivity|]. inv A. destruct N as [N1 N2]. rewrite url_char_server by assumption. auto. Qed.
Lemma show_alive i : uri_ok i -> alive USpaces (show i).
Proof.
  intros O. apply uri_ok_split in O. destruct O as [(A & T & Q & F) _]. unfold show, show_rest. destruct (i_auth i) as [[s a]|].
  - destruct A as (SN & SL & AO & PA & NF). destruct s as [|c s]; [congruence|]. destruct (auth_shape a AO) as (AC & ND & HA & AN). rewrite <- !app_assoc. eapply scan_alive. apply scan_abs; assumption.
  - destruct A as [p A]. assert (C : exists c, (c = 47 \/ c = 42) /\ i_path i = c :: p) by (destruct A; eauto). destruct C as (c & C & E). cbn [app]. rewrite E in *. inv T. eapply scan_alive. apply scan_origin; assumption.
Qed.
(** The state after what comes before the path lets '/' (and '*') begin it. *)
Lemma run_path i : uri_ok i -> i_path i <> [] -> run USpaces (match i_auth i with Some (s, a) => s ++ [58; 47; 47] ++ show_auth a | None => [] end ++ i_path i) = UPath.
Proof.
  intros O PN. apply uri_ok_split in O. destruct O as [(A & T & Q & F) _]. rewrite run_app. destruct (i_auth i) as [[s a]|].
  - destruct A as (SN & SL & AO & PA & NF). destruct s as [|c s]; [congruence|]. destruct (auth_shape a AO) as (AC & ND & HA & AN). rewrite run_app. inv SL. cbn [run]. rewrite (proj2 (step_schema c H1)).
    rewrite (run_stay USchema s) by (intros d D; rewrite Forall_forall in *; apply step_schema; auto). cbn [app run]. change (url_char (url_char (url_char USchema 58) 47) 47) with UServerStart.
    assert (R : run UServerStart (show_auth a) = server_state (last_at false (show_auth a))) by (rewrite <- (run_server _ false AC ND); destruct (show_auth a); [congruence|reflexivity]). rewrite R.
    destruct PA as [PA|(p & PA)]; [congruence|]. rewrite PA in *. inv T. cbn [run]. replace (url_char (server_state (last_at false (show_auth a))) 47) with UPath by (destruct (last_at false (show_auth a)); reflexivity).
    apply run_stay. intros d D. apply step_path. rewrite Forall_forall in *. auto.
  - destruct A as [p A]. cbn [run]. assert (C : exists c, (c = 47 \/ c = 42) /\ i_path i = c :: p) by (destruct A; eauto). destruct C as (c & C & E). rewrite E in *. inv T. cbn [run]. replace (url_char USpaces c) with UPath by (destruct C as [->| ->]; reflexivity).
    apply run_stay. intros d D. apply step_path. rewrite Forall_forall in *. auto.
Qed.
(** A target with a path stays one when more of a target is appended. *)
Lemma show_extend i x : uri_ok i -> i_path i <> [] -> alive USpaces (show i ++ x) -> exists j, uri_ok j /\ i_path j <> [] /\ show j = show i ++ x /\ i_auth j = i_auth i.
Proof.
  intros O PN AL. pose proof (run_path i O PN) as RP. unfold show, show_rest in *. set (pre := match i_auth i with Some (s, a) => s ++ [58; 47; 47] ++ show_auth a | None => [] end) in *.
  assert (MK : forall t q f, Forall pchar (i_path i ++ t) -> qopt q -> fopt f -> uri_ok (mkuri (i_auth i) (i_path i ++ t) q f)).
  { intros t q f T Q F. apply uri_ok_split in O. destruct O as [(A & _) PO]. apply uri_ok_split. split; [|exact PO]. unfold uri_ok0. cbn [i_auth i_path i_query i_frag]. split; [|auto]. destruct (i_auth i) as [[s a]|].
    - destruct A as (SN & SL & AO & PA & NF). split; [exact SN|]. split; [exact SL|]. split; [exact AO|]. destruct PA as [PA|(p & PA)]; [congruence|]. rewrite PA. split; [right; exists (p ++ t); reflexivity|discriminate].
    - destruct A as (p & [A|A]); rewrite A; exists (p ++ t); [left|right]; reflexivity. }
  assert (OO := O). apply uri_ok_split in OO. destruct OO as [(_ & T & Q & F) _].
  assert (NN : forall t, i_path i ++ t <> []) by (intros t E; apply app_eq_nil in E; tauto).
  assert (AS : forall y, alive USpaces ((pre ++ i_path i) ++ y) -> alive UPath y) by (intros y Y; apply alive_app in Y; rewrite RP in Y; tauto).
  destruct (i_frag i) as [f0|] eqn:EF.
  - rewrite !app_assoc in AL. rewrite <- (app_assoc (pre ++ i_path i)), <- (app_assoc (pre ++ i_path i)) in AL. apply AS in AL. assert (FX : Forall fchar (f0 ++ x)).
    { cbn [opt] in AL. destruct (i_query i) as [q0|]; cbn [opt app] in AL.
      - cbn [alive] in AL. destruct AL as [_ AL]. change (url_char UPath 63) with UQueryStart in AL. rewrite <- app_assoc in AL. apply alive_app in AL. destruct AL as [_ AL].
        assert (RQ : run UQueryStart q0 = UQueryStart \/ run UQueryStart q0 = UQuery).
        { destruct q0 as [|c q0]; [left; reflexivity|right]. inv Q. cbn [run]. rewrite (proj2 (step_query c H1)). apply run_stay. intros d D. apply step_query. rewrite Forall_forall in *. auto. }
        cbn [app alive] in AL. destruct AL as [_ AL]. replace (url_char (run UQueryStart q0) 35) with UFragStart in AL by (destruct RQ as [->| ->]; reflexivity). exact (alive_frag _ _ (or_intror eq_refl) AL).
      - cbn [alive] in AL. destruct AL as [_ AL]. change (url_char UPath 35) with UFragStart in AL. exact (alive_frag _ _ (or_intror eq_refl) AL). }
    exists (mkuri (i_auth i) (i_path i ++ []) (i_query i) (Some (f0 ++ x))). split; [apply MK; [rewrite app_nil_r; exact T|exact Q|exact FX]|]. split; [apply NN|]. split; [|reflexivity]. cbn [i_auth i_path i_query i_frag opt]. fold pre. rewrite app_nil_r. rewrite <- !app_assoc. reflexivity.
  - cbn [opt] in *. rewrite app_nil_r in *. destruct (i_query i) as [q0|] eqn:EQ.
    + assert (AL2 : alive UPath (opt [63] (Some q0) ++ x)) by (apply AS; rewrite <- !app_assoc in *; exact AL). cbn [opt app alive] in AL2. destruct AL2 as [_ AL2]. change (url_char UPath 63) with UQueryStart in AL2.
      destruct (alive_query _ _ (or_intror eq_refl) AL2) as (q & f & E & Q' & F'). exists (mkuri (i_auth i) (i_path i ++ []) (Some q) f). split; [apply MK; [rewrite app_nil_r; exact T|exact Q'|exact F']|]. split; [apply NN|]. split; [|reflexivity]. cbn [i_auth i_path i_query i_frag opt app]. fold pre. rewrite app_nil_r. rewrite <- E. rewrite <- !app_assoc. reflexivity.
    + cbn [opt] in *. rewrite app_nil_r in *. apply AS in AL. destruct (alive_path _ AL) as (t & q & f & E & T' & Q' & F'). exists (mkuri (i_auth i) (i_path i ++ t) q f). split; [apply MK; [apply Forall_app; split; assumption|exact Q'|exact F']|]. split; [apply NN|]. split; [|reflexivity]. cbn [i_auth i_path i_query i_frag]. fold pre. rewrite E. rewrite <- !app_assoc. reflexivity.
Qed.
Lemma alive_prefix a b s : alive s (a ++ b) -> alive s a. Proof. intros H. apply alive_app in H. tauto. Qed.

(** ** The request *)
Lemma parse_show i : uri_ok i -> Z.of_nat (length (show i)) < 65536 -> parse_url (show i) = Some (fields_of i).
Proof. intros O L. apply uri_ok_split in O. destruct O as [O P]. rewrite parse_show0 by assumption. destruct (Z.leb_spec (port_num i) 65535); [reflexivity|lia]. Qed.
Lemma parse_view_ok r i : uri_ok i -> Z.of_nat (length (show i)) < 65536 -> request_url r = show i -> i_path i <> [] -> path (parse_view r) = Ok (i_path i).
Proof.
  intros O L E PN. pose proof (fields_text i O) as FT. cbv zeta in FT. destruct FT as (FP & _). unfold parse_view. rewrite E, (parse_show i O L). set (u := fields_of i) in *.
  unfold piece in FP. destruct (i_path i) as [|c p] eqn:EP; [congruence|]. unfold ftext in FP. destruct (uf_path u) as [[o n]|] eqn:UP; [|discriminate]. injection FP as FP. unfold path. cbn [r_path].
  assert (ON : 0 <= o /\ n = Z.of_nat (length (c :: p)) /\ o + n <= Z.of_nat (length (show i))).
  { unfold u, fields_of in UP. rewrite EP in UP. unfold show, show_rest. rewrite EP. destruct (i_auth i) as [[s a]|]; cbn [uf_path fat] in UP; injection UP as <- <-; rewrite !app_length; cbn [length]; lia. }
  destruct ON as (O0 & N & ON). unfold read_view. cbn [uv_len uv_place uv_off r_alloc r_url]. destruct (Z.eqb_spec n 0) as [Z|Z]; [cbn [length] in N; lia|]. unfold request_url in E. destruct (r_url r) as [|u0 us] eqn:RU; cbn [r_alloc r_url].
  - f_equal. unfold root_path in *. rewrite E. exact FP.
  - rewrite Nat.eqb_refl. cbn [andb]. rewrite E. destruct (Z.leb_spec (o + n) (Z.of_nat (length (show i)))); [|lia]. f_equal. exact FP.
Qed.
