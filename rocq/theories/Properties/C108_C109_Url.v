(** C108-C109: parsing of addresses. *)
From Verif.Model Require Import Common Decimal StrUtil UrlUtils.
From Verif.Spec Require Import StrSpec UrlSpec.
From Verif.Proofs Require Import Tac StrProofs UrlProofs.
Open Scope Z_scope.

(** What parsing [render u] should give. *)
Definition parsed_as (u : uri) (r : RemoteInfo) : Prop :=
  r_scheme r = (match u_scheme u with Some s => s | None => [] end) /\
  r_user r = (match u_user u with Some (x, _) => x | None => [] end) /\
  r_passwd r = (match u_user u with Some (_, Some p) => p | _ => [] end) /\
  r_host r = u_host u /\
  r_port r = Some (match u_port u with Some (_, n) => n | None => 0 end) /\
  (forall k, q_find k (r_queries r) = match u_query u with Some q => first_value k q | None => None end).

(** C108.  Parsing an address of the documented format gives back its components. *)
Definition C108_statement : Prop := forall u, wf_uri u -> exists r, ParseRemote (render u) = Ok r /\ parsed_as u r.

(** "h:80?m=a@b": everything up to the '@' of the query is taken for user and password. *)
Definition u_bad : uri := mkUri None None [104] (Some ([56;48], 80)) (Some [([109], [97;64;98])]).
Theorem C108_statement_refuted : ~ C108_statement.
Proof.
  intro H. destruct (H u_bad) as (r & E & P).
  - constructor; cbn [u_bad u_scheme u_user u_host u_port u_query].
    + discriminate.
    + discriminate.
    + intros c Hc [<-|[]]. destruct Hc as [X|[X|[X|[]]]]; discriminate.
    + intros t n X. inv X. split; [|reflexivity]. repeat split; [discriminate|repeat constructor; lia].
    + intros q X. inv X. constructor; [|constructor]. cbn [fst snd]. split; intros c Hc I; cbn [In] in Hc, I; lia.
    + reflexivity.
  - vm_compute in E. inv E. destruct P as (_ & _ & _ & P & _). discriminate P.
Qed.

(** It holds when the address has a user part or no '@' in its query, and has a scheme or no "://"
    anywhere. *)
Theorem C108_parse_partial u : wf_uri u ->
  (u_user u <> None \/ ~ In 64 (ropt render_query (u_query u))) ->
  (u_scheme u <> None \/ ~ occurs [58; 47; 47] (render u)) ->
  exists r, ParseRemote (render u) = Ok r /\ parsed_as u r.
Proof.
  intros [Ws Wu Wh Wp Wq Wl] HU HS.
  set (A := ropt (fun s => s ++ [58; 47; 47]) (u_scheme u)).
  set (B := ropt (fun x => render_user x ++ [64]) (u_user u)).
  set (C := render_authority u).
  set (D := ropt (fun q => 63 :: render_query q) (u_query u)).
  assert (ES : render u = A ++ B ++ C ++ D) by reflexivity.
  assert (LS : (length (render u) = length A + length B + length C + length D)%nat) by (rewrite ES, !app_length; lia).
  assert (P32 : 2 ^ 32 = 4294967296) by reflexivity.
  assert (P64 : npos = 18446744073709551615) by reflexivity.
  (* scheme *)
  assert (H1 : match sfind s_scheme (render u) 0 with
               | Some p => (zsub (render u) 0 (Z.of_nat p), (p + 3)%nat)
               | None => ([], 0%nat)
               end = (match u_scheme u with Some s => s | None => [] end, length A)).
  { unfold A in *. destruct (u_scheme u) as [s|] eqn:E; cbn [ropt] in *.
    - rewrite ES, <- app_assoc. change ([58; 47; 47] ++ B ++ C ++ D) with (s_scheme ++ B ++ C ++ D).
      rewrite sfind_scheme_here by (apply (Ws s eq_refl); now left).
      rewrite (zsub_mid [] s (s_scheme ++ B ++ C ++ D)) by reflexivity. rewrite app_length. reflexivity.
    - destruct HS as [HS|HS]; [congruence|]. rewrite (sfind_none_iff s_scheme (render u)) by exact HS. reflexivity. }
  (* authority text *)
  assert (NC : forall c, In c [64; 63] -> ~ In c C).
  { intros c Hc I. unfold C, render_authority in I. apply in_app_or in I. destruct I as [I|I].
    - eapply (Wh c); [|exact I]. destruct Hc as [<-|[<-|[]]]; [right; now left|right; right; now left].
    - destruct (u_port u) as [(t, n)|] eqn:E; [|destruct I]. destruct I as [I|I]; [destruct Hc as [<-|[<-|[]]]; discriminate|].
      cbn [fst] in I. destruct (Wp t n eq_refl) as (W & _). eapply (numeral_not t n c W); [|exact I]. destruct Hc as [<-|[<-|[]]]; lia. }
  (* user *)
  assert (H2 : match sfind s_at (render u) (length A) with
     | Some p =>
         match Split (zsub (render u) (length A) ((Z.of_nat p - Z.of_nat (length A)) mod 2 ^ 32)) s_colon false with
         | Some (u :: pw :: _) => Ok (u, pw, (p + 1)%nat)
         | Some [u] => Ok (u, [], (p + 1)%nat)
         | _ => UB
         end
     | None => Ok ([], [], length A)
     end = Ok (match u_user u with Some (x, _) => x | None => [] end,
               match u_user u with Some (_, Some p) => p | _ => [] end, (length A + length B)%nat)).
  { rewrite ES, sfind_shift. unfold B in *. destruct (u_user u) as [(x, p)|] eqn:E; cbn [ropt] in *.
    - destruct (Wu x p eq_refl) as (W1 & W2).
      rewrite <- (app_assoc (render_user (x, p))). change ([64] ++ C ++ D) with (64 :: C ++ D).
      unfold s_at. rewrite sfind_char.
      2: { apply not_in_user; [apply W1; right; now left|intros pw ->; apply (W2 pw eq_refl); right; now left|lia]. }
      cbn [option_map].
      replace ((Z.of_nat (length A + length (render_user (x, p))) - Z.of_nat (length A)) mod 2 ^ 32) with (Z.of_nat (length (render_user (x, p)))).
      2: { rewrite Z.mod_small; [lia|]. rewrite app_length in LS. cbn [length] in LS. lia. }
      rewrite zsub_mid by reflexivity. unfold s_colon. rewrite (split_fields 58 _ _ (user_fields x p W1 W2)).
      rewrite app_length. cbn [length]. destruct p as [pw|]; rewrite Nat.add_assoc; reflexivity.
    - assert (N : ~ In 64 (C ++ D)).
      { intro I. apply in_app_or in I. destruct I as [I|I]; [apply (NC 64 (or_introl eq_refl) I)|].
        unfold D in I. destruct (u_query u) as [q|]; [|destruct I]. destruct I as [I|I]; [discriminate|].
        destruct HU as [HU|HU]; [congruence|]. apply HU. exact I. }
      cbn [app]. unfold s_at. rewrite sfind_char_none by exact N. cbn [option_map length]. now rewrite Nat.add_0_r. }
  (* host and port *)
  assert (FS : render u = (A ++ B) ++ C ++ D) by (rewrite ES, !app_assoc; reflexivity).
  assert (LAB : (length A + length B)%nat = length (A ++ B)) by (rewrite app_length; reflexivity).
  assert (H3 : sfind s_quest (render u) (length A + length B) =
               match u_query u with Some _ => Some (length A + length B + length C)%nat | None => None end).
  { rewrite FS, LAB, sfind_shift. unfold D. destruct (u_query u) as [q|]; cbn [ropt].
    - unfold s_quest. rewrite sfind_char by (apply NC; right; now left). reflexivity.
    - rewrite app_nil_r. unfold s_quest. rewrite sfind_char_none by (apply NC; right; now left). reflexivity. }
  assert (H4 : zsub (render u) (length A + length B)
      ((zpos (match u_query u with Some _ => Some (length A + length B + length C)%nat | None => None end) - Z.of_nat (length A + length B)) mod 2 ^ 32) = C).
  { rewrite FS, LAB. unfold D in *. destruct (u_query u) as [q|]; cbn [ropt zpos] in *.
    - apply zsub_mid. rewrite Z.mod_small; [lia|]. rewrite app_length. lia.
    - rewrite app_nil_r. apply zsub_all. rewrite P64. rewrite app_length.
      replace (18446744073709551615 - Z.of_nat (length A + length B)) with ((2 ^ 32 - 1 - Z.of_nat (length A + length B)) + 4294967295 * 2 ^ 32) by (rewrite P32; lia).
      rewrite Z.mod_add by (rewrite P32; discriminate). rewrite Z.mod_small by (rewrite P32; lia). rewrite P32. lia. }
  assert (H5 : match Split C s_colon false with
          | Some (h :: p :: _) => Ok (h, Parse 16 p)
          | Some [h] => Ok (h, Some 0)
          | _ => UB
          end = Ok (u_host u, Some (match u_port u with Some (_, n) => n | None => 0 end))).
  { unfold C, render_authority. assert (Hh : ~ In 58 (u_host u)) by (apply Wh; now left).
    destruct (u_port u) as [(t, n)|] eqn:E; cbn [ropt fst].
    - destruct (Wp t n eq_refl) as (W & L). unfold s_colon. rewrite (split_fields 58 _ [u_host u; t]).
      + do 2 f_equal. unfold Parse. rewrite <- (app_nil_r t). rewrite (extract_numeral 16 t n [] W) by discriminate.
        replace (n <? 2 ^ 16) with true by (symmetry; now apply Z.ltb_lt). reflexivity.
      + split; [discriminate|]. split; [|reflexivity]. repeat constructor; [assumption|]. eapply numeral_not; [eassumption|lia].
    - rewrite app_nil_r. unfold s_colon. rewrite (split_fields 58 _ [u_host u]); [reflexivity|].
      split; [discriminate|]. split; [|reflexivity]. repeat constructor. assumption. }
  unfold ParseRemote. rewrite H1. rewrite H2. cbn [obind]. rewrite H3. rewrite H4, H5. cbn [obind].
  unfold D in *. destruct (u_query u) as [q|] eqn:EQ; cbn [ropt] in *.
  - eexists. split; [reflexivity|]. unfold parsed_as. rewrite EQ. cbn [r_scheme r_user r_passwd r_host r_port r_queries].
    repeat split. intro k.
    replace (skipn (length A + length B + length C + 1) (render u)) with (render_query q).
    2: { rewrite FS, LAB, app_assoc. rewrite <- app_length. change (63 :: render_query q) with ([63] ++ render_query q).
         rewrite app_assoc. replace (length ((A ++ B) ++ C) + 1)%nat with (length (((A ++ B) ++ C) ++ [63])) by (rewrite app_length; reflexivity).
         rewrite skipn_app, skipn_all, Nat.sub_diag. reflexivity. }
    destruct q as [|kv q]; [reflexivity|]. rewrite query_fields by (try discriminate; apply Wq; reflexivity).
    rewrite (fold_queries (kv :: q) (Wq _ eq_refl) [] k). reflexivity.
  - eexists. split; [reflexivity|]. unfold parsed_as. rewrite EQ. repeat split.
Qed.

(** Other addresses of common use that are not parsed as intended: a ':' in the password cuts it, a
    bracketed IPv6 host is cut at its first ':', and "host:" leaves the port undetermined. *)
Example C108_colon_in_password : exists r, ParseRemote [117;58;112;58;113;64;104] = Ok r /\ r_passwd r = [112].
Proof. eexists. split; [vm_compute; reflexivity|reflexivity]. Qed.
Example C108_ipv6_host : exists r, ParseRemote [91;58;58;49;93;58;56;48] = Ok r /\ r_host r = [91] /\ r_port r = None.
Proof. eexists. split; [vm_compute; reflexivity|split; reflexivity]. Qed.
Example C108_empty_port : exists r, ParseRemote [104;58] = Ok r /\ r_port r = None.
Proof. eexists. split; [vm_compute; reflexivity|reflexivity]. Qed.

(** Never undefined behaviour: the vectors indexed always have a first element. *)
Theorem C108_total s : exists r, ParseRemote s = Ok r.
Proof.
  unfold ParseRemote. destruct (match sfind s_scheme s 0 with Some p => _ | None => _ end) as (sch, fs1).
  assert (SP : forall t, exists x l, Split t s_colon false = Some (x :: l)).
  { intro t. unfold s_colon. destruct (split_loop_false 58 [] t (S (length t)) 0 []) as (ts & E & N & _); [lia|lia|].
    destruct ts as [|x l]; [congruence|]. exists x, l. exact E. }
  assert (U : exists a b f, match sfind s_at s fs1 with
     | Some p =>
         match Split (zsub s fs1 ((Z.of_nat p - Z.of_nat fs1) mod 2 ^ 32)) s_colon false with
         | Some (u :: pw :: _) => Ok (u, pw, (p + 1)%nat)
         | Some [u] => Ok (u, [], (p + 1)%nat)
         | _ => UB
         end
     | None => Ok ([], [], fs1)
     end = Ok (a, b, f)).
  { destruct (sfind s_at s fs1) as [p|]; [|do 3 eexists; reflexivity].
    destruct (SP (zsub s fs1 ((Z.of_nat p - Z.of_nat fs1) mod 2 ^ 32))) as (x & l & ->). destruct l; do 3 eexists; reflexivity. }
  destruct U as (a & b & f & ->). cbn [obind].
  destruct (SP (zsub s f ((zpos (sfind s_quest s f) - Z.of_nat f) mod 2 ^ 32))) as (x & l & ->).
  destruct l; cbn [obind]; destruct (sfind s_quest s f); eexists; reflexivity.
Qed.

(** redis://u:p@h:6379?db=1&t=2&db=9 *)
Example C108_nonvacuous :
  let u := mkUri (Some [114]) (Some ([117], Some [112])) [104] (Some ([54;51], 63)) (Some [([100],[49]); ([116],[50]); ([100],[57])]) in
  wf_uri u /\ exists r, ParseRemote (render u) = Ok r /\ r_user r = [117] /\ r_port r = Some 63 /\ q_find [100] (r_queries r) = Some [49].
Proof.
  cbv zeta. split; [|eexists; split; [vm_compute; reflexivity|]; repeat split].
  constructor; cbn [u_scheme u_user u_host u_port u_query].
  - intros s X. inv X. intros c Hc I. cbn [In] in *. lia.
  - intros x p X. inv X. split; [intros c Hc I; cbn [In] in *; lia|]. intros pw X. inv X. intros c Hc I; cbn [In] in *; lia.
  - intros c Hc I; cbn [In] in *; lia.
  - intros t n X. inv X. split; [|reflexivity]. repeat split; [discriminate|repeat constructor; lia].
  - intros q X. inv X. repeat (constructor; [cbn [fst snd]; split; intros c Hc I; cbn [In] in *; lia|]). constructor.
  - reflexivity.
Qed.

(** C109.  ParseURI: scheme://host:port, each part but the host optional. *)
Definition uri_text (sch : option (list Z)) (host : list Z) (port : option (list Z)) : list Z :=
  ropt (fun s => s ++ [58; 47; 47]) sch ++ host ++ ropt (fun p => 58 :: p) port.

(** A port that is not a number below 65536 should be refused or at least not be replaced by another. *)
Definition C109_bad_port_statement : Prop := forall host p out,
  ~ In 58 host -> fst (ParseURI (uri_text None host (Some p))) = out -> sp_port out <> 0 -> numeral p (sp_port out).
(** "h:99999" is accepted with port 65535. *)
Theorem C109_bad_port_statement_refuted : ~ C109_bad_port_statement.
Proof.
  intro H. specialize (H [104] [57;57;57;57;57] (mkSIP 65535 [104] s_http)).
  assert (N : ~ In 58 [104]) by (intros [X|[]]; discriminate). specialize (H N eq_refl ltac:(discriminate)).
  destruct H as (_ & _ & H). discriminate H.
Qed.

Theorem C109_parse_uri_partial sch host port :
  (forall s, sch = Some s -> ~ In 58 s) -> ~ In 58 host ->
  (forall t, port = Some t -> (exists n, numeral t n /\ n < 2 ^ 16) \/ t = []) ->
  Z.of_nat (length host) < 2 ^ 32 ->
  let (out, resolve) := ParseURI (uri_text sch host port) in
  sp_protocol out = (match sch with Some s => s | None => s_http end) /\ sp_host out = host /\
  (forall t, port = Some t -> forall n, numeral t n -> sp_port out = n) /\
  (port = None \/ port = Some [] -> sp_port out = 0) /\
  (resolve = true <-> host <> []).
Proof.
  intros Hs Hh Hp Hl. unfold ParseURI.
  set (A := ropt (fun s => s ++ [58; 47; 47]) sch).
  assert (H1 : match sfind s_scheme (uri_text sch host port) 0 with
    | Some p => (zsub (uri_text sch host port) 0 (Z.of_nat p), (p + 3)%nat)
    | None => (s_http, 0%nat)
    end = (match sch with Some s => s | None => s_http end, length A)).
  { unfold uri_text, A. destruct sch as [s|]; cbn [ropt].
    - rewrite <- app_assoc. change ([58; 47; 47] ++ ?x) with (s_scheme ++ x). rewrite sfind_scheme_here by (apply Hs; reflexivity).
      match goal with |- context [zsub (s ++ ?x) 0 ?n] => change (zsub (s ++ x) 0 n) with (zsub ([] ++ s ++ x) (length (@nil Z)) n) end. rewrite zsub_mid by reflexivity. rewrite app_length. reflexivity.
    - cbn [app]. rewrite sfind_none_iff; [reflexivity|]. intros (a & b & E).
      destruct port as [t|]; cbn [ropt] in E.
      + assert (X := sfind_char 58 host t Hh). apply sfind0_some in X. destruct X as (a2 & b2 & E2 & L2 & M2).
        assert (NT : Forall digit t).
        { destruct (Hp t eq_refl) as [(n & (_ & F & _) & _)|E0]; [exact F|rewrite E0; constructor]. }
        assert (Y : (length host <= length a)%nat) by (rewrite <- L2; apply (M2 a (47 :: 47 :: b)); exact E).
        assert (E3 : skipn (S (length a)) (host ++ 58 :: t) = 47 :: 47 :: b).
        { rewrite E. change (a ++ s_scheme ++ b) with (a ++ [58] ++ 47 :: 47 :: b). rewrite app_assoc.
          replace (S (length a)) with (length (a ++ [58])) by (rewrite app_length; simpl; lia). rewrite skipn_app, skipn_all, Nat.sub_diag. reflexivity. }
        assert (I : In 47 t).
        { change (host ++ 58 :: t) with (host ++ [58] ++ t) in E3. rewrite app_assoc, skipn_app in E3.
          rewrite skipn_all2 in E3 by (rewrite app_length; simpl; lia). cbn [app] in E3.
          rewrite <- (firstn_skipn (S (length a) - length (host ++ [58])) t), E3, in_app_iff. right. now left. }
        rewrite Forall_forall in NT. apply NT in I. unfold digit in I. lia.
      + rewrite app_nil_r in E. apply Hh. rewrite E, !in_app_iff. right. left. now left. }
  rewrite H1.
  assert (H2 : sfind s_colon (uri_text sch host port) (length A) = match port with Some _ => Some (length A + length host)%nat | None => None end).
  { unfold uri_text. fold A. rewrite sfind_shift. unfold s_colon. destruct port as [t|]; cbn [ropt].
    - rewrite sfind_char by assumption. reflexivity.
    - rewrite app_nil_r, sfind_char_none by assumption. reflexivity. }
  rewrite H2.
  destruct port as [t|].
  - assert (E1 : skipn (length A + length host + 1) (uri_text sch host (Some t)) = t).
    { unfold uri_text. fold A. cbn [ropt]. change (58 :: t) with ([58] ++ t). rewrite !app_assoc.
      replace (length A + length host + 1)%nat with (length ((A ++ host) ++ [58])) by (rewrite !app_length; reflexivity).
      rewrite skipn_app, skipn_all, Nat.sub_diag. reflexivity. }
    assert (E2 : zsub (uri_text sch host (Some t)) (length A) ((Z.of_nat (length A + length host) - Z.of_nat (length A)) mod 2 ^ 32) = host).
    { unfold uri_text. fold A. apply zsub_mid. rewrite Z.mod_small; lia. }
    rewrite E1, E2. cbn [sp_protocol sp_host sp_port]. split; [reflexivity|]. split; [reflexivity|].
    split; [|split].
    + intros t' X n N. inv X. destruct (Hp t' eq_refl) as [(m & M & L)|E0]; [|rewrite E0 in N; destruct N as (N & _); congruence].
      assert (m = n) by (destruct M as (_ & _ & ->), N as (_ & _ & ->); reflexivity). subst m.
      unfold ParseTo. rewrite <- (app_nil_r t'). rewrite (extract_numeral 16 t' n [] N) by discriminate.
      replace (n <? 2 ^ 16) with true by (symmetry; now apply Z.ltb_lt). reflexivity.
    + intros [X|X]; [discriminate|]. inv X. reflexivity.
    + destruct host; split; try discriminate; congruence.
  - assert (E1 : skipn (length A) (uri_text sch host None) = host).
    { unfold uri_text. fold A. cbn [ropt]. rewrite app_nil_r, skipn_app, skipn_all, Nat.sub_diag. reflexivity. }
    rewrite E1. cbn [sp_protocol sp_host sp_port]. repeat split; try discriminate; destruct host; congruence.
Qed.
(** http://h:80 *)
Example C109_nonvacuous : ParseURI (uri_text (Some s_http) [104] (Some [56;48])) = (mkSIP 80 [104] s_http, true).
Proof. reflexivity. Qed.

Print Assumptions C108_statement_refuted.
Print Assumptions C108_parse_partial.
Print Assumptions C108_total.
Print Assumptions C109_bad_port_statement_refuted.
Print Assumptions C109_parse_uri_partial.
