(** C283-C286: the target of an HTTP request. *)
From Verif.Model Require Import Common UrlParser.
From Verif.Spec Require Import UriSpec.
From Verif.Proofs Require Import Tac UrlParserProofs.
Local Open Scope Z_scope.

(** The text of a field, None where it is not set. *)
Definition text_of (buf : list Z) (f : option field) : option (list Z) := match f with Some (o, n) => Some (firstn (Z.to_nat n) (skipn (Z.to_nat o) buf)) | None => None end.
Definition not_empty (l : list Z) : option (list Z) := match l with [] => None | _ => Some l end.
Definition bind (o : option (list Z)) (f : list Z -> option (list Z)) : option (list Z) := match o with Some l => f l | None => None end.
(** The fields are the components of the target; empty ones are not set. *)
Definition components (i : uri) (u : urlf) : Prop := let t := text_of (show i) in
  t (uf_path u) = not_empty (i_path i) /\ t (uf_query u) = bind (i_query i) not_empty /\ t (uf_fragment u) = bind (i_frag i) (fun f => not_empty (strip f)) /\
  match i_auth i with
  | None => uf_schema u = None /\ uf_host u = None /\ uf_port u = None /\ uf_userinfo u = None
  | Some (s, a) => t (uf_schema u) = Some s /\ t (uf_host u) = Some (host_inner (a_host a)) /\ t (uf_port u) = a_port a /\ t (uf_userinfo u) = bind (a_user a) not_empty /\
      match a_port a with Some p => uf_portnum u = dec p | None => True end
  end.

(** *** C283: the parser accepts exactly the targets of HTTP, and reports their components. *)
Definition C283_statement : Prop := forall buf, (parse_url buf <> None <-> exists i, uri_ok i /\ buf = show i) /\ (forall i u, uri_ok i -> buf = show i -> parse_url buf = Some u -> components i u).
(** A path of 65537 bytes is reported as one of a single byte. *)
Lemma long_parse : forall l, Forall pchar l -> Z.of_nat (length l) = 65536 -> exists u, parse_url (47 :: l) = Some u /\ uf_path u = Some (0, 1).
Proof.
  intros l F LL. pose proof (scan_origin 47 l None None (or_introl eq_refl) F I I) as S. cbn [opt] in S. rewrite !app_nil_r in S. unfold parse_url. rewrite S. unfold rest_fields, frag_field, query_field. cbn [with_field put no_fields uf_schema uf_host uf_port].
  eexists. split; [reflexivity|]. cbn [uf_path length]. rewrite Nat2Z.inj_succ, LL. reflexivity.
Qed.
Lemma long_ok : forall l, Forall pchar l -> uri_ok (mkuri None (47 :: l) None None).
Proof. intros l F. split; [exists l; left; reflexivity|]. cbn [i_path i_query i_frag]. split; [|auto]. constructor; [unfold pchar; lia|exact F]. Qed.
Theorem C283_statement_refuted : ~ C283_statement.
Proof.
  intros H. assert (G : forall l, Forall pchar l -> Z.of_nat (length l) = 65536 -> False).
  { intros l F LL. destruct (long_parse l F LL) as (u & E & P). destruct (H (47 :: l)) as [_ C]. destruct (C (mkuri None (47 :: l) None None) u (long_ok l F)) as (C1 & _); [unfold show, show_rest; cbn [i_auth i_path i_query i_frag opt]; now rewrite !app_nil_r|exact E|].
    rewrite P in C1. unfold show, show_rest in C1. cbn [i_auth i_path i_query i_frag opt app] in C1. unfold text_of, not_empty in C1. change (Z.to_nat 1) with 1%nat in C1. change (Z.to_nat 0) with 0%nat in C1. cbn [skipn firstn app] in C1.
    injection C1 as C1. rewrite <- C1 in LL. cbn in LL. lia. }
  apply (G (repeat 97 (Z.to_nat 65536))); [|rewrite repeat_length; lia]. apply Forall_forall. intros c I. apply repeat_spec in I. subst c. unfold pchar. lia.
Qed.
Lemma text_of_ftext buf f : text_of buf f = ftext buf f. Proof. reflexivity. Qed.
(** For texts of less than 2^16 bytes. *)
Theorem C283_targets_partial : forall buf, Z.of_nat (length buf) < 65536 ->
  (parse_url buf <> None <-> exists i, uri_ok i /\ buf = show i) /\ (forall i u, uri_ok i -> buf = show i -> parse_url buf = Some u -> components i u).
Proof.
  intros buf L. split.
  - split; [destruct (parse_url buf) as [u|] eqn:E; [intros _; exact (parse_inv buf u L E)|congruence]|]. intros (i & O & ->). rewrite parse_show by assumption. discriminate.
  - intros i u O -> E. rewrite parse_show in E by assumption. injection E as <-. pose proof (fields_text i O) as (A & B & C & D). unfold components. split; [exact A|]. split; [exact B|]. split; [exact C|].
    destruct (i_auth i) as [[s a]|] eqn:EA; [|exact D]. destruct D as (D1 & D2 & D3 & D4 & D5). split; [exact D1|]. split; [exact D2|]. split; [exact D3|]. split; [exact D4|]. unfold port_num in D5. rewrite EA in D5. destruct (a_port a); [exact D5|exact I].
Qed.
Ltac fall := repeat (apply Forall_cons; [unfold uchar, v6_char, hexdigit, zchar, qchar, fchar, pchar, name_char, letter, digit; cbn [In]; lia|]); apply Forall_nil.
(** http://me@[::1%a]:8080/x?k#f *)
Definition ex_uri : uri := mkuri (Some ([104; 116; 116; 112], mkauth (Some [109; 101]) (V6 [58; 58; 49] (Some [97])) (Some [56; 48; 56; 48]))) [47; 120] (Some [107]) (Some [35; 102]).
Example C283_example : uri_ok ex_uri /\ (exists u, parse_url (show ex_uri) = Some u /\ uf_portnum u = 8080) /\ parse_url [47; 32] = None /\ parse_url [104; 58; 47; 47; 47] = None /\ parse_url [104; 58; 47; 47; 120; 58; 54; 53; 53; 51; 54] = None.
Proof.
  split; [|split; [vm_compute; eexists; split; reflexivity|vm_compute; auto]].
  unfold uri_ok, ex_uri. cbn [i_auth i_path i_query i_frag]. unfold auth_ok. cbn [a_user a_host a_port host_ok].
  split; [split; [discriminate|]; split; [fall|]; split; [split; [fall|]; split; [split; [discriminate|]; split; [fall|]; split; [discriminate|]; fall|]|]|].
  - split; [discriminate|]. split; [fall|vm_compute; discriminate].
  - split; [right; exists [120]; reflexivity|discriminate].
  - split; [fall|]. split; fall.
Qed.

(** *** C284: Path() of a request is always the path of its URL, and reads nothing else. *)
Definition C284_statement : Prop := forall l, let r := rrun l new_req in path r <> UB /\ (forall i, uri_ok i -> request_url r = show i -> path r = Ok (i_path i)).
(** "/" followed by [n] letters; the same with a space. *)
Definition good_url (n : nat) : list Z := 47 :: repeat 97 n.
Definition bad_url (n : nat) : list Z := 47 :: 32 :: repeat 97 n.
(** After a URL that cannot be parsed, Path() reads the freed text of the former one. *)
Theorem C284_dangling_refuted : exists l, path (rrun l new_req) = UB.
Proof. exists [RSet (good_url 20); RSet (bad_url 40)]. vm_compute. reflexivity. Qed.
(** A new request has the URL "/" and no path; a URL without a path leaves the path of an earlier one; one of 65537 bytes gives a path of one byte. *)
Theorem C284_new_refuted : request_url new_req = [47] /\ path new_req = Ok [].
Proof. split; reflexivity. Qed.
Theorem C284_stale_refuted : exists l i, uri_ok i /\ request_url (rrun l new_req) = show i /\ i_path i = [] /\ path (rrun l new_req) = Ok [104; 58].
Proof.
  exists [RSet [47; 97]; RSet [104; 58; 47; 47; 98]], (mkuri (Some ([104], mkauth None (Name [98]) None)) [] None None). split; [|vm_compute; auto].
  unfold uri_ok, auth_ok. cbn [i_auth i_path i_query i_frag a_user a_host a_port host_ok]. split; [|auto]. split; [discriminate|]. split; [fall|]. split; [|split; auto]. split; [exact I|]. split; [|exact I]. split; [discriminate|]. fall.
Qed.
Theorem C284_statement_refuted : ~ C284_statement.
Proof. intros H. destruct C284_dangling_refuted as (l & E). destruct (H l) as [N _]. exact (N E). Qed.
(** Whatever happened before: once the URL set, or completed by appending, is a target with a path, of less than 2^16 bytes, Path() is that path; putting in parameters does not change it. *)
Definition is_param (o : rop) : Prop := match o with RParam _ _ => True | _ => False end.
Theorem C284_path_partial : forall l o ps i, ~ is_param o -> Forall is_param ps -> let r := rrun (l ++ o :: ps) new_req in
  uri_ok i -> i_path i <> [] -> Z.of_nat (length (request_url r)) < 65536 -> request_url r = show i -> path r = Ok (i_path i).
Proof.
  intros l o ps i N P. unfold rrun. rewrite fold_left_app. cbn [fold_left]. set (r0 := fold_left rstep l new_req). cbv zeta.
  assert (K : forall ps r, Forall is_param ps -> path (fold_left rstep ps r) = path r /\ request_url (fold_left rstep ps r) = request_url r).
  { induction ps0 as [|[t|t|k v] ps0 IH]; intros r F; cbn [fold_left]; inv F; try contradiction; [auto|]. destruct (IH (rstep r (RParam k v)) H2) as [-> ->]. split; reflexivity. }
  destruct (K ps (rstep r0 o) P) as [-> ->]. intros O PN L E.
  assert (PV : forall r, request_url (parse_view r) = request_url r) by (intros r; unfold parse_view, request_url; destruct (parse_url _); reflexivity).
  destruct o as [t|t|k v]; cbn [rstep] in *; [| |exfalso; apply N; exact I]; unfold set_url, append_url in *; rewrite PV in *; rewrite E in L; now apply parse_view_ok.
Qed.
Example C284_example : exists l i, uri_ok i /\ i_path i = good_url 3 /\ request_url (rrun (l ++ [RAppend [97; 63; 98]]) new_req) = show i /\ path (rrun (l ++ [RAppend [97; 63; 98]]) new_req) = Ok (good_url 3).
Proof.
  exists [RSet (bad_url 50); RSet (good_url 2)], (mkuri None (good_url 3) (Some [98]) None). split; [|vm_compute; auto]. split; [exists [97; 97; 97]; auto|]. cbn. split; [fall|]. split; [fall|exact I].
Qed.

(** *** C285: however the URL of a request is cut as it arrives, Path() never reads anything else than the part that arrived, and in the end it is that of the whole. *)
Lemma show_cons i : uri_ok i -> show i <> [].
Proof.
  intros (A & _). unfold show, show_rest. destruct (i_auth i) as [[s a]|]; [destruct A as (SN & _); destruct s; [congruence|discriminate]|]. destruct A as (p & [->| ->]); discriminate.
Qed.
Theorem C285_parts : forall i parts, uri_ok i -> Z.of_nat (length (show i)) < 65536 -> concat parts = show i ->
  (forall done rest, parts = done ++ rest -> exists p, path (rrun (map RAppend done) new_req) = Ok p /\ (p = [47] \/ p = [] \/ exists j, uri_ok j /\ show j = concat done /\ p = i_path j)) /\
  (i_path i <> [] -> path (rrun (map RAppend parts) new_req) = Ok (i_path i)) /\ request_url (rrun (map RAppend parts) new_req) = show i.
Proof.
  intros i parts O L E.
  assert (URL : forall l r, r_url (fold_left rstep (map RAppend l) r) = r_url r ++ concat l).
  { induction l as [|t l IH]; intros r; cbn [map fold_left concat]; [now rewrite app_nil_r|]. rewrite IH. cbn [rstep]. unfold append_url. assert (X : forall r, r_url (parse_view r) = r_url r) by (intros r0; unfold parse_view; destruct (parse_url _); reflexivity). rewrite X.
    unfold store. destruct (_ <=? _); cbn [r_url]; now rewrite app_assoc. }
  (* the view of the path: none yet, or right for the part that arrived *)
  set (none := fun v => v = empty_view \/ uv_place v = PRoot /\ uv_off v = 0 /\ uv_len v = 1).
  assert (INV : forall done rest, parts = done ++ rest -> let r := fold_left rstep (map RAppend done) new_req in
    (none (r_path r) /\ forall j, uri_ok j -> show j = concat done -> i_path j = []) \/ (exists j, uri_ok j /\ i_path j <> [] /\ show j = concat done /\ path r = Ok (i_path j))).
  { induction done as [|t done IH] using rev_ind; intros rest PR; cbv zeta.
    - left. split; [left; reflexivity|]. intros j J S. exfalso. exact (show_cons j J S).
    - assert (AL : alive USpaces (concat (done ++ [t]))). { apply (alive_prefix _ (concat rest)). rewrite <- concat_app, <- PR, E. now apply show_alive. }
      assert (LE : (length (concat (done ++ [t])) <= length (show i))%nat) by (rewrite <- E, PR, (concat_app (done ++ [t]) rest), app_length; lia).
      rewrite <- app_assoc in PR. specialize (IH _ PR). cbv zeta in IH. rewrite map_app, fold_left_app. set (r := fold_left rstep (map RAppend done) new_req) in *. cbn [map fold_left rstep].
      assert (RU : r_url r = concat done) by (unfold r; rewrite URL; reflexivity). assert (CT : concat (done ++ [t]) = concat done ++ t) by (rewrite concat_app; cbn; now rewrite app_nil_r). rewrite CT in *.
      unfold append_url. set (s := store (r_url r ++ t) r). assert (SU : r_url s = concat done ++ t) by (unfold s, store; rewrite RU; destruct (_ <=? _); reflexivity). assert (SP : r_path s = r_path r) by (unfold s, store; destruct (_ <=? _); reflexivity).
      destruct IH as [[NP NJ]|(j & JO & JN & JS & JP)].
      + (* none so far *)
        destruct (parse_url (request_url s)) as [u|] eqn:PU.
        * destruct (concat done ++ t) as [|x y] eqn:CD.
          { left. split; [|intros j J S; exfalso; exact (show_cons j J S)]. unfold parse_view. rewrite PU. unfold request_url in PU. rewrite SU in PU. vm_compute in PU. injection PU as <-. cbn [uf_path r_path]. right. rewrite SU. auto. }
          assert (RQ : request_url s = show i \/ True) by auto. clear RQ. assert (RQ : request_url s = x :: y) by (unfold request_url; rewrite SU; reflexivity). rewrite RQ in PU. destruct (parse_inv (x :: y) u) as (j & JO & JS); [lia|exact PU|].
          assert (ND : i_path j = [] \/ i_path j <> []) by (destruct (i_path j); [auto|right; discriminate]). destruct ND as [ND|ND].
          -- left. assert (UP : uf_path u = None) by (rewrite JS in PU; rewrite parse_show in PU by (assumption || (rewrite <- JS; lia)); injection PU as <-; unfold fields_of; rewrite ND; destruct (i_auth j) as [[? ?]|]; reflexivity).
             split; [unfold parse_view; rewrite RQ, PU; cbn [r_path]; rewrite UP, SP; exact NP|]. intros k K KS. destruct (i_path k) as [|c p] eqn:KP; [reflexivity|exfalso].
             rewrite <- KS in PU. rewrite parse_show in PU by (assumption || (rewrite KS; lia)). injection PU as <-. unfold fields_of in UP. rewrite KP in UP. destruct (i_auth k) as [[? ?]|]; discriminate UP.
          -- right. exists j. split; [exact JO|]. split; [exact ND|]. split; [now rewrite JS|]. apply parse_view_ok; [exact JO|rewrite <- JS; lia|now rewrite RQ|exact ND].
        * left. split; [unfold parse_view; rewrite PU, SP; exact NP|]. intros j J S. exfalso. assert (RQ : request_url s = show j). { unfold request_url. rewrite SU, <- S. pose proof (show_cons j J). destruct (show j); [congruence|reflexivity]. }
          rewrite RQ, parse_show in PU by (assumption || (rewrite S; lia)). discriminate.
      + right. rewrite <- JS in AL. destruct (show_extend j t JO JN AL) as (k & KO & KN & KS & _). exists k. rewrite KS, JS. split; [exact KO|]. split; [exact KN|]. split; [reflexivity|].
        apply parse_view_ok; [exact KO|rewrite KS, JS; lia| |exact KN]. unfold request_url. rewrite SU, <- JS, <- KS. pose proof (show_cons k KO). destruct (show k); [congruence|reflexivity]. }
  split; [|split].
  - intros done rest PR. unfold rrun. destruct (INV done rest PR) as [[[NP|(NP & NO & NL)] _]|(j & JO & JN & JS & JP)].
    + exists []. split; [unfold path; rewrite NP; reflexivity|auto].
    + exists [47]. split; [|auto]. unfold path, read_view. rewrite NP, NO, NL. reflexivity.
    + exists (i_path j). split; [exact JP|right; right; eauto].
  - intros PN. unfold rrun. destruct (INV parts [] (eq_sym (app_nil_r parts))) as [[_ NJ]|(j & JO & JN & JS & JP)].
    + exfalso. apply PN. apply NJ; auto.
    + rewrite JP. f_equal. assert (PJ := parse_show j JO). rewrite JS, E, (parse_show i O L) in PJ. specialize (PJ L). injection PJ as PJ. pose proof (fields_text i O) as (FI & _). pose proof (fields_text j JO) as (FJ & _). rewrite JS, E, <- PJ, FI in FJ.
      unfold piece in FJ. destruct (i_path i), (i_path j); congruence.
  - unfold rrun, request_url. rewrite URL. cbn [new_req r_url app]. rewrite E. pose proof (show_cons i O). destruct (show i); [congruence|reflexivity].
Qed.
Example C285_example : path (rrun (map RAppend [[47]; [97; 98]; [99; 63]; [100]]) new_req) = Ok [47; 97; 98; 99].
Proof. vm_compute. reflexivity. Qed.

(** *** C286: GetUrlParam gives the value of a parameter of the URL's query. *)
Definition plain (c : Z) : Prop := 97 <= c <= 122.
Definition C286_statement : Prop := forall k v l, k <> [] -> Forall plain k -> Forall plain v -> get_param k (rrun (l ++ [RSet ([47; 63] ++ k ++ [61] ++ v)]) new_req) = v.
Theorem C286_statement_refuted : ~ C286_statement.
Proof. intros H. assert (P : forall c, c = 97 \/ c = 98 -> Forall plain [c]) by (intros c C; constructor; [unfold plain; lia|constructor]). assert (X := H [97] [98] [] ltac:(discriminate) (P 97 (or_introl eq_refl)) (P 98 (or_intror eq_refl))). vm_compute in X. discriminate. Qed.
(** No URL changes any parameter: GetUrlParam gives the last value the user put in himself, or nothing. *)
Definition last_put (k : list Z) (l : list rop) (v : list Z) : Prop := exists a b, l = a ++ RParam k v :: b /\ forall w, ~ In (RParam k w) b.
Theorem C286_own_params_partial : forall k l, (forall v, last_put k l v -> get_param k (rrun l new_req) = v) /\ ((forall v, ~ In (RParam k v) l) -> get_param k (rrun l new_req) = []).
Proof.
  intros k l.
  assert (PV : forall r, r_params (parse_view r) = r_params r) by (intros r; unfold parse_view; destruct (parse_url _); reflexivity).
  assert (ST : forall t r, r_params (store t r) = r_params r) by (intros t r; unfold store; destruct (_ <=? _); reflexivity).
  assert (K : forall b r, (forall w, ~ In (RParam k w) b) -> get_param k (fold_left rstep b r) = get_param k r).
  { induction b as [|o b IH]; intros r N; cbn [fold_left]; [reflexivity|]. rewrite IH by (intros w I; apply (N w); right; exact I). destruct o as [t|t|k' v']; cbn [rstep]; unfold get_param, set_url, append_url; rewrite ?PV, ?ST; try reflexivity.
    cbn [put_param r_params find_param]. destruct (list_eq_dec Z.eq_dec k k') as [->|]; [exfalso; apply (N v'); left; reflexivity|reflexivity]. }
  split.
  - intros v (a & b & -> & N). unfold rrun. rewrite fold_left_app. cbn [fold_left]. rewrite K by exact N. cbn [rstep]. unfold get_param, put_param. cbn [r_params find_param]. destruct (list_eq_dec Z.eq_dec k k); [reflexivity|congruence].
  - intros N. unfold rrun. rewrite K by exact N. reflexivity.
Qed.
Example C286_example : last_put [97] [RParam [97] [98]; RSet [47]; RParam [97] [99]; RAppend [63; 97; 61; 100]] [99].
Proof. exists [RParam [97] [98]; RSet [47]], [RAppend [63; 97; 61; 100]]. split; [reflexivity|]. intros w [I|[]]. discriminate. Qed.

Print Assumptions C283_statement_refuted.
Print Assumptions C283_targets_partial.
Print Assumptions C284_dangling_refuted.
Print Assumptions C284_new_refuted.
Print Assumptions C284_stale_refuted.
Print Assumptions C284_statement_refuted.
Print Assumptions C284_path_partial.
Print Assumptions C285_parts.
Print Assumptions C286_statement_refuted.
Print Assumptions C286_own_params_partial.
