(** C224-C232: tables loaded from files (components/source_loader). *)
From Coq Require Import String.
From Verif.Model Require Import Common Decimal Http StrUtil SourceLoad.
From Verif.Spec Require Import StrSpec LoadSpec.
From Verif.Proofs Require Import Tac DecimalProofs StrProofs LoadProofs.
Local Open Scope Z_scope.
Local Notation length := List.length.

(** A configuration like the one in the sources: name#age#info. *)
Definition people : config := Config
  [Column (bs "name"%string) KString (VString []) false; Column (bs "age"%string) KInt (VInt 5) true; Column (bs "info"%string) KJson (VJson (bs "{}"%string)) true]
  [35] [bs "name"%string; bs "age"%string; bs "info"%string; bs "ext"%string] false MLine (bs "name"%string).
Definition objects (s : list Z) : bool := match s with 123 :: _ => true | _ => false end.

(** C224 (refuted). In line mode the parser gets exactly the lines of the file. *)
Definition C224_statement : Prop := forall lines, Forall (fun l => ~ In 10 l) lines -> exists fuel, Load fuel MLine [Text (file_of lines)] = Some (lines, 0).
Theorem C224_statement_refuted : ~ C224_statement.
Proof. intros H. destruct (H [[97]]) as [fuel E]; [ repeat constructor; cbn; intuition discriminate | ]. destruct fuel as [|[|[|fuel]]]; cbn in E; discriminate E. Qed.
(** It gets the pieces between newlines: for a file in which every line is terminated, one empty string too many. *)
Theorem C224_pieces_partial : (forall s, exists l, fields_of 10 s l /\ forall fuel, (length l <= fuel)%nat -> Load fuel MLine [Text s] = Some (l, 0)) /\
  (forall lines, Forall (fun l => ~ In 10 l) lines -> forall fuel, (length lines < fuel)%nat -> Load fuel MLine [Text (file_of lines)] = Some (lines ++ [[]], 0)).
Proof.
  split.
  - intros s. destruct (fields_exist s) as [l Hl]. exists l. split; [ exact Hl | ]. intros fuel Hf. cbn [Load read_file]. rewrite (getlines_fields l s fuel Hl Hf), app_nil_r. reflexivity.
  - intros lines HF fuel Hf. cbn [Load read_file]. rewrite (getlines_fields (lines ++ [[]]) _ fuel (file_fields lines HF)), app_nil_r; [ reflexivity | rewrite app_length; cbn; lia ].
Qed.
Example C224_nonvacuous : Load 9 MLine [Text (bs "a#1"%string ++ 10 :: bs "b#2"%string)] = Some ([bs "a#1"%string; bs "b#2"%string], 0).
Proof. reflexivity. Qed.

(** C225 (refuted). Loading ends. *)
Definition C225_statement : Prop := forall m fs, exists fuel r, Load fuel m fs = Some r.
Theorem C225_statement_refuted : ~ C225_statement.
Proof. intros H. destruct (H MLine [Unreadable]) as (fuel & r & E). cbn in E. rewrite spin_none in E. discriminate E. Qed.
(** With only readable and missing files it does, with a result that does not depend on how long one waits. *)
Theorem C225_readable_partial : forall m fs, Forall (fun f => f <> Unreadable) fs -> exists fuel0 l c, forall fuel, (fuel0 <= fuel)%nat -> Load fuel m fs = Some (l, c).
Proof. intros m fs H. exact (load_ok m fs H). Qed.
Example C225_nonvacuous : Load 5 MLine [Missing; Text (bs "x"%string); Text []] = Some ([bs "x"%string; []], 0).
Proof. reflexivity. Qed.

(** C226 (refuted). The result is 0 only if every file was loaded. *)
Definition C226_statement : Prop := forall fuel m fs l, Load fuel m fs = Some (l, 0) -> ~ In Missing fs.
Theorem C226_statement_refuted : ~ C226_statement.
Proof. intros H. apply (H 1%nat MLine [Missing] []); [ reflexivity | left; reflexivity ]. Qed.
(** What it says: -1 exactly if the mode is unknown and some file opens; missing files are silently left out. *)
Theorem C226_result_partial : forall fuel m fs l c, Load fuel m fs = Some (l, c) ->
  (c = 0 \/ c = -1) /\ (c = -1 <-> m = MOther /\ exists f, In f fs /\ f <> Missing) /\ Load fuel m (filter (fun f => match f with Missing => false | _ => true end) fs) = Some (l, c).
Proof.
  intros fuel m fs. induction fs as [|f fs IH]; intros l c E.
  - cbn in E. inv E. split; [ auto | ]. split; [ split; [ discriminate | intros (_ & f & [] & _) ] | reflexivity ].
  - destruct f as [|s|].
    + cbn [Load filter] in *. destruct (IH l c E) as (H1 & H2 & H3). split; [ exact H1 | ]. split; [ | exact H3 ]. rewrite H2. split.
      * intros (A & f & B & D). split; [ exact A | exists f; split; [ right; exact B | exact D ] ].
      * intros (A & f & [<-|B] & D); [ congruence | split; [ exact A | exists f; auto ] ].
    + destruct m; try (cbn [Load filter] in *; match type of E with match ?x with _ => _ end = _ => destruct x as [l1|] end; [ | discriminate E ];
        match type of E with match ?x with _ => _ end = _ => destruct x as [[l2 c2]|] eqn:E2 end; [ | discriminate E ]; inv E; destruct (IH _ _ eq_refl) as (H1 & H2 & H3); rewrite H3;
        split; [ exact H1 | ]; split; [ rewrite H2; split; intros (A & _); discriminate A | reflexivity ]).
      cbn in E. inv E. split; [ auto | ]. split; [ split; [ intros _; split; [ reflexivity | exists (Text s); split; [ left; reflexivity | discriminate ] ] | reflexivity ] | reflexivity ].
    + destruct m; try (cbn [Load filter] in *; match type of E with match ?x with _ => _ end = _ => destruct x as [l1|] end; [ | discriminate E ];
        match type of E with match ?x with _ => _ end = _ => destruct x as [[l2 c2]|] eqn:E2 end; [ | discriminate E ]; inv E; destruct (IH _ _ eq_refl) as (H1 & H2 & H3); rewrite H3;
        split; [ exact H1 | ]; split; [ rewrite H2; split; intros (A & _); discriminate A | reflexivity ]).
      cbn in E. inv E. split; [ auto | ]. split; [ split; [ intros _; split; [ reflexivity | exists Unreadable; split; [ left; reflexivity | discriminate ] ] | reflexivity ] | reflexivity ].
Qed.
Example C226_nonvacuous : Load 3 MOther [Missing; Text [1]] = Some ([], -1) /\ Load 3 MContent [Missing; Text [1; 10]; Missing] = Some ([[1; 10]], 0).
Proof. split; reflexivity. Qed.

(** C227 (refuted). A line made of column texts with the delimiter between them gives a record with what the texts mean. *)
Definition C227_statement : Prop := forall json_ok cf row, delimiter cf <> [] -> NoDup (header cf) -> header cf <> [] -> (forall d, In d (delimiter cf) -> row_ok json_ok cf d row) ->
  exists r, ParseContent json_ok cf (join (delimiter cf) row) = Ok (Some r) /\ describes json_ok cf row r.
(** Of a longer delimiter only the first character is taken away. *)
Theorem C227_statement_refuted : ~ C227_statement.
Proof.
  intros H. pose (cf := Config [Column [98] KString VNull false] [35; 35] [[97]; [98]] false MLine [97]).
  destruct (H objects cf [[120]; [121]]) as (r & E & D).
  - discriminate.
  - repeat constructor; cbn; intuition discriminate.
  - discriminate.
  - intros d [<-|[<-|[]]]; (split; [ reflexivity | ]); (split; [ repeat constructor; cbn; intuition discriminate | ]);
      intros [|[|[|i]]] h c t Hh Hc Ht; cbn in Hh, Ht; try discriminate Hh; inv Hh; inv Ht; cbn in Hc; inv Hc; eexists; reflexivity.
  - vm_compute in E. injection E as <-. destruct (proj1 D 1%nat [98] (Column [98] KString VNull false) [121] eq_refl eq_refl eq_refl) as (v & Hm & Hr).
    cbn in Hm, Hr. rewrite Hr in Hm. discriminate Hm.
Qed.
(** With a delimiter of one character it does: numbers, truth values, strings and JSON, in every column the schemes know. *)
Theorem C227_one_character_partial : forall json_ok cf d row, delimiter cf = [d] -> NoDup (header cf) -> header cf <> [] -> row_ok json_ok cf d row ->
  exists r, ParseContent json_ok cf (join [d] row) = Ok (Some r) /\ describes json_ok cf row r.
Proof. exact parse_row. Qed.
Example C227_nonvacuous : row_ok objects people 35 [bs "joe"%string; bs "-21"%string; bs "{1}"%string; []] /\
  ParseContent objects people (bs "joe#-21#{1}#"%string) = Ok (Some [(bs "name"%string, VString (bs "joe"%string)); (bs "age"%string, VInt (-21)); (bs "info"%string, VJson (bs "{1}"%string))]).
Proof.
  split; [ | reflexivity ]. split; [ reflexivity | ]. split; [ repeat constructor; cbn; intuition discriminate | ].
  intros [|[|[|[|[|i]]]]] h c t Hh Hc Ht; cbn in Hh, Ht; try discriminate Hh; inv Hh; inv Ht; cbn in Hc; inv Hc.
  - eexists. reflexivity.
  - exists (VInt (-21)). exists (-21). split; [ lia | ]. split; reflexivity.
  - eexists. split; reflexivity.
Qed.

(** C228. A line whose number of fields is not the number of columns is left out and changes nothing. *)
Theorem C228_wrong_number_of_fields : forall json_ok cf d content fs t, delimiter cf = [d] -> fields_of d content fs -> length fs <> length (header cf) ->
  ParseContent json_ok cf content = Ok None /\ OnReadData json_ok cf t content = Ok t.
Proof.
  intros J cf d content fs t Hd Hf Hl. assert (E : ParseContent J cf content = Ok None).
  { unfold ParseContent. rewrite Hd, (split_fields d content fs Hf). destruct (Nat.eqb_spec (length fs) (length (header cf))); [ contradiction | reflexivity ]. }
  split; [ exact E | ]. unfold OnReadData. rewrite E. reflexivity.
Qed.
Example C228_nonvacuous : fields_of 35 (bs "joe#1#2"%string) [bs "joe"%string; bs "1"%string; bs "2"%string] /\ OnReadData objects people [] (bs "joe#1#2"%string) = Ok [].
Proof. split; [ | reflexivity ]. split; [ discriminate | ]. split; [ repeat constructor; cbn; intuition discriminate | reflexivity ]. Qed.

(** C229 (refuted). With ignore_header_line the first line of a file is not data. *)
Definition C229_statement : Prop := forall json_ok cf first rest fuel, ignore_header cf = true -> content_mode cf = MLine -> ~ In 10 first ->
  StartLoad json_ok cf (S fuel) [Text (first ++ 10 :: rest)] = StartLoad json_ok cf fuel [Text rest].
Definition headed : config := Config (schemes people) [35] (header people) true MLine (primary people).
Theorem C229_statement_refuted : ~ C229_statement.
Proof.
  intros H. specialize (H objects headed (bs "name#age#info#ext"%string) [] 3%nat eq_refl eq_refl).
  assert (X : ~ In 10 (bs "name#age#info#ext"%string)) by (vm_compute; intuition discriminate). specialize (H X). vm_compute in H. discriminate H.
Qed.
(** The setting has no effect at all. *)
Theorem C229_no_effect_partial : forall json_ok fuel fs sch d h b b' m p, StartLoad json_ok (Config sch d h b m p) fuel fs = StartLoad json_ok (Config sch d h b' m p) fuel fs.
Proof.
  intros. unfold StartLoad. cbn [content_mode]. destruct (Load fuel m fs) as [[l c]|]; [ | reflexivity ].
  assert (E : forall t, OnReadAll json_ok (Config sch d h b m p) t l = OnReadAll json_ok (Config sch d h b' m p) t l); [ | rewrite E; reflexivity ].
  induction l as [|x l IH]; intros t; [ reflexivity | ]. cbn [OnReadAll]. unfold OnReadData, ParseContent. cbn [delimiter header schemes].
  destruct (Split x d false) as [fs'|]; [ | reflexivity ]. destruct (Nat.eqb _ _); [ | apply IH ].
  destruct (columns json_ok sch h fs' []) as [r| |]; try reflexivity. cbn [obind]. apply IH.
Qed.

(** C230 (refuted). A column without a usable text gets its default. *)
Definition C230_statement : Prop := forall json_ok c, c_null c = true -> json_ok [] = false -> HanleColumn json_ok c [] = Ok (c_default c).
Theorem C230_statement_refuted : ~ C230_statement.
Proof. intros H. specialize (H objects (Column [97] KInt (VInt 5) true) eq_refl eq_refl). discriminate H. Qed.
(** JSON columns do, for every text that is no JSON; an int column gets 0, a truth value false, whatever the default. *)
Theorem C230_json_partial : forall json_ok c text, (c_kind c = KJson -> json_ok text = false -> HanleColumn json_ok c text = Ok (c_default c)) /\
  (c_kind c = KInt -> text = [] -> HanleColumn json_ok c text = Ok (VInt 0)) /\ (c_kind c = KBool -> text <> s_true -> HanleColumn json_ok c text = Ok (VBool false)).
Proof.
  intros J c text. unfold HanleColumn. split; [ | split ]; intros ->.
  - intros ->. reflexivity.
  - intros ->. reflexivity.
  - intros H. rewrite beq_neq by exact H. reflexivity.
Qed.

(** C231. Loading a file of rows gives a table in which each name leads to the record of the last row with that name, and no others
    are found; rows may come from several files. *)
Theorem C231_table : forall json_ok cf d p c files, delimiter cf = [d] -> d <> 10 -> NoDup (header cf) -> (2 <= length (header cf))%nat -> content_mode cf = MLine ->
  nth_error (header cf) p = Some (primary cf) -> find_column (schemes cf) (primary cf) = Some c -> c_kind c = KString ->
  Forall (Forall (fun row => row_ok json_ok cf d row /\ Forall (fun t => ~ In 10 t) row)) files ->
  exists fuel0, forall fuel, (fuel0 <= fuel)%nat -> exists t,
    StartLoad json_ok cf fuel (map (fun rows => Text (file_of (map (join [d]) rows))) files) = Ok (Some (t, 0)) /\
    forall k, match last_with p k (concat files) with
      | Some row => exists r, GetByName t k = Some r /\ describes json_ok cf row r
      | None => GetByName t k = None
      end.
Proof.
  intros J cf d p c files Hd Hd10 Hn Hlen Hm Hp Hc Hk HF.
  assert (Hj : forall row, Forall (fun t => ~ In 10 t) row -> ~ In 10 (join [d] row)).
  { induction row as [|a row IH]; intros H; [ intros [] | ]. inversion H as [|? ? Ha H']; subst. destruct row as [|b row]; [ exact Ha | ].
    rewrite join_cons by discriminate. rewrite !in_app_iff. intros [X|[[X|[]]|X]]; [ exact (Ha X) | congruence | exact (IH H' X) ]. }
  assert (HL : exists fuel0, forall fuel, (fuel0 <= fuel)%nat -> Load fuel MLine (map (fun rows => Text (file_of (map (join [d]) rows))) files) =
    Some (concat (map (fun rows => map (join [d]) rows ++ [[]]) files), 0)).
  { clear - HF Hj. induction files as [|rows files IH]; [ exists 0%nat; reflexivity | ]. inversion HF as [|? ? Hr HF']; subst. destruct (IH HF') as [f0 E].
    exists (Nat.max (S (length rows)) f0). intros fuel Hf. cbn [map concat Load read_file].
    rewrite (getlines_fields (map (join [d]) rows ++ [[]]) _ fuel).
    - rewrite E by lia. reflexivity.
    - apply file_fields. clear - Hr Hj. induction Hr as [|row rows [_ H] Hr IH]; constructor; auto.
    - rewrite app_length, map_length. cbn. lia. }
  destruct HL as [fuel0 HL]. exists fuel0. intros fuel Hf. unfold StartLoad. rewrite Hm, (HL fuel Hf). clear HL Hf.
  assert (HE : forall t, OnReadData J cf t [] = Ok t).
  { intros t. apply (C228_wrong_number_of_fields J cf d [] [[]] t Hd); [ | cbn; lia ]. split; [ discriminate | ]. split; [ repeat constructor; intros [] | reflexivity ]. }
  assert (HA : forall l l' t, OnReadAll J cf t (l ++ l') = obind (OnReadAll J cf t l) (fun t => OnReadAll J cf t l')).
  { induction l as [|x l IH]; intros l' t; [ reflexivity | ]. cbn [OnReadAll app]. destruct (OnReadData J cf t x); [ apply IH | reflexivity | reflexivity ]. }
  assert (HT : forall seen t, stored J cf p seen t -> exists t', OnReadAll J cf t (concat (map (fun rows => map (join [d]) rows ++ [[]]) files)) = Ok t' /\ stored J cf p (seen ++ concat files) t').
  { clear Hj. induction files as [|rows files IH]; intros seen t HS; [ exists t; split; [ reflexivity | rewrite app_nil_r; exact HS ] | ].
    inversion HF as [|? ? Hr HF']; subst. cbn [map concat]. destruct (read_rows J cf d p c Hd Hn Hp Hc Hk rows seen t) as (t1 & E1 & S1); [ | exact HS | ].
    - eapply Forall_impl; [ | exact Hr ]. intros a [Ha _]. exact Ha.
    - rewrite !HA, E1. cbn [obind OnReadAll]. rewrite HE. cbn [obind]. destruct (IH HF' _ _ S1) as (t' & E' & S'). exists t'. split; [ exact E' | rewrite app_assoc; exact S' ]. }
  destruct (HT [] []) as (t & E & S); [ intros k; reflexivity | ]. exists t. rewrite E. split; [ reflexivity | exact S ].
Qed.
Example C231_nonvacuous : exists t, StartLoad objects people 9 [Text (bs "joe#1#{}#x"%string ++ 10 :: bs "ann#2#{}#"%string ++ [10]); Text (bs "joe#3#{#"%string ++ [10])] = Ok (Some (t, 0)) /\
  GetByName t (bs "joe"%string) = Some [(bs "name"%string, VString (bs "joe"%string)); (bs "age"%string, VInt 3); (bs "info"%string, VJson (bs "{"%string))] /\ GetByName t (bs "bob"%string) = None.
Proof. eexists. split; [ vm_compute; reflexivity | ]. split; reflexivity. Qed.

(** C232 (refuted). Any bytes can be parsed. *)
Definition C232_statement : Prop := forall json_ok cf content, delimiter cf <> [] -> exists r, ParseContent json_ok cf content = Ok r.
Theorem C232_statement_refuted : ~ C232_statement.
Proof. intros H. destruct (H objects people (bs "joe#2147483648#{}#"%string)) as [r E]; [ discriminate | ]. vm_compute in E. discriminate E. Qed.
(** They can if no scheme has type int. *)
Theorem C232_no_int_partial : forall json_ok cf content, delimiter cf <> [] -> (forall c, In c (schemes cf) -> c_kind c <> KInt) -> exists r, ParseContent json_ok cf content = Ok r.
Proof.
  intros J cf content Hd Hi. unfold ParseContent. destruct (delimiter cf) as [|x dl]; [ congruence | ].
  destruct (split_loop_false x dl content (S (length content)) 0 []) as (ts & A & _); [lia|lia|]. unfold Split. rewrite A. cbn [app].
  destruct (Nat.eqb _ _); [ | eauto ].
  assert (HF : forall h c, find_column (schemes cf) h = Some c -> c_kind c <> KInt).
  { intros h c Hc. apply Hi. clear - Hc. induction (schemes cf) as [|a cs IH]; cbn in Hc; [ discriminate | ]. destruct (find_column cs h); [ right; apply IH; exact Hc | ].
    destruct (beq (c_name a) h); [ inv Hc; left; reflexivity | discriminate ]. }
  assert (HC : forall hs fs out, exists r, columns J (schemes cf) hs fs out = Ok r).
  { induction hs as [|h hs IH]; intros [|f fs] out; cbn [columns]; eauto. destruct (find_column (schemes cf) h) as [c|] eqn:Ec; [ | apply IH ].
    specialize (HF h c Ec). unfold HanleColumn. destruct (c_kind c); try congruence; cbn [obind]; apply IH. }
  destruct (HC (header cf) ts []) as [r Hr]. rewrite Hr. cbn [obind]. eauto.
Qed.

Print Assumptions C224_statement_refuted.
Print Assumptions C224_pieces_partial.
Print Assumptions C225_statement_refuted.
Print Assumptions C225_readable_partial.
Print Assumptions C226_statement_refuted.
Print Assumptions C226_result_partial.
Print Assumptions C227_statement_refuted.
Print Assumptions C227_one_character_partial.
Print Assumptions C228_wrong_number_of_fields.
Print Assumptions C229_statement_refuted.
Print Assumptions C229_no_effect_partial.
Print Assumptions C230_statement_refuted.
Print Assumptions C230_json_partial.
Print Assumptions C231_table.
Print Assumptions C232_statement_refuted.
Print Assumptions C232_no_int_partial.
