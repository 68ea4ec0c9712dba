(** components/boolean_indexer: identifiers, posting-list cursors, index building and retrieval.

    Field names are integers; values are byte strings.  std::hash<std::string> is the parameter
    [hash]; std::sort of the field cursors, which is not stable, is the parameter [srt]. *)
From Coq Require Import List Arith ZArith Bool.
From Verif.Model Require Import Common.
Import ListNotations.
Local Open Scope Z_scope.

(** * Identifiers, id_generator.cc.  uint64_t arithmetic: every shift result is taken modulo 2^64. *)
Definition u64 (x : Z) : Z := x mod 2 ^ 64.
(** id_generator.cc:10-15 *)
Definition gen_conj_id (doc idx size : Z) : Z :=
  let doc := if doc <? 0 then Z.lor (2 ^ 43) (u64 (- doc)) else doc in
  Z.lor (Z.lor (u64 (Z.shiftl size 52)) (u64 (Z.shiftl idx 44))) (u64 doc).
(** id_generator.cc:17-21 *)
Definition conj_doc (cid : Z) : Z :=
  let doc := Z.land cid 0x7FFFFFFFFFF in
  if Z.land (Z.shiftr cid 43) 1 =? 0 then doc else - doc.
(** id_generator.cc:23-29 *)
Definition conj_index (cid : Z) : Z := Z.land (Z.shiftr cid 44) 0xFF.
Definition conj_size_of (cid : Z) : Z := Z.land (Z.shiftr cid 52) 0xFF.
(** id_generator.cc:32-35 *)
Definition gen_entry_id (cid : Z) (exclude : bool) : Z :=
  let e := u64 (Z.shiftl cid 4) in if exclude then e else Z.lor e 1.
(** id_generator.cc:37-47 *)
Definition is_include (eid : Z) : bool := 0 <? Z.land eid 1.
Definition entry_conj (eid : Z) : Z := Z.shiftr eid 4.
(** id_generator.cc:49-55 *)
Definition entry_doc (eid : Z) : Z := conj_doc (entry_conj eid).
(** id_generator.h:11 *)
Definition NULLENTRY : Z := 0xFFFFFFFFFFFFFFFF.

(** * Cursors *)
(** scanner_cursor.h:13-53.  [index_] as a natural number: it starts at 0 and only grows. *)
Record cursor := mkcu { cu_list : list Z; cu_idx : nat }.
(** scanner_cursor.h:19-21 *)
Definition cu_cur (c : cursor) : Z := nth (cu_idx c) (cu_list c) NULLENTRY.

(** LinearSkipTo / LinearSkip, scanner_cursor.h:23-35: [below x] is [x < id] or [x <= id].
    Runs on the rest of the list starting at [idx]. *)
Fixpoint linear (below : Z -> bool) (rest : list Z) (idx : nat) : nat :=
  match rest with
  | [] => idx
  | x :: rest' => if below x then linear below rest' (S idx) else idx
  end.
(** EntriesCursor::Skip and SkipTo, scanner_cursor.cc:11-51; the two functions differ only in
    the comparison.  64 is linear_skip_distance; int overflow of [index_ + right_idx] (lists of more
    than 2^30 entries) is not modelled.  [fuel] bounds the rounds. *)
Fixpoint skip_loop (fuel : nat) (below : Z -> bool) (l : list Z) (idx right : nat) : nat :=
  match fuel with
  | O => idx
  | S f =>
      if (idx <? right)%nat then
        if (right - idx <? 64)%nat then linear below (skipn idx l) idx
        else
          let mid := Nat.div2 (idx + right) in
          let (idx', right') := if below (nth mid l NULLENTRY) then (S mid, right) else (idx, mid) in
          if ((length l <=? idx')%nat || negb (below (nth idx' l NULLENTRY))) then idx'
          else skip_loop f below l idx' right'
      else idx
  end.
Definition cu_move (below : Z -> bool) (c : cursor) : cursor :=
  mkcu (cu_list c) (skip_loop (S (length (cu_list c))) below (cu_list c) (cu_idx c) (length (cu_list c))).
Definition cu_skip (id : Z) (c : cursor) : cursor := cu_move (fun x => x <=? id) c.
Definition cu_skip_to (id : Z) (c : cursor) : cursor := cu_move (fun x => x <? id) c.

(** FieldCursor, scanner_cursor.h:55-87: [fc_cur] is the position of [current_] in [cursors_] *)
Record fcursor := mkfc { fc_cursors : list cursor; fc_cur : nat; fc_id : Z }.

(** the loops of scanner_cursor.cc:63-69, 78-84 and 90-96: remember the first cursor with a smaller id *)
Fixpoint pick_min (l : list cursor) (i : nat) (cur : nat) (minid : Z) : nat * Z :=
  match l with
  | [] => (cur, minid)
  | c :: l' => if cu_cur c <? minid then pick_min l' (S i) i (cu_cur c) else pick_min l' (S i) cur minid
  end.
Definition cursor_at (l : list cursor) (i : nat) : cursor := nth i l (mkcu [] 0).
(** scanner_cursor.cc:60-70, for at least one cursor *)
Definition fc_init (l : list cursor) : fcursor :=
  let (cur, m) := pick_min l 0 0 (cu_cur (cursor_at l 0)) in mkfc l cur m.
(** scanner_cursor.cc:76-98 *)
Definition fc_move (mv : cursor -> cursor) (f : fcursor) : fcursor :=
  let l := map mv (fc_cursors f) in
  let (cur, _) := pick_min l 0 (fc_cur f) NULLENTRY in
  mkfc l cur (cu_cur (cursor_at l cur)).
Definition fc_skip (id : Z) := fc_move (cu_skip id).
Definition fc_skip_to (id : Z) := fc_move (cu_skip_to id).

(** * Documents, document.h *)
Record expr := mkex { x_field : Z; x_values : list (list Z); x_excl : bool }.
Definition conj := list expr.
Record doc := mkdoc { d_id : Z; d_conjs : list conj }.
(** Conjunction::size_, document.cc:33-38 *)
Definition conj_size (c : conj) : Z := Z.of_nat (length (filter (fun x => negb (x_excl x)) c)).

Section Index.
Variable hash : list Z -> Z.

(** HasherParser, number_parser.cc:36-47 *)
Definition parse (vs : list (list Z)) : list Z :=
  map hash (filter (fun v => match v with [] => false | _ => true end) vs).

(** be_indexer.h:44-52 and common_container.h:29-33: wildcard list, known fields, posting lists by
    (field, value); only the default container exists. *)
Record index := mkix { ix_wild : list Z; ix_meta : list Z; ix_post : list ((Z * Z) * list Z) }.

(** values_[attr].push_back(eid), common_container.cc:17-20 *)
Fixpoint post_add (a : Z * Z) (eid : Z) (p : list ((Z * Z) * list Z)) : list ((Z * Z) * list Z) :=
  match p with
  | [] => [(a, [eid])]
  | (b, l) :: p' =>
      if ((fst a =? fst b) && (snd a =? snd b)) then (b, l ++ [eid]) :: p'
      else (b, l) :: post_add a eid p'
  end.
Fixpoint post_find (a : Z * Z) (p : list ((Z * Z) * list Z)) : option (list Z) :=
  match p with
  | [] => None
  | (b, l) :: p' => if ((fst a =? fst b) && (snd a =? snd b)) then Some l else post_find a p'
  end.

(** be_indexer_builder.cc:41-59 *)
Definition index_expr (cid : Z) (ix : index) (x : expr) : index :=
  let eid := gen_entry_id cid (x_excl x) in
  mkix (ix_wild ix) (x_field x :: ix_meta ix)
       (fold_left (fun p v => post_add (x_field x, v) eid p) (parse (x_values x)) (ix_post ix)).
(** be_indexer_builder.cc:34-60; the id given by Document::AddConjunction, document.cc:81-88, where
    both counts are converted to uint8_t *)
Definition index_conj (did : Z) (ix : index) (ic : nat * conj) : index :=
  let cid := gen_conj_id did (Z.of_nat (fst ic) mod 256) (conj_size (snd ic) mod 256) in
  let ix := if conj_size (snd ic) =? 0
            then mkix (ix_wild ix ++ [gen_entry_id cid false]) (ix_meta ix) (ix_post ix) else ix in
  fold_left (index_expr cid) (snd ic) ix.
Fixpoint number {A} (n : nat) (l : list A) : list (nat * A) :=
  match l with [] => [] | x :: l' => (n, x) :: number (S n) l' end.
Definition add_document (ix : index) (d : doc) : index :=
  fold_left (index_conj (d_id d)) (number 0 (d_conjs d)) ix.

(** std::sort on integers *)
Fixpoint insert_sorted (x : Z) (l : list Z) : list Z :=
  match l with [] => [x] | y :: l' => if x <=? y then x :: l else y :: insert_sorted x l' end.
Definition isort (l : list Z) : list Z := fold_right insert_sorted [] l.
(** CompleteIndex, be_indexer.cc:27-39 and common_container.cc:38-47 *)
Definition build (docs : list doc) : index :=
  let ix := fold_left add_document docs (mkix [] [] []) in
  mkix (isort (ix_wild ix)) (ix_meta ix) (map (fun p => (fst p, isort (snd p))) (ix_post ix)).

(** common_container.cc:24-36 *)
Definition retrieve_entries (ix : index) (f : Z) (vs : list (list Z)) : list (list Z) :=
  flat_map (fun v => match post_find (f, v) (ix_post ix) with Some l => [l] | None => [] end) (parse vs).

(** index_scanner.cc:27-63.  An unknown field: [meta] is null and [meta->parser] is read (line 33). *)
Fixpoint init_cursors (ix : index) (q : list (Z * list (list Z))) : outcome (list fcursor) :=
  match q with
  | [] => Ok (match ix_wild ix with [] => [] | w => [fc_init [mkcu w 0]] end)
  | (f, vs) :: q' =>
      if existsb (Z.eqb f) (ix_meta ix) then
        let es := retrieve_entries ix f vs in
        obind (init_cursors ix q') (fun cs =>
          Ok (match es with [] => cs | _ => fc_init (map (fun l => mkcu l 0) es) :: cs end))
      else UB
  end.

Variable srt : list fcursor -> list fcursor.

(** index_scanner.cc:84-86 *)
Fixpoint drop_ended (cs : list fcursor) : list fcursor :=
  match cs with
  | [] => []
  | c :: cs' =>
      match drop_ended cs' with
      | [] => if fc_id c =? NULLENTRY then [] else [c]
      | cs2 => c :: cs2
      end
  end.
(** index_scanner.cc:112-117 on the cursors from position [k] on *)
Fixpoint skip_same (cid next : Z) (cs : list fcursor) : list fcursor :=
  match cs with
  | [] => []
  | c :: cs' => if cid =? entry_conj (fc_id c) then fc_skip next c :: skip_same cid next cs' else cs
  end.

(** One round of index_scanner.cc:76-123: [None] when the loop ends, else the new cursors and what
    was pushed to the result.  [end_conj_id] is computed from [eid] (line 105), so the test of line 107
    is always true. *)
Definition round (cs : list fcursor) : option (list fcursor * list Z) :=
  match drop_ended (srt cs) with
  | [] => None                                                         (* line 88 *)
  | (c0 :: _) as cs1 =>
      let eid := fc_id c0 in
      let cid := entry_conj eid in
      let k := Z.to_nat (if conj_size_of cid =? 0 then 1 else conj_size_of cid) in
      if (length cs1 <? k)%nat then None                               (* line 100 *)
      else
        let end_eid := fc_id (nth (k - 1) cs1 c0) in
        let end_cid := entry_conj eid in                               (* line 105 *)
        let next0 := gen_entry_id (entry_conj end_eid) true in         (* line 106 *)
        let same := end_cid =? cid in
        let next := if same then u64 (end_eid + 1) else next0 in       (* line 108 *)
        let out := if same && is_include eid then [entry_doc eid] else [] in
        let tail := skipn k cs1 in
        let tail' := if same && negb (is_include eid) then skip_same cid next tail else tail in
        Some (map (fc_skip_to next) (firstn k cs1) ++ tail', out)
  end.
Fixpoint scan (fuel : nat) (cs : list fcursor) : option (list Z) :=
  match fuel with
  | O => None
  | S f => match round cs with
           | None => Some []
           | Some (cs', out) => match scan f cs' with Some r => Some (out ++ r) | None => None end
           end
  end.
(** IndexScanner::Retrieve, index_scanner.cc:65-127 *)
Definition retrieve (fuel : nat) (docs : list doc) (q : list (Z * list (list Z))) : outcome (option (list Z)) :=
  obind (init_cursors (build docs) q) (fun cs => Ok (scan fuel cs)).
End Index.
