(** components/inverted_indexer: bitmap posting lists, the posting list manager, string and range fields, Indexer.

    [crc] is crc64 over the bytes of a sorted id vector (posting_list_manager.cc:27-28), a parameter. A pointer to a
    posting list is the key under which ids_table_ owns it (lists are never changed or dropped after they were built);
    NULL is [None]. The iteration orders of unordered containers and of std::set<const BitMapPostingList*> (ordered
    by address) are the parameters [ordm], [ordf], [ordp]. Printing is left out, but the calls made to produce what is
    printed are kept. The registered fields are fixed before the first document. *)
From Verif.Model Require Import Common Decimal StrUtil.
Open Scope nat_scope.

(** bitmap_posting_list.h:15-42 *)
Record bitmap := mkBm { bm_ids : nat; bm_bits : nat; bm_words : list Z }.
(** bitmap_posting_list.h:17-20 *)
Definition new_bitmap (bits ids : nat) (value : Z) : bitmap := mkBm ids bits (repeat value ((bits + 63) / 64)).
Definition with_words (b : bitmap) (w : list Z) : bitmap := mkBm (bm_ids b) (bm_bits b) w.
(** bitmap_posting_list.cc:5-7. (memset of the whole storage; &v[0] of an empty vector is not dereferenced.) *)
Definition ResetBits (b : bitmap) : bitmap := with_words b (map (fun _ => 0%Z) (bm_words b)).
(** Mask of a bit (cc:13, 20, 25): 1ul << (63 - idx % 64). *)
Definition bit_mask (idx : nat) : Z := Z.shiftl 1 (63 - Z.of_nat (idx mod 64)).
Definition upd (n : nat) (v : Z) (l : list Z) : list Z := firstn n l ++ v :: skipn (S n) l.
(** bitmap_posting_list.cc:9-14 *)
Definition SetBit (b : bitmap) (idx : nat) : outcome bitmap :=
  if idx <? length (bm_words b) * 64
  then Ok (with_words b (upd (idx / 64) (Z.lor (nth (idx / 64) (bm_words b) 0%Z) (bit_mask idx)) (bm_words b)))
  else CheckFail.
(** bitmap_posting_list.cc:16-21; ~m on a uint64_t *)
Definition ClearBit (b : bitmap) (idx : nat) : outcome bitmap :=
  if idx <? length (bm_words b) * 64
  then Ok (with_words b (upd (idx / 64) (Z.land (nth (idx / 64) (bm_words b) 0%Z) (2 ^ 64 - 1 - bit_mask idx)%Z) (bm_words b)))
  else CheckFail.
(** bitmap_posting_list.cc:23-26 *)
Definition IsBitSet (b : bitmap) (idx : nat) : outcome bool :=
  if idx <? length (bm_words b) * 64
  then Ok (negb (Z.land (nth (idx / 64) (bm_words b) 0%Z) (bit_mask idx) =? 0)%Z)
  else CheckFail.

(** The common loop of Union, Intersect and Substract (cc:29-32, 36-39, 46-49): words in both lists are combined. *)
Fixpoint zip_words (f : Z -> Z -> Z) (a b : list Z) : list Z :=
  match a, b with
  | x :: a', y :: b' => f x y :: zip_words f a' b'
  | _, _ => a
  end.
(** bitmap_posting_list.cc:28-33 *)
Definition Union (a b : bitmap) : bitmap := with_words a (zip_words Z.lor (bm_words a) (bm_words b)).
(** bitmap_posting_list.cc:45-50; x & ~y *)
Definition Substract (a b : bitmap) : bitmap := with_words a (zip_words (fun x y => Z.land x (2 ^ 64 - 1 - y)) (bm_words a) (bm_words b)).
(** memset(p, 0, n) over words in little endian order: the first [n] bytes. *)
Fixpoint zero_bytes (n : nat) (ws : list Z) : list Z :=
  match ws with
  | [] => []
  | w :: ws' => if 8 <=? n then 0%Z :: zero_bytes (n - 8) ws'
                else Z.shiftl (Z.shiftr w (8 * Z.of_nat n)) (8 * Z.of_nat n) :: ws'
  end.
(** bitmap_posting_list.cc:35-43; the third argument of memset is a number of words. *)
Definition Intersect (a b : bitmap) : bitmap :=
  let k := Nat.min (length (bm_words a)) (length (bm_words b)) in
  let ws := zip_words Z.land (bm_words a) (bm_words b) in
  with_words a (firstn k ws ++ zero_bytes (length ws - k) (skipn k ws)).

(** std::set<int64_t>: a strictly increasing list. *)
Fixpoint zinsert (x : Z) (l : list Z) : list Z :=
  match l with
  | [] => [x]
  | y :: l' => if (x <? y)%Z then x :: l else if (x =? y)%Z then l else y :: zinsert x l'
  end.
(** std::sort of int64_t *)
Fixpoint zins (x : Z) (l : list Z) : list Z :=
  match l with [] => [x] | y :: l' => if (x <=? y)%Z then x :: l else y :: zins x l' end.
Definition zsort (l : list Z) : list Z := fold_right zins [] l.

(** First entry with the key; a map updated by consing. *)
Fixpoint assocZ {V} (k : Z) (l : list (Z * V)) : option V :=
  match l with [] => None | (a, v) :: l' => if (a =? k)%Z then Some v else assocZ k l' end.
Definition str := list Z.
Fixpoint assocS {V} (k : str) (l : list (str * V)) : option V :=
  match l with [] => None | (a, v) :: l' => if beq a k then Some v else assocS k l' end.

(** posting_list_manager.h:32-37; bit_idx_to_doc_id_ is never read. *)
Record manager := mkM { m_sorted : list Z; m_idx : list (Z * nat); m_table : list (Z * bitmap) }.
Definition manager0 : manager := mkM [] [] [].
(** posting_list_manager.cc:56-64 *)
Definition SetSortedIndexedIds (m : manager) (ids : list Z) : manager :=
  let s := zsort ids in
  mkM s (fold_left (fun t p => p :: t) (combine s (seq 0 (length s))) (m_idx m)) (m_table m).
(** posting_list_manager.cc:14-18 *)
Definition CreateMergePostingList (m : manager) : bitmap := new_bitmap (length (m_sorted m)) 0 (2 ^ 64 - 1)%Z.
(** posting_list_manager.cc:43-47 *)
Fixpoint set_ids (idx : list (Z * nat)) (b : bitmap) (ids : list Z) : outcome bitmap :=
  match ids with
  | [] => Ok b
  | d :: ids' => match assocZ d idx with
                 | None => CheckFail
                 | Some i => obind (SetBit b i) (fun b' => set_ids idx b' ids')
                 end
  end.
(** posting_list_manager.cc:66-80 *)
Fixpoint get_ids (sorted : list Z) (b : bitmap) (is : list nat) (res : list Z) : outcome (list Z) :=
  match is with
  | [] => Ok res
  | i :: is' => obind (IsBitSet b i) (fun t =>
      get_ids sorted b is' (if t && (i <? length sorted) then zinsert (nth i sorted 0%Z) res else res))
  end.
Definition GetIds (m : manager) (b : bitmap) : outcome (list Z) := get_ids (m_sorted m) b (seq 0 (S (bm_bits b))) [].

Section I.
Context (crc : list Z -> Z).

(** posting_list_manager.cc:20-54; [operator[]] of line 38 enters a missing id with index 0. *)
Definition BuildPl (m : manager) (ids : list Z) : outcome (manager * option Z) :=
  match ids with
  | [] => Ok (m, None)
  | _ =>
      let key := crc ids in
      match assocZ key (m_table m) with
      | Some b => if bm_ids b =? length ids then Ok (m, Some key) else CheckFail
      | None =>
          let lst := last ids 0%Z in
          let idx := match assocZ lst (m_idx m) with Some _ => m_idx m | None => (lst, 0) :: m_idx m end in
          let mx := match assocZ lst idx with Some i => i | None => 0 end in
          obind (set_ids idx (new_bitmap (mx + 1) (length ids) 0) ids) (fun b =>
          Ok (mkM (m_sorted m) idx ((key, b) :: m_table m), Some key))
      end
  end.

(** [iss >> out] for int32_t (num_get in the "C" locale): as for unsigned types, but saturating at both ends. *)
Definition extract_int32 (s : list Z) : extraction :=
  let s1 := skip_ws s in
  match s1 with
  | [] => mkEx None true true
  | _ =>
      let (neg, s2) := sign_of s1 in
      let (d, r) := digits s2 in
      let eof := match r with [] => true | _ => false end in
      match d with
      | [] => mkEx (Some 0%Z) true eof
      | _ =>
          let v := (if neg then - strtol_digits 0 d else strtol_digits 0 d)%Z in
          if (v <? - 2 ^ 31)%Z then mkEx (Some (- 2 ^ 31)%Z) true eof
          else if (2 ^ 31 - 1 <? v)%Z then mkEx (Some (2 ^ 31 - 1)%Z) true eof
          else mkEx (Some v) false eof
      end
  end.
(** base/utils/string/str_utils.h:114-119 for int32_t *)
Definition ParseToInt (s : list Z) (old : Z) : bool * Z :=
  let e := extract_int32 s in
  (negb (ex_fail e) && negb (ex_eof e), match ex_val e with Some v => v | None => old end).

(** A field: general_str_field.h:27-28 or range_field.h:27-32, with wildcards_pl_ (field.h:37). *)
Inductive fkind := KStr | KRange (delim : str).
Record field := mkF {
  f_kind : fkind; f_wild : option Z;
  f_sinc : list (str * Z); f_sexc : list (str * Z);    (* GeneralStrField *)
  f_rinc : list (Z * Z); f_rexc : list (Z * Z)         (* RangeField *) }.
Definition field0 (k : fkind) : field := mkF k None [] [] [] [].
(** field.cc:29-31 *)
Definition SetWildcards (f : field) (p : option Z) : field := mkF (f_kind f) p (f_sinc f) (f_sexc f) (f_rinc f) (f_rexc f).

(** range_field.cc:65-89: the flag and start, end as left (both 0 before, range_field.cc:23-24). Split throws nothing
    that is reachable here: [None] is std::out_of_range. *)
Definition ParseRange (delim assign : str) : outcome (bool * Z * Z) :=
  match Split assign delim false with
  | None => CheckFail
  | Some [] => Ok (false, 0%Z, 0%Z)
  | Some [a] => let (ok, start) := ParseToInt a 0%Z in Ok (ok, start, if ok then start else 0%Z)
  | Some [a; b] =>
      let (ok1, fin) := ParseToInt b 0%Z in
      if ok1 then let (ok2, start) := ParseToInt a 0%Z in Ok (ok2, start, fin)
      else Ok (false, 0%Z, fin)
  | Some _ => Ok (false, 0%Z, 0%Z)
  end.
(** The integers start .. fin. *)
Definition zrange (start fin : Z) : list Z := map (fun k => start + Z.of_nat k)%Z (seq 0 (Z.to_nat (fin - start + 1))).
(** general_str_field.cc:18-22; range_field.cc:20-35: with end = INT32_MAX the loop variable overflows. *)
Definition Resolve (f : field) (v : str) (inc : bool) (p : Z) : outcome field :=
  match f_kind f with
  | KStr => Ok (if inc then mkF KStr (f_wild f) ((v, p) :: f_sinc f) (f_sexc f) (f_rinc f) (f_rexc f)
                else mkF KStr (f_wild f) (f_sinc f) ((v, p) :: f_sexc f) (f_rinc f) (f_rexc f))
  | KRange delim =>
      obind (ParseRange delim v) (fun '(success, start, fin) =>
      if success || (fin <? start)%Z then Ok f
      else if (fin =? 2 ^ 31 - 1)%Z then UB
      else let add t := fold_left (fun t a => (a, p) :: t) (zrange start fin) t in
           Ok (if inc then mkF (KRange delim) (f_wild f) (f_sinc f) (f_sexc f) (add (f_rinc f)) (f_rexc f)
               else mkF (KRange delim) (f_wild f) (f_sinc f) (f_sexc f) (f_rinc f) (add (f_rexc f))))
  end.
Definition opt_list {A} (o : option A) : list A := match o with Some x => [x] | None => [] end.
(** general_str_field.cc:24-32, range_field.cc:37-50 *)
Definition GetInclude (f : field) (v : str) : list Z :=
  match f_kind f with
  | KStr => opt_list (assocS v (f_sinc f))
  | KRange _ => let (ok, a) := ParseToInt v 0%Z in if ok then opt_list (assocZ a (f_rinc f)) else []
  end.
(** general_str_field.cc:34-42, range_field.cc:52-63 *)
Definition GetExclude (f : field) (v : str) : list Z :=
  match f_kind f with
  | KStr => opt_list (assocS v (f_sexc f))
  | KRange _ => let (ok, a) := ParseToInt v 0%Z in if ok then opt_list (assocZ a (f_rexc f)) else []
  end.

(** expression.h:31-48, 52-65: exclude flag and values; a document's conditions by field name (the first of two
    expressions for a field stays, expression.cc:36-38). *)
Record expression := mkE { e_excl : bool; e_vals : list str }.
Record document := mkD { d_id : Z; d_cond : list (str * expression) }.
Definition AddExpression (d : document) (f : str) (e : expression) : document * bool :=
  match assocS f (d_cond d) with
  | Some _ => (d, false)
  | None => (mkD (d_id d) (d_cond d ++ [(f, e)]), true)
  end.

(** field.h:58-64 *)
Record entity := mkEn { en_wild : list Z; en_inc : list (str * list Z); en_exc : list (str * list Z) }.
Definition entity0 : entity := mkEn [] [] [].
(** The set of [k] in a map of sets, created empty on first use; then an id is inserted. *)
Fixpoint add_to (k : str) (id : Z) (l : list (str * list Z)) : list (str * list Z) :=
  match l with
  | [] => [(k, [id])]
  | (a, s) :: l' => if beq a k then (a, zinsert id s) :: l' else (a, s) :: add_to k id l'
  end.
(** field.cc:6-8 *)
Definition AddWildcardsId (en : entity) (id : Z) : entity := mkEn (zinsert id (en_wild en)) (en_inc en) (en_exc en).
(** field.cc:10-14 *)
Definition AddIdForAssign (id : Z) (excl : bool) (en : entity) (assign : str) : entity :=
  if excl then mkEn (en_wild en) (en_inc en) (add_to assign id (en_exc en))
  else mkEn (en_wild en) (add_to assign id (en_inc en)) (en_exc en).
(** indexer.cc:95-115, for one field *)
Definition add_doc_field (f : str) (d : document) (en : entity) : entity :=
  match assocS f (d_cond d) with
  | None => AddWildcardsId en (d_id d)
  | Some e =>
      match e_vals e with
      | [] => AddWildcardsId en (d_id d)
      | vs => let en' := fold_left (AddIdForAssign (d_id d) (e_excl e)) vs en in
              if e_excl e then AddWildcardsId en' (d_id d) else en'
      end
  end.

(** indexer.h:55-63. [x_fields]: AllRegisterFields of the delegate with what CreatePostinglistField makes of them. *)
Record indexer := mkX {
  x_fields : list (str * fkind); x_built : bool;
  x_ids : list Z; x_ents : list (str * entity);
  x_mgr : manager; x_tab : list (str * field) }.
Definition indexer0 (fs : list (str * fkind)) : indexer :=
  mkX fs false [] (map (fun p => (fst p, entity0)) fs) manager0 [].
(** indexer.cc:84-117 *)
Definition AddDocument (x : indexer) (d : document) : indexer :=
  if x_built x then x
  else mkX (x_fields x) false (zinsert (d_id d) (x_ids x))
           (map (fun p => (fst p, add_doc_field (fst p) d (snd p))) (x_ents x)) (x_mgr x) (x_tab x).

Context (ordm : list (str * list Z) -> list (str * list Z)).
(** indexer.cc:148-166: the two loops over the values of a field *)
Fixpoint build_values (m : manager) (f : field) (inc : bool) (l : list (str * list Z)) : outcome (manager * field) :=
  match l with
  | [] => Ok (m, f)
  | (v, ids) :: l' =>
      obind (BuildPl m ids) (fun '(m1, p) =>
      match p with
      | None => build_values m f inc l'
      | Some k => obind (Resolve f v inc k) (fun f1 => build_values m1 f1 inc l')
      end)
  end.
(** indexer.cc:140-166 *)
Definition build_field (m : manager) (k : fkind) (en : entity) : outcome (manager * field) :=
  obind (BuildPl m (en_wild en)) (fun '(m1, w) =>
  obind (build_values m1 (SetWildcards (field0 k) w) true (ordm (en_inc en))) (fun '(m2, f2) =>
  build_values m2 f2 false (ordm (en_exc en)))).
Fixpoint build_fields (m : manager) (ents : list (str * entity)) (fs : list (str * fkind)) : outcome (manager * list (str * field)) :=
  match fs with
  | [] => Ok (m, [])
  | (n, k) :: fs' =>
      obind (build_field m k (match assocS n ents with Some e => e | None => entity0 end)) (fun '(m1, f) =>
      obind (build_fields m1 ents fs') (fun '(m2, t) => Ok (m2, (n, f) :: t)))
  end.
(** indexer.cc:129-170 *)
Definition BuildIndexer (x : indexer) : outcome indexer :=
  if x_built x then Ok x
  else obind (build_fields (SetSortedIndexedIds (x_mgr x) (x_ids x)) (x_ents x) (x_fields x)) (fun '(m, t) =>
       Ok (mkX (x_fields x) true (x_ids x) (x_ents x) m t)).

Context (ordp : list Z -> list Z) (ordf : list (str * field) -> list (str * field)).
(** std::set<const BitMapPostingList*>::insert *)
Definition padd (p : Z) (l : list Z) : list Z := if existsb (Z.eqb p) l then l else p :: l.
(** Dereferencing a pointer. *)
Definition deref (m : manager) (p : Z) : outcome bitmap := match assocZ p (m_table m) with Some b => Ok b | None => UB end.
(** A loop of Union or Substract over a set of lists (bitmap_merger.cc:20-22, 32-34). *)
Fixpoint merge_all (m : manager) (op : bitmap -> bitmap -> bitmap) (g : bitmap) (ps : list Z) : outcome bitmap :=
  match ps with
  | [] => Ok g
  | p :: ps' => obind (deref m p) (fun b => merge_all m op (op g b) ps')
  end.
(** bitmap_merger.cc:26-28: Union with a list that may be NULL; the loop condition reads other->ids_bitmap_ unless the
    own bitmap is empty. *)
Definition union_wild (m : manager) (g : bitmap) (w : option Z) : outcome bitmap :=
  match w with
  | Some p => obind (deref m p) (fun b => Ok (Union g b))
  | None => if length (bm_words g) =? 0 then Ok g else UB
  end.
(** bitmap_merger.cc:17-40: the new result and group lists. *)
Definition CalculateMergerGroup (m : manager) (res g : bitmap) (incs excs : list Z) (w : option Z) : outcome (bitmap * bitmap) :=
  obind (merge_all m Union (ResetBits g) (ordp incs)) (fun g1 =>
  obind (GetIds m g1) (fun _ =>
  obind (union_wild m g1 w) (fun g2 =>
  obind (GetIds m g2) (fun _ =>
  obind (merge_all m Substract g2 (ordp excs)) (fun g3 =>
  obind (GetIds m g3) (fun _ =>
  Ok (Intersect res g3, g3))))))).
(** GetIdsFromPostingList for printing (indexer.cc:36, 45, 52); NULL gives the empty set. *)
Definition show_ids (m : manager) (p : option Z) : outcome unit :=
  match p with
  | None => Ok tt
  | Some k => obind (deref m k) (fun b => obind (GetIds m b) (fun _ => Ok tt))
  end.
Fixpoint show_all (m : manager) (ps : list Z) : outcome unit :=
  match ps with [] => Ok tt | p :: ps' => obind (show_ids m (Some p)) (fun _ => show_all m ps') end.
(** indexer.cc:33-49 *)
Fixpoint collect (m : manager) (f : field) (vs : list str) (incs excs : list Z) : outcome (list Z * list Z) :=
  match vs with
  | [] => Ok (incs, excs)
  | v :: vs' =>
      obind (show_all m (GetInclude f v)) (fun _ =>
      obind (show_all m (GetExclude f v)) (fun _ =>
      collect m f vs' (fold_left (fun l p => padd p l) (GetInclude f v) incs) (fold_left (fun l p => padd p l) (GetExclude f v) excs)))
  end.
Definition query := list (str * list str).
(** indexer.cc:18-62: one round for each field *)
Fixpoint query_fields (m : manager) (q : query) (fs : list (str * field)) (res g : bitmap) : outcome bitmap :=
  match fs with
  | [] => Ok res
  | (n, f) :: fs' =>
      obind (match assocS n q with
             | None => Ok ([], [])
             | Some vs => obind (collect m f vs [] []) (fun r => obind (show_ids m (f_wild f)) (fun _ => Ok r))
             end) (fun '(incs, excs) =>
      obind (CalculateMergerGroup m res g incs excs (f_wild f)) (fun '(res1, g1) =>
      obind (GetIds m res1) (fun _ =>
      query_fields m q fs' res1 g1)))
  end.
(** indexer.cc:13-65 *)
Definition UnifyQuery (x : indexer) (q : query) : outcome (list Z) :=
  let m := x_mgr x in
  let all := CreateMergePostingList m in
  obind (GetIds m all) (fun _ =>
  obind (query_fields m q (ordf (x_tab x)) all all) (fun res => GetIds m res)).
End I.
