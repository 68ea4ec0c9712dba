(** What the inverted indexer promises, in terms of documents and queries only. *)
From Coq Require Import Sorted.
From Verif.Model Require Import Common InvIndex.

(** The expression of a document for a field. *)
Definition cond_of (d : document) (f : str) (e : expression) : Prop := assocS f (d_cond d) = Some e.
(** The document says nothing about the field. *)
Definition free_in (d : document) (f : str) : Prop :=
  assocS f (d_cond d) = None \/ exists e, cond_of d f e /\ e_vals e = [].
Definition wants (d : document) (f v : str) : Prop := exists e, cond_of d f e /\ e_excl e = false /\ In v (e_vals e).
Definition refuses (d : document) (f v : str) : Prop := exists e, cond_of d f e /\ e_excl e = true /\ In v (e_vals e).
(** The document needs no particular value: it is free in the field or only excludes values. *)
Definition open_in (d : document) (f : str) : Prop := free_in d f \/ exists v, refuses d f v.

(** The values queried for a field; none if the query does not name it. *)
Definition asked (q : query) (f v : str) : Prop := exists vs, assocS f q = Some vs /\ In v vs.
(** A document matches a query in a field if it is free in it, wants one of the values asked for, or excludes values
    none of which is asked for. *)
Definition matches_in (d : document) (q : query) (f : str) : Prop :=
  free_in d f \/ (exists v, asked q f v /\ wants d f v) \/
  ((exists v, refuses d f v) /\ forall v, asked q f v -> ~ refuses d f v).
Definition matches (fs : list str) (d : document) (q : query) : Prop := forall f, In f fs -> matches_in d q f.

Definition idset (s : list Z) : Prop := StronglySorted Z.lt s.
(** [s] lists exactly the ids of the documents with property [P]. *)
Definition ids_of (ds : list document) (P : document -> Prop) (s : list Z) : Prop :=
  idset s /\ forall id, In id s <-> exists d, In d ds /\ d_id d = id /\ P d.
(** The id sets the index stores: per field the open documents, per value those that want it and those that refuse it. *)
Definition stored (fs : list str) (ds : list document) (s : list Z) : Prop :=
  exists f, In f fs /\
    (ids_of ds (fun d => open_in d f) s \/ exists v, ids_of ds (fun d => wants d f v) s \/ ids_of ds (fun d => refuses d f v) s).
(** No two of them have the same checksum. *)
Definition no_collision (crc : list Z -> Z) (fs : list str) (ds : list document) : Prop :=
  forall a b, stored fs ds a -> stored fs ds b -> a <> [] -> b <> [] -> crc a = crc b -> a = b.

(** The largest id with property [P] is the 64th, 128th, ... smallest of all. *)
Definition at_word_end (ds : list document) (P : document -> Prop) : Prop :=
  exists d, In d ds /\ P d /\ (forall d', In d' ds -> P d' -> (d_id d' <= d_id d)%Z) /\
    length (filter (fun d' => d_id d' <=? d_id d)%Z ds) mod 64 = 0.
(** The queries the indexer survives. *)
Definition survivable (fs : list str) (ds : list document) (q : query) : Prop :=
  length ds mod 64 <> 0 /\
  forall f, In f fs ->
    (exists d, In d ds /\ open_in d f) /\
    forall vs, assocS f q = Some vs ->
      ~ at_word_end ds (fun d => open_in d f) /\
      forall v, In v vs -> ~ at_word_end ds (fun d => wants d f v) /\ ~ at_word_end ds (fun d => refuses d f v).

(** The whole life of an index: registered string fields, documents, BuildIndexer. *)
Definition build_index crc ordm (fs : list str) (ds : list document) : outcome indexer :=
  BuildIndexer crc ordm (fold_left AddDocument ds (indexer0 (map (fun f => (f, KStr)) fs))).
Definition answer crc ordm ordp ordf (fs : list str) (ds : list document) (q : query) : outcome (list Z) :=
  obind (build_index crc ordm fs ds) (fun x => UnifyQuery ordp ordf x q).
