(** What a boolean index should answer. *)
From Coq Require Import List ZArith.
From Verif.Model Require Import BoolIndex.
Import ListNotations.
Local Open Scope Z_scope.

(** the query assigns one of [vs] to field [f] *)
Definition assigns (q : list (Z * list (list Z))) (f : Z) (vs : list (list Z)) : Prop :=
  exists qs v, In (f, qs) q /\ In v qs /\ In v vs.
(** an expression and a conjunction hold of a query *)
Definition holds (q : list (Z * list (list Z))) (x : expr) : Prop :=
  if x_excl x then ~ assigns q (x_field x) (x_values x) else assigns q (x_field x) (x_values x).
Definition satisfied (q : list (Z * list (list Z))) (c : conj) : Prop := forall x, In x c -> holds q x.
Definition matches (q : list (Z * list (list Z))) (d : doc) : Prop := exists c, In c (d_conjs d) /\ satisfied q c.

(** documents as the API documents them: 32 bit ids, at most 256 conjunctions, one expression per
    field in a conjunction, at most 255 inclusions, non-empty values *)
Record valid_doc (d : doc) : Prop := {
  vd_id : - 2 ^ 31 <= d_id d < 2 ^ 31;
  vd_conjs : (length (d_conjs d) <= 256)%nat;
  vd_fields : forall c, In c (d_conjs d) -> NoDup (map x_field c);
  vd_size : forall c, In c (d_conjs d) -> conj_size c < 256;
  vd_values : forall c x v, In c (d_conjs d) -> In x c -> In v (x_values x) -> v <> []
}.
Definition valid_docs (docs : list doc) : Prop :=
  (forall d, In d docs -> valid_doc d) /\ NoDup (map d_id docs).
(** every queried field occurs in some document *)
Definition known_fields (docs : list doc) (q : list (Z * list (list Z))) : Prop :=
  forall f vs, In (f, vs) q -> exists d c x, In d docs /\ In c (d_conjs d) /\ In x c /\ x_field x = f.
(** no two of the strings in play have the same hash *)
Definition no_collision (hash : list Z -> Z) (docs : list doc) (q : list (Z * list (list Z))) : Prop :=
  forall f vs v d c x w, In (f, vs) q -> In v vs -> In d docs -> In c (d_conjs d) -> In x c -> In w (x_values x) ->
    hash v = hash w -> v = w.
