(** The request targets of HTTP (RFC 7230, 5.3): origin-form and absolute-form, and their components. *)
From Verif.Model Require Import Common.
Local Open Scope Z_scope.

Definition letter (c : Z) : Prop := 65 <= c <= 90 \/ 97 <= c <= 122.
Definition digit (c : Z) : Prop := 48 <= c <= 57.
Definition hexdigit (c : Z) : Prop := digit c \/ 65 <= c <= 70 \/ 97 <= c <= 102.
(** Visible ASCII without '#' and '?'. *)
Definition pchar (c : Z) : Prop := 33 <= c <= 126 /\ c <> 35 /\ c <> 63.
Definition qchar (c : Z) : Prop := pchar c \/ c = 63.
Definition fchar (c : Z) : Prop := pchar c \/ c = 63 \/ c = 35.
(** unreserved, percent, sub-delims and ':' *)
Definition uchar (c : Z) : Prop := letter c \/ digit c \/ In c [45; 95; 46; 33; 126; 42; 39; 40; 41; 37; 59; 58; 38; 61; 43; 36; 44].
Definition name_char (c : Z) : Prop := letter c \/ digit c \/ c = 46 \/ c = 45.
Definition v6_char (c : Z) : Prop := hexdigit c \/ c = 58 \/ c = 46.
Definition zchar (c : Z) : Prop := letter c \/ digit c \/ In c [37; 46; 45; 95; 126].

(** A host: a name, or an address in brackets, perhaps with a zone. *)
Inductive host_part := Name (n : list Z) | V6 (a : list Z) (zone : option (list Z)).
Record authority := mkauth { a_user : option (list Z); a_host : host_part; a_port : option (list Z) }.
Record uri := mkuri { i_auth : option (list Z * authority); i_path : list Z; i_query : option (list Z); i_frag : option (list Z) }.

Definition opt (d : list Z) (o : option (list Z)) : list Z := match o with Some t => d ++ t | None => [] end.
Definition host_inner (h : host_part) : list Z := match h with Name n => n | V6 a z => a ++ opt [37] z end.
Definition show_host (h : host_part) : list Z := match h with Name n => n | V6 _ _ => [91] ++ host_inner h ++ [93] end.
Definition show_user (u : option (list Z)) : list Z := match u with Some t => t ++ [64] | None => [] end.
Definition show_auth (a : authority) : list Z := show_user (a_user a) ++ show_host (a_host a) ++ opt [58] (a_port a).
Definition show_rest (u : uri) : list Z := i_path u ++ opt [63] (i_query u) ++ opt [35] (i_frag u).
(** The text of a target: [scheme://authority] path [?query] [#fragment]. *)
Definition show (u : uri) : list Z := match i_auth u with Some (s, a) => s ++ [58; 47; 47] ++ show_auth a | None => [] end ++ show_rest u.

Definition dec (l : list Z) : Z := fold_left (fun v c => v * 10 + (c - 48)) l 0.
Definition host_ok (h : host_part) : Prop :=
  match h with
  | Name n => n <> [] /\ Forall name_char n
  | V6 a z => a <> [] /\ Forall v6_char a /\ match z with Some z => z <> [] /\ Forall zchar z | None => True end
  end.
Definition auth_ok (a : authority) : Prop :=
  match a_user a with Some t => Forall uchar t | None => True end /\ host_ok (a_host a) /\
  match a_port a with Some p => p <> [] /\ Forall digit p /\ dec p <= 65535 | None => True end.
(** Without an authority there is a path, and it begins with '/' or '*'; after one, a path begins with '/', and where there
    is neither path nor query there is no fragment. *)
Definition uri_ok (u : uri) : Prop :=
  match i_auth u with
  | Some (s, a) => s <> [] /\ Forall letter s /\ auth_ok a /\ (i_path u = [] \/ exists p, i_path u = 47 :: p) /\ (i_path u = [] -> i_query u = None -> i_frag u = None)
  | None => exists p, i_path u = 47 :: p \/ i_path u = 42 :: p
  end /\ Forall pchar (i_path u) /\ match i_query u with Some q => Forall qchar q | None => True end /\ match i_frag u with Some f => Forall fchar f | None => True end.
(** The fragment without the '#' signs it begins with. *)
Fixpoint strip (l : list Z) : list Z := match l with c :: t => if c =? 35 then strip t else l | [] => [] end.
