(** components/source_loader: files of delimited columns into a table (file_loader.cc, column_parser.cc, source.cc, name_struct_source.h).

    Strings are byte lists. JSON documents and floating point numbers are the bytes they are parsed from ([json_ok]: does nlohmann::json
    accept these bytes). The configuration is the result of Initialize; its JSON validation is not modelled. *)
From Verif.Model Require Import Common Decimal StrUtil.
Local Open Scope Z_scope.

(** parser.h:16-23. *)
Inductive kind := KInt | KDouble | KString | KBool | KJson.
Inductive value := VInt (n : Z) | VDouble (text : list Z) | VString (s : list Z) | VBool (b : bool) | VJson (text : list Z) | VNull.
(** column_parser.h:17-22. *)
Record column := Column { c_name : list Z; c_kind : kind; c_default : value; c_null : bool }.
(** file_loader.cc:39-62: "line", "content", anything else. *)
Inductive mode := MLine | MContent | MOther.
(** column_parser.h:35-39, parser.h:57-59. *)
Record config := Config { schemes : list column; delimiter : list Z; header : list (list Z); ignore_header : bool; content_mode : mode; primary : list Z }.
(** A parsed line: nlohmann::json object, one member per name. *)
Definition record := list (list Z * value).
Fixpoint member (r : record) (k : list Z) : option value :=
  match r with [] => None | (k', v) :: r => if beq k' k then Some v else member r k end.
(** out[field] = v. *)
Fixpoint assign (r : record) (k : list Z) (v : value) : record :=
  match r with [] => [(k, v)] | (k', w) :: r => if beq k' k then (k', v) :: r else (k', w) :: assign r k v end.
(** column_parser.cc:157-172 columns_[info.name] = info: the last scheme with a name counts. *)
Fixpoint find_column (cs : list column) (k : list Z) : option column :=
  match cs with [] => None | c :: cs => match find_column cs k with Some c => Some c | None => if beq (c_name c) k then Some c else None end end.
(** atoi: white space, sign, digits; undefined when the value is no int. *)
Definition atoi (s : list Z) : outcome Z :=
  let (neg, s2) := sign_of (skip_ws s) in
  let v := strtol_digits 0 (fst (digits s2)) in
  let n := if neg then - v else v in
  if (- 2 ^ 31 <=? n) && (n <? 2 ^ 31) then Ok n else UB.
Definition s_true : list Z := [116; 114; 117; 101].
(** column_parser.cc:106-136 HanleColumn. *)
Definition HanleColumn (json_ok : list Z -> bool) (c : column) (content : list Z) : outcome value :=
  match c_kind c with
  | KBool => Ok (VBool (beq content s_true))
  | KDouble => Ok (VDouble content)
  | KInt => obind (atoi content) (fun n => Ok (VInt n))
  | KJson => Ok (if json_ok content then VJson content else c_default c)
  | KString => Ok (VString content)
  end.
(** column_parser.cc:86-99: the loop over the columns of a line. *)
Fixpoint columns (json_ok : list Z -> bool) (cs : list column) (hs fs : list (list Z)) (out : record) : outcome record :=
  match hs, fs with
  | h :: hs, f :: fs =>
      match find_column cs h with
      | None => columns json_ok cs hs fs out
      | Some c => obind (HanleColumn json_ok c f) (fun v => columns json_ok cs hs fs (assign out (c_name c) v))
      end
  | _, _ => Ok out
  end.
(** column_parser.cc:75-104 ParseContent: None: rejected. An empty delimiter is refused by Initialize (174-178); Split would throw. *)
Definition ParseContent (json_ok : list Z -> bool) (cf : config) (content : list Z) : outcome (option record) :=
  match Split content (delimiter cf) false with
  | None => CheckFail
  | Some fs =>
      if Nat.eqb (length fs) (length (header cf)) then obind (columns json_ok (schemes cf) (header cf) fs []) (fun r => Ok (Some r))
      else Ok None
  end.
(** name_struct_source.h:42-50 OnContentParsed: rows with a string under the primary key are stored, the newest first here. *)
Definition table := list (list Z * record).
Definition OnContentParsed (cf : config) (t : table) (r : record) : table :=
  match member r (primary cf) with Some (VString k) => (k, r) :: t | _ => t end.
(** name_struct_source.h:26-37. *)
Fixpoint GetByName (t : table) (k : list Z) : option record :=
  match t with [] => None | (k', r) :: t => if beq k' k then Some r else GetByName t k end.
(** source.cc:75-79. *)
Definition OnReadData (json_ok : list Z -> bool) (cf : config) (t : table) (content : list Z) : outcome table :=
  obind (ParseContent json_ok cf content) (fun r => Ok (match r with Some r => OnContentParsed cf t r | None => t end)).
Fixpoint OnReadAll (json_ok : list Z -> bool) (cf : config) (t : table) (l : list (list Z)) : outcome table :=
  match l with [] => Ok t | c :: l => obind (OnReadData json_ok cf t c) (fun t => OnReadAll json_ok cf t l) end.

(** What a path leads to: nothing that can be opened, readable bytes, or something that opens but whose reads fail (a directory). *)
Inductive file := Missing | Text (s : list Z) | Unreadable.
(** file_loader.cc:42-47: while (!eof) { getline; OnReadData }: the strings handed on in [fuel] rounds; None: still looping. A failed read
    sets badbit only, so eof() stays false. *)
Fixpoint getlines (fuel : nat) (s : list Z) : option (list (list Z)) :=
  match fuel with
  | O => None
  | S fuel => if existsb (Z.eqb 10) s then let (t, r) := until_delim s 10 in match getlines fuel r with Some l => Some (t :: l) | None => None end
              else Some [s]
  end.
Fixpoint spin (fuel : nat) : option (list (list Z)) := match fuel with O => None | S fuel => spin fuel end.
(** The rounds of one opened file. The size of what is [Unreadable] is taken as 0 in content mode. *)
Definition read_file (fuel : nat) (m : mode) (f : file) : option (list (list Z)) :=
  match m, f with
  | MLine, Text s => getlines fuel s
  | MLine, Unreadable => spin fuel
  | MContent, Text s => Some [s]
  | MContent, Unreadable => Some [[]]
  | _, _ => Some []
  end.
(** file_loader.cc:25-69 Load in [fuel] rounds per file: the strings handed on and the result code. *)
Fixpoint Load (fuel : nat) (m : mode) (fs : list file) : option (list (list Z) * Z) :=
  match fs with
  | [] => Some ([], 0)
  | Missing :: fs => Load fuel m fs
  | f :: fs =>
      match m with
      | MOther => Some ([], -1)
      | _ => match read_file fuel m f, Load fuel m fs with
          | Some l, Some (l', c) => Some (l ++ l', c)
          | _, _ => None
          end
      end
  end.
(** source.cc:67-69: StartLoad on a fresh table. Neither loader nor parser looks at [ignore_header]. *)
Definition StartLoad (json_ok : list Z -> bool) (cf : config) (fuel : nat) (fs : list file) : outcome (option (table * Z)) :=
  match Load fuel (content_mode cf) fs with
  | None => Ok None
  | Some (l, c) => obind (OnReadAll json_ok cf [] l) (fun t => Ok (Some (t, c)))
  end.
