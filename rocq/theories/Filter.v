(** * Filter: which log records RUST_LOG lets through, /repo/smd/src/logger.rs:87-89.

    [Builder::parse_filters] of env_logger 0.10.2 (smd/Cargo.toml:42), modelled
    after its source (filter/mod.rs).  The warnings it prints about parts that it
    cannot read are not modelled. *)
From Coq Require Import Ascii String.
From Verif Require Import Strings StringsFacts Utf8 System Config Cli.
Open Scope list_scope.

(** A directive: a prefix of targets, or all of them, and the most verbose level
    that passes (0 is off). *)
Record directive := { d_name : option str; d_level : nat }.

(** One of the parts between the commas, without the spaces around it. *)
Definition read_directive (s : str) : option directive :=
  match split (lit "=") s with
  | [a] =>
      match filter_of a with
      | Some l => Some {| d_name := None; d_level := l |}
      | None => Some {| d_name := Some a; d_level := 5 |}
      end
  | [a; b] =>
      let b := trim b in
      if is_empty b then Some {| d_name := Some a; d_level := 5 |}
      else match filter_of b with
           | Some l => Some {| d_name := Some a; d_level := l |}
           | None => None
           end
  | _ => None
  end.

Definition read_part (s : str) : list directive :=
  let s := trim s in
  if is_empty s then []
  else match read_directive s with Some d => [d] | None => [] end.

Section Regex.
(** The crate regex: [None] if it cannot read the expression, else which messages
    it finds a match in. *)
Variable regex : str -> option (str -> bool).

(** [parse_spec]: the directives, and an expression behind a slash. *)
Definition parse_spec (spec : str) : list directive * option (str -> bool) :=
  match split (lit "/") spec with
  | [m] => (flat_map read_part (split (lit ",") m), None)
  | [m; r] => (flat_map read_part (split (lit ",") m), regex r)
  | _ => ([], None)
  end.

Definition same_name (a b : directive) : bool :=
  match d_name a, d_name b with
  | None, None => true
  | Some x, Some y => str_eqb x y
  | _, _ => false
  end.

(** [insert_directive]: in the place of one with the same name. *)
Fixpoint insert_directive (d : directive) (ds : list directive) : list directive :=
  match ds with
  | [] => [d]
  | e :: ds' => if same_name d e then d :: ds' else e :: insert_directive d ds'
  end.

(** The number of bytes of the name. *)
Definition name_len (d : directive) : nat :=
  match d_name d with Some n => length (encode n) | None => 0 end.

(** [sort_by], which is stable. *)
Fixpoint insert_sorted (d : directive) (ds : list directive) : list directive :=
  match ds with
  | [] => [d]
  | e :: ds' => if name_len d <=? name_len e then d :: ds else e :: insert_sorted d ds'
  end.
Definition sort_directives (ds : list directive) : list directive := fold_right insert_sorted [] ds.

(** [Builder::build]. *)
Definition build (ds : list directive) : list directive :=
  match fold_left (fun acc d => insert_directive d acc) ds [] with
  | [] => [{| d_name := None; d_level := 1 |}]
  | ds' => sort_directives ds'
  end.

(** [enabled]: the last directive that fits the target decides. *)
Definition fits (target : str) (d : directive) : bool :=
  match d_name d with Some n => starts_with n target | None => true end.
Definition enabled (ds : list directive) (lv : level) (target : str) : bool :=
  match List.find (fits target) (rev ds) with
  | Some d => level_number lv <=? d_level d
  | None => false
  end.

(** [Filter::matches]. *)
Definition passes (spec : str) (r : record) : bool :=
  let (ds, re) := parse_spec spec in
  enabled (build ds) (rec_level r) (rec_target r) &&
  match re with Some m => m (rec_text r) | None => true end.

(** The records that appear on stderr. *)
Definition shown (spec : str) (rs : list record) : list record := List.filter (passes spec) rs.

End Regex.
