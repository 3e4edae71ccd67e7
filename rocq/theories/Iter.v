(** * Iter: character-level model of /repo/gfm/src/iter.rs.

    The Rust iterator is a pair (the_str, byte index).  Here a cursor is just the
    text that remains, i.e. [the_str[index..]]: iter.rs never looks behind the
    index, except through [get_substring_from(start)] with a [start] taken
    earlier by [get_index], which becomes [substring_from] on the two cursors.
    IterBytes.v models the byte-level code and proves that it refines this one. *)
From Verif Require Import Strings.

Definition cursor := str.

(** iter.rs:35-42 [peek]. *)
Definition peek (r : cursor) : option char := hd_error r.

(** iter.rs:11-20 [next]: the char is [peek], this is the new cursor. *)
Definition next (r : cursor) : cursor := tl r.

(** [self.iter.peek() == Some("c")]. *)
Definition peek_is (c : char) (r : cursor) : bool :=
  match r with x :: _ => ceq x c | [] => false end.

(** iter.rs:44-49 [next_if_eq]: [Some] of the new cursor if the char matched. *)
Definition next_if_eq (c : char) (r : cursor) : option cursor :=
  match r with
  | x :: r' => if ceq x c then Some r' else None
  | [] => None
  end.

(** [next_if_eq] when its result is not inspected. *)
Definition skip_if_eq (c : char) (r : cursor) : cursor :=
  match next_if_eq c r with Some r' => r' | None => r end.

(** iter.rs:51-60 [consume_while_case_holds]: text consumed, new cursor.
    ([get] never returns [None] here: IterBytes.v.) *)
Definition consume_while (f : char -> bool) (r : cursor) : str * cursor :=
  (take_while f r, drop_while f r).

(** iter.rs:62-75 [consume_until_tail_is]; [acc] is [the_str[start..index]]. *)
Fixpoint consume_until_tail_go (tail acc : str) (r : cursor) : str * cursor :=
  match r with
  | [] => (acc, [])
  | c :: r' => if ends_with tail acc then (acc, r)
               else consume_until_tail_go tail (acc ++ [c]) r'
  end.
Definition consume_until_tail_is (tail : str) (r : cursor) : str * cursor :=
  consume_until_tail_go tail [] r.

(** iter.rs:89-95 [get_index] / [get_substring_from]: [start] is the cursor at
    the time of [get_index], [now] the current one. *)
Definition substring_from (start now : cursor) : str :=
  firstn (length start - length now) start.

(** iter.rs:97-99 [get_substring_ahead(n)] compared with an ASCII literal of
    [n] bytes (lexer.rs:519). *)
Definition ahead_is (l : str) (r : cursor) : bool := starts_with l r.

(** iter.rs:105-133 [peek_line_ahead] / [consume_line_ahead]: the line up to and
    including the newline, or the whole rest, or [None] at the end. *)
Definition split_line (r : cursor) : str * cursor :=
  match split_once c_nl r with
  | Some (a, b) => (a ++ [c_nl], b)
  | None => (r, [])
  end.
Definition peek_line_ahead (r : cursor) : option str :=
  match r with [] => None | _ => Some (fst (split_line r)) end.
Definition consume_line_ahead (r : cursor) : str * cursor := split_line r.

(** iter.rs:135-146 [skip_while_true]. *)
Definition skip_while (f : char -> bool) (r : cursor) : cursor := drop_while f r.
