(** * IterBytes: /repo/gfm/src/iter.rs as it is written, on bytes.

    The iterator is a byte string and a byte index.  Every operation of iter.rs
    is modelled with its slices; a slice that Rust would refuse with a panic is
    [Panic], one it refuses with [None] ([str::get]) is [None].  [c_step] is the
    same iterator on chars: the chars before the index and those behind it, the
    latter handled by the functions of Iter.v that the lexer model uses. *)
From Verif Require Import Strings StringsFacts Token Iter Lexer Utf8.
Open Scope list_scope.

Record biter := { the_str : bytes; index : nat }.

(** [str::is_char_boundary]. *)
Definition boundary (bs : bytes) (i : nat) : bool :=
  (i =? 0) || (if i <? length bs then negb (cont (nth i bs 0%N)) else i =? length bs).

(** [str::get(a..b)]; [str::get(a..=b)] is [get bs a (b + 1)]. *)
Definition slice (a b : nat) (bs : bytes) : bytes := firstn (b - a) (skipn a bs).
Definition get (bs : bytes) (a b : nat) : option bytes :=
  if (a <=? b) && boundary bs a && boundary bs b then Some (slice a b bs) else None.

(** [&bs[a..]]: panics off a boundary. *)
Definition from (bs : bytes) (a : nat) : res bytes :=
  if boundary bs a then Ret (skipn a bs) else Panic.

(** iter.rs:12-13, 36-37: the loop over [1..=4]. *)
Definition char_len (it : biter) : option nat :=
  find (fun i => boundary (the_str it) (index it + i)) [1; 2; 3; 4].

(** iter.rs:31-33 [update_index_to]. *)
Definition at_index (it : biter) (i : nat) : biter := {| the_str := the_str it; index := i |}.

(** iter.rs:11-20 [next]. *)
Definition b_next (it : biter) : option bytes * biter :=
  match char_len it with
  | Some i => (get (the_str it) (index it) (index it + i), at_index it (index it + i))
  | None => (None, it)
  end.

(** iter.rs:35-42 [peek]. *)
Definition b_peek (it : biter) : option bytes :=
  match char_len it with
  | Some i => get (the_str it) (index it) (index it + i)
  | None => None
  end.

Definition text_is (o : option bytes) (e : bytes) : bool :=
  match o with Some x => str_eqb x e | None => false end.

(** iter.rs:44-49 [next_if_eq]. *)
Definition b_next_if_eq (e : bytes) (it : biter) : option bytes * biter :=
  if text_is (b_peek it) e then b_next it else (None, it).

(** iter.rs:56-58, 140-145: [while peek is Some(c) and f(c) { next }].  [n]
    bounds the number of rounds; running out is [Hang]. *)
Fixpoint b_while (n : nat) (f : bytes -> bool) (it : biter) : res biter :=
  match n with
  | O => Hang
  | S n' => match b_peek it with
            | Some c => if f c then b_while n' f (snd (b_next it)) else Ret it
            | None => Ret it
            end
  end.

Definition rounds (it : biter) : nat := S (length (the_str it)).

(** iter.rs:51-60 [consume_while_case_holds]. *)
Definition b_consume_while (f : bytes -> bool) (it : biter) : res (option bytes * biter) :=
  bind (b_while (rounds it) f it) (fun it' =>
  Ret (get (the_str it') (index it) (index it'), it')).

(** iter.rs:64-73: the loop of [consume_until_tail_is]. *)
Fixpoint b_tail_loop (n : nat) (tail : bytes) (start : nat) (it : biter) : res biter :=
  match n with
  | O => Hang
  | S n' =>
      match b_peek it with
      | Some _ =>
          let sofar := match get (the_str it) start (index it) with Some t => t | None => tail end in
          if ends_with tail sofar then Ret it
          else b_tail_loop n' tail start (snd (b_next it))
      | None => Ret it
      end
  end.

(** iter.rs:62-75 [consume_until_tail_is]. *)
Definition b_consume_until_tail_is (tail : bytes) (it : biter) : res (option bytes * biter) :=
  bind (b_tail_loop (rounds it) tail (index it) it) (fun it' =>
  Ret (get (the_str it') (index it) (index it'), it')).

(** iter.rs:77-83 [consume_until_end]. *)
Definition b_consume_until_end (it : biter) : res (option bytes * biter) :=
  bind (b_while (rounds it) (fun _ => true) it) (fun it' =>
  Ret (get (the_str it') (index it) (index it'), it')).

(** iter.rs:85-87 [peek_until_end]: [len() - 1] overflows on the empty text. *)
Definition b_peek_until_end (it : biter) : res (option bytes) :=
  match length (the_str it) with
  | O => Panic
  | S n => Ret (get (the_str it) (index it) (n + 1))
  end.

(** iter.rs:93-95 [get_substring_from], 97-99 [get_substring_ahead]. *)
Definition b_substring_from (start : nat) (it : biter) : option bytes :=
  get (the_str it) start (index it).
Definition b_substring_ahead (n : nat) (it : biter) : option bytes :=
  get (the_str it) (index it) (index it + n).

(** [str::find(&str)]: the byte offset of the first occurrence. *)
Fixpoint find_at (p bs : bytes) : option nat :=
  if starts_with p bs then Some 0
  else match bs with
       | [] => None
       | _ :: bs' => match find_at p bs' with Some n => Some (S n) | None => None end
       end.

(** iter.rs:101-103 [find_next]. *)
Definition b_find_next (p : bytes) (it : biter) : res (option nat) :=
  bind (from (the_str it) (index it)) (fun rest => Ret (find_at p rest)).

Definition is_some {A} (o : option A) : bool := match o with Some _ => true | None => false end.

(** iter.rs:105-115 [peek_line_ahead], 117-133 [consume_line_ahead]. *)
Definition b_consume_line_ahead (it : biter) : res (option bytes * biter) :=
  bind (b_find_next [c_nl] it) (fun o =>
  match o with
  | Some k => Ret (get (the_str it) (index it) (index it + k + 1), at_index it (index it + k + 1))
  | None =>
      if is_some (b_peek it) then
        match length (the_str it) with
        | O => Panic
        | S n => Ret (get (the_str it) (index it) (n + 1), at_index it (length (the_str it)))
        end
      else Ret (None, it)
  end).
Definition b_peek_line_ahead (it : biter) : res (option bytes) :=
  bind (b_find_next [c_nl] it) (fun o =>
  match o with
  | Some k => Ret (get (the_str it) (index it) (index it + k + 1))
  | None =>
      if is_some (b_peek it) then
        match length (the_str it) with
        | O => Panic
        | S n => Ret (get (the_str it) (index it) (n + 1))
        end
      else Ret None
  end).

(** The public operations of iter.rs.  Arguments that are [&str] are given by
    their chars, predicates on [&str] by predicates on bytes. *)
Inductive op :=
| ONext | OPeek
| ONextIfEq (e : str)
| OConsumeWhile (f : bytes -> bool)
| OConsumeUntilTail (t : str)
| OConsumeUntilEnd
| OPeekUntilEnd
| OGetIndex
| OSubstringFrom (start : nat)
| OSubstringAhead (n : nat)
| OFindNext (p : str)
| OPeekLine | OConsumeLine
| OSkipWhile (f : bytes -> bool).

(** What an operation answers: [T] is [bytes] for the code, [str] for chars. *)
Inductive answer (T : Type) :=
| AText (o : option T)
| AOffset (o : option nat)
| AUnit.
Arguments AText {T} o.
Arguments AOffset {T} o.
Arguments AUnit {T}.

Definition peeked {T} (it : biter) (r : res (option T)) : res (answer T * biter) :=
  bind r (fun o => Ret (AText o, it)).
Definition moved {T} (r : res (option T * biter)) : res (answer T * biter) :=
  bind r (fun p => Ret (AText (fst p), snd p)).

Definition b_step (o : op) (it : biter) : res (answer bytes * biter) :=
  match o with
  | ONext => moved (Ret (b_next it))
  | OPeek => peeked it (Ret (b_peek it))
  | ONextIfEq e => moved (Ret (b_next_if_eq (encode e) it))
  | OConsumeWhile f => moved (b_consume_while f it)
  | OConsumeUntilTail t => moved (b_consume_until_tail_is (encode t) it)
  | OConsumeUntilEnd => moved (b_consume_until_end it)
  | OPeekUntilEnd => peeked it (b_peek_until_end it)
  | OGetIndex => Ret (AOffset (Some (index it)), it)
  | OSubstringFrom a => peeked it (Ret (b_substring_from a it))
  | OSubstringAhead n => peeked it (Ret (b_substring_ahead n it))
  | OFindNext p => bind (b_find_next (encode p) it) (fun k => Ret (AOffset k, it))
  | OPeekLine => peeked it (b_peek_line_ahead it)
  | OConsumeLine => moved (b_consume_line_ahead it)
  | OSkipWhile f => bind (b_while (rounds it) f it) (fun it' => Ret (AUnit, it'))
  end.

Fixpoint b_run (os : list op) (it : biter) : res (list (answer bytes) * biter) :=
  match os with
  | [] => Ret ([], it)
  | o :: os' =>
      bind (b_step o it) (fun p =>
      bind (b_run os' (snd p)) (fun q => Ret (fst p :: fst q, snd q)))
  end.

(** iter.rs:24-29 [new]. *)
Definition b_new (bs : bytes) : biter := {| the_str := bs; index := 0 |}.

(** ** The iterator on chars *)

(** The chars already passed and the cursor of Iter.v. *)
Record citer := { passed : str; ahead : cursor }.

(** Splits a text behind its first [n] bytes, if a char ends there. *)
Fixpoint split_bytes (n : nat) (s : str) : option (str * str) :=
  match n with
  | O => Some ([], s)
  | _ => match s with
         | [] => None
         | c :: s' =>
             if length (enc_char c) <=? n
             then match split_bytes (n - length (enc_char c)) s' with
                  | Some (a, b) => Some (c :: a, b)
                  | None => None
                  end
             else None
         end
  end.

(** The text before the first occurrence of [p]. *)
Fixpoint before_first (p s : str) : option str :=
  if starts_with p s then Some []
  else match s with
       | [] => None
       | c :: s' => match before_first p s' with Some a => Some (c :: a) | None => None end
       end.

Definition pass (it : citer) (taken : str) (rest : cursor) : citer :=
  {| passed := passed it ++ taken; ahead := rest |}.

Definition on_char (f : bytes -> bool) (c : char) : bool := f (enc_char c).

Definition c_step (o : op) (it : citer) : answer str * citer :=
  let r := ahead it in
  match o with
  | ONext =>
      match peek r with
      | Some c => (AText (Some [c]), pass it [c] (next r))
      | None => (AText None, it)
      end
  | OPeek => (AText (option_map (fun c => [c]) (peek r)), it)
  | ONextIfEq e =>
      match e with
      | [c] => match next_if_eq c r with
               | Some r' => (AText (Some [c]), pass it [c] r')
               | None => (AText None, it)
               end
      | _ => (AText None, it)
      end
  | OConsumeWhile f =>
      let p := consume_while (on_char f) r in (AText (Some (fst p)), pass it (fst p) (snd p))
  | OConsumeUntilTail t =>
      let p := consume_until_tail_is t r in (AText (Some (fst p)), pass it (fst p) (snd p))
  | OConsumeUntilEnd => (AText (Some r), pass it r [])
  | OPeekUntilEnd => (AText (Some r), it)
  | OGetIndex => (AOffset (Some (length (encode (passed it)))), it)
  | OSubstringFrom a => (AText (option_map snd (split_bytes a (passed it))), it)
  | OSubstringAhead n => (AText (option_map fst (split_bytes n r)), it)
  | OFindNext p => (AOffset (option_map (fun a => length (encode a)) (before_first p r)), it)
  | OPeekLine => (AText (peek_line_ahead r), it)
  | OConsumeLine =>
      match peek_line_ahead r with
      | Some l => let p := consume_line_ahead r in (AText (Some l), pass it (fst p) (snd p))
      | None => (AText None, it)
      end
  | OSkipWhile f =>
      (AUnit, pass it (take_while (on_char f) r) (skip_while (on_char f) r))
  end.

Fixpoint c_run (os : list op) (it : citer) : list (answer str) * citer :=
  match os with
  | [] => ([], it)
  | o :: os' =>
      let p := c_step o it in
      let q := c_run os' (snd p) in (fst p :: fst q, snd q)
  end.

Definition c_new (s : str) : citer := {| passed := []; ahead := s |}.

(** ** How the two are compared *)

Definition encoded (a : answer str) : answer bytes :=
  match a with
  | AText o => AText (option_map encode o)
  | AOffset o => AOffset o
  | AUnit => AUnit
  end.

(** The byte iterator at the place of the char iterator. *)
Definition at_place (it : citer) : biter :=
  {| the_str := encode (passed it ++ ahead it); index := length (encode (passed it)) |}.

(** The text arguments are Rust strings. *)
Definition op_ok (o : op) : Prop :=
  match o with
  | ONextIfEq e => valid e
  | OConsumeUntilTail t => valid t
  | OFindNext p => valid p
  | _ => True
  end.

Definition ops_ok (s : str) (os : list op) : Prop :=
  Forall op_ok os /\ (s = [] -> ~ In OPeekUntilEnd os).
