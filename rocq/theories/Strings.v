(** * Strings: the part of Rust's [char]/[str] API that /repo uses.

    A Rust [char] is modelled by its Unicode scalar value ([N]) and a [&str] /
    [String] by the list of its chars.  Nothing below is code of /repo: it is the
    model of the std functions /repo calls; each definition names the std
    function and one call site.  Byte lengths ([str::len]) only ever matter in
    /repo on ASCII runs (see DESIGN.md), where they equal the number of chars;
    the byte-level iterator is modelled separately in IterBytes.v. *)
From Coq Require DecimalString.
From Coq Require Import Ascii String.
From Coq Require Export List Arith NArith Bool Lia.
Export ListNotations.

Definition char := N.
Definition str := list char.

(** String literals.  ASCII literals of the Rust source are written
    [lit "..."]; the two control characters that cannot be written inside a Coq
    literal are spliced in by hand. *)
Fixpoint lit (s : string) : str :=
  match s with
  | EmptyString => []
  | String a s' => N_of_ascii a :: lit s'
  end.
Arguments lit s%string.

(** Character constants used by the lexer's match arms (lexer.rs:56-191). *)
Definition c_tab : char := 9%N.      (* '\t' *)
Definition c_nl : char := 10%N.      (* '\n' *)
Definition c_cr : char := 13%N.      (* '\r' *)
Definition c_sp : char := 32%N.      (* ' ' *)
Definition c_bang : char := 33%N.    (* '!' *)
Definition c_quot : char := 34%N.    (* double quote *)
Definition c_hash : char := 35%N.    (* '#' *)
Definition c_amp : char := 38%N.     (* '&' *)
Definition c_apos : char := 39%N.    (* ''' *)
Definition c_lpar : char := 40%N.    (* '(' *)
Definition c_rpar : char := 41%N.    (* ')' *)
Definition c_star : char := 42%N.    (* '*' *)
Definition c_plus : char := 43%N.    (* '+' *)
Definition c_minus : char := 45%N.   (* '-' *)
Definition c_dot : char := 46%N.     (* '.' *)
Definition c_colon : char := 58%N.   (* ':' *)
Definition c_lt : char := 60%N.      (* '<' *)
Definition c_gt : char := 62%N.      (* '>' *)
Definition c_at : char := 64%N.      (* '@' *)
Definition c_lbrk : char := 91%N.    (* '[' *)
Definition c_bslash : char := 92%N.  (* '\' *)
Definition c_rbrk : char := 93%N.    (* ']' *)
Definition c_caret : char := 94%N.   (* '^' *)
Definition c_under : char := 95%N.   (* '_' *)
Definition c_tick : char := 96%N.    (* '`' *)
Definition c_lbrace : char := 123%N. (* '{' *)
Definition c_pipe : char := 124%N.   (* '|' *)
Definition c_rbrace : char := 125%N. (* '}' *)
Definition c_tilde : char := 126%N.  (* '~' *)

Definition ceq (a b : char) : bool := N.eqb a b.

(** '0'..='9', the arms of lexer.rs:84. *)
Definition is_digit (c : char) : bool := N.leb 48 c && N.leb c 57.

(** [==] on [&str]. *)
Fixpoint str_eqb (a b : str) : bool :=
  match a, b with
  | [], [] => true
  | x :: a', y :: b' => ceq x y && str_eqb a' b'
  | _, _ => false
  end.

(** [char::is_whitespace]: the Unicode White_Space property
    (used by trim*, lexer.rs:717,838, lib.rs:150, token.rs:197). *)
Definition is_whitespace (c : char) : bool :=
  (N.leb 9 c && N.leb c 13) || N.eqb c 32 || N.eqb c 133 || N.eqb c 160
  || N.eqb c 5760 || (N.leb 8192 c && N.leb c 8202) || N.eqb c 8232
  || N.eqb c 8233 || N.eqb c 8239 || N.eqb c 8287 || N.eqb c 12288.

(** [str::is_empty]. *)
Definition is_empty (s : str) : bool := match s with [] => true | _ => false end.

(** [str::starts_with(&str)] (lexer.rs:532). *)
Fixpoint starts_with (p s : str) : bool :=
  match p, s with
  | [], _ => true
  | x :: p', y :: s' => ceq x y && starts_with p' s'
  | _ :: _, [] => false
  end.

(** [str::ends_with(&str)] (lexer.rs:645, iter.rs:69). *)
Definition ends_with (p s : str) : bool := starts_with (rev p) (rev s).

(** [str::contains(&str)] (lexer.rs:221). *)
Fixpoint contains (p s : str) : bool :=
  starts_with p s || match s with [] => false | _ :: s' => contains p s' end.

(** [str::contains(char)] (lexer.rs:295). *)
Definition contains_char (c : char) (s : str) : bool := existsb (ceq c) s.

(** [str::strip_prefix] (lexer.rs:224). *)
Fixpoint strip_prefix (p s : str) : option str :=
  match p, s with
  | [], _ => Some s
  | x :: p', y :: s' => if ceq x y then strip_prefix p' s' else None
  | _ :: _, [] => None
  end.

(** [str::strip_suffix] (lexer.rs:228). *)
Definition strip_suffix (p s : str) : option str :=
  match strip_prefix (rev p) (rev s) with
  | Some r => Some (rev r)
  | None => None
  end.

(** [Option::unwrap_or("")]. *)
Definition or_empty (o : option str) : str :=
  match o with Some s => s | None => [] end.

(** Longest prefix satisfying [f], and the rest. *)
Fixpoint take_while (f : char -> bool) (s : str) : str :=
  match s with
  | [] => []
  | c :: s' => if f c then c :: take_while f s' else []
  end.
Fixpoint drop_while (f : char -> bool) (s : str) : str :=
  match s with
  | [] => []
  | c :: s' => if f c then drop_while f s' else s
  end.

(** [str::trim_start_matches(char)], [str::trim_end_matches(pattern of chars)]
    (lib.rs:242, lexer.rs:244, lexer.rs:656). *)
Definition trim_start_by (f : char -> bool) (s : str) : str := drop_while f s.
Definition trim_end_by (f : char -> bool) (s : str) : str := rev (drop_while f (rev s)).

(** [str::trim_end], [str::trim] (lexer.rs:232, lexer.rs:251). *)
Definition trim_end (s : str) : str := trim_end_by is_whitespace s.
Definition trim (s : str) : str := trim_end (trim_start_by is_whitespace s).

(** [str::trim_end_matches(&str)] for a non-empty pattern: repeatedly removes
    the suffix (lexer.rs:653, lib.rs:151). The counter [n] bounds the number of
    removals by the length. *)
Fixpoint drop_prefixes (n : nat) (p s : str) : str :=
  match n with
  | O => s
  | S n' => match strip_prefix p s with
            | Some s' => drop_prefixes n' p s'
            | None => s
            end
  end.
Definition trim_end_matches (p s : str) : str :=
  rev (drop_prefixes (length s) (rev p) (rev s)).

(** [str::split_once(char)] (lexer.rs:222): split around the first occurrence. *)
Fixpoint split_once (c : char) (s : str) : option (str * str) :=
  match s with
  | [] => None
  | x :: s' =>
      if ceq x c then Some ([], s')
      else match split_once c s' with
           | Some (a, b) => Some (x :: a, b)
           | None => None
           end
  end.

(** [str::rsplit_once(char)] (lexer.rs:232): around the last occurrence. *)
Definition rsplit_once (c : char) (s : str) : option (str * str) :=
  match split_once c (rev s) with
  | Some (a, b) => Some (rev b, rev a)
  | None => None
  end.

(** [str::split(&str)] for a non-empty pattern (lib.rs:156, lexer.rs:941).
    [skip] counts the chars of a match still to be skipped, [acc] is the
    reversed current piece. *)
Fixpoint split_go (p : str) (skip : nat) (acc s : str) : list str :=
  match s with
  | [] => [rev acc]
  | c :: s' =>
      match skip with
      | S k => split_go p k acc s'
      | O => if starts_with p s
             then rev acc :: split_go p (length p - 1) [] s'
             else split_go p 0 (c :: acc) s'
      end
  end.
Definition split (p s : str) : list str := split_go p 0 [] s.

(** [str::matches(&str).count()] (lexer.rs:890, 930): non-overlapping, left to
    right. *)
Fixpoint count_go (p : str) (skip : nat) (s : str) : nat :=
  match s with
  | [] => 0
  | _ :: s' =>
      match skip with
      | S k => count_go p k s'
      | O => if starts_with p s
             then S (count_go p (length p - 1) s')
             else count_go p 0 s'
      end
  end.
Definition count_matches (p s : str) : nat := count_go p 0 s.

(** [str::replace(&str, &str)] for a non-empty pattern (lib.rs:244, lib.rs:387). *)
Fixpoint replace_go (p r : str) (skip : nat) (s : str) : str :=
  match s with
  | [] => []
  | c :: s' =>
      match skip with
      | S k => replace_go p r k s'
      | O => if starts_with p s
             then r ++ replace_go p r (length p - 1) s'
             else c :: replace_go p r 0 s'
      end
  end.
Definition replace (p r s : str) : str := replace_go p r 0 s.

(** [str::replace(char, &str)] (lib.rs:574-587, token.rs:155-166). *)
Definition replace_char (c : char) (r s : str) : str :=
  flat_map (fun x => if ceq x c then r else [x]) s.

(** [str::rfind(char)] followed by [split_at] (lib.rs:148-149): the suffix
    starting at the last occurrence of [c], if there is one. *)
Definition rfind_split_at (c : char) (s : str) : option (str * str) :=
  match rsplit_once c s with
  | Some (a, b) => Some (a, c :: b)
  | None => None
  end.

(** [str::is_ascii] (token.rs:197). *)
Definition is_ascii (s : str) : bool := forallb (fun c => N.ltb c 128) s.

(** [str::to_lowercase] on ASCII text (token.rs:202,205: the argument has passed
    [is_ascii] at token.rs:197). *)
Definition to_lower_c (c : char) : char :=
  if N.leb 65 c && N.leb c 90 then (c + 32)%N else c.
Definition to_lowercase (s : str) : str := map to_lower_c s.

(** [[char]::contains] on a slice of chars (lexer.rs:57, token.rs:219). *)
Definition mem_char (c : char) (l : list char) : bool := existsb (ceq c) l.

(** [Display] of an unsigned integer (lib.rs:172, 193, 205). *)
Definition dec (n : nat) : str := lit (DecimalString.NilZero.string_of_uint (Nat.to_uint n)).

(** [n] copies of a char. *)
Definition crep (n : nat) (c : char) : str := repeat c n.

(** Specification-side vocabulary: [a] occurs in [s] as a contiguous block. *)
Definition infix (a s : str) : Prop := exists x y, s = x ++ a ++ y.
