(** * Python: the version of the Python package, release.yaml:274-303 and pypi/pyproject.toml:1-19

    pyproject.toml gives no version, so maturin takes the one of smd/Cargo.toml ([manifest-path], :18) and reads it as a
    version of PEP 440, after the regular expression in appendix B of PEP 440.  It needs no backtracking: what stands
    between the parts is optional, and no word of the alternatives that begins like another one goes on like a part. *)
From Coq Require Import Ascii String.
From Verif Require Import Strings Release.
Open Scope list_scope.

Inductive phase := Alpha | Beta | Candidate.
Record python := Python {
  epoch : nat; numbers : list nat; prerelease : option (phase * nat); postrelease : option nat; devrelease : option nat;
  local : str }.

Definition sep (c : char) : bool := ceq c c_minus || ceq c c_under || ceq c c_dot.
Definition skip_sep (s : str) : str := match s with c :: r => if sep c then r else s | [] => s end.

(** The digits at the beginning and what is behind them. *)
Definition digits_of (s : str) : str * str := (take_while is_digit s, drop_while is_digit s).

(** [[-_.]?[0-9]+]: the number; 0 if there is none.  The separator is left out in both cases. *)
Definition opt_number (s : str) : nat * str :=
  let r := skip_sep s in
  let '(d, r') := digits_of r in (number d, r').

(** The first of these words with which the text begins. *)
Fixpoint word {A} (ws : list (str * A)) (s : str) : option (A * str) :=
  match ws with
  | [] => None
  | (w, a) :: ws' => match strip_prefix w s with Some r => Some (a, r) | None => word ws' s end
  end.

Definition pre_words : list (str * phase) :=
  [(lit "alpha", Alpha); (lit "a", Alpha); (lit "beta", Beta); (lit "b", Beta); (lit "preview", Candidate);
   (lit "pre", Candidate); (lit "c", Candidate); (lit "rc", Candidate)].
Definition post_words : list (str * unit) := [(lit "post", tt); (lit "rev", tt); (lit "r", tt)].
Definition dev_words : list (str * unit) := [(lit "dev", tt)].

Definition part {A} (ws : list (str * A)) (s : str) : option (A * nat * str) :=
  match word ws (skip_sep s) with
  | Some (a, r) => let '(n, r') := opt_number r in Some (a, n, r')
  | None => None
  end.

(** [(?:\.[0-9]+)*] *)
Fixpoint more_numbers (fuel : nat) (s : str) : list nat * str :=
  match fuel, s with
  | S f, c :: r =>
      if ceq c c_dot then
        match digits_of r with
        | ([], _) => ([], s)
        | (d, r') => let '(l, t) := more_numbers f r' in (number d :: l, t)
        end
      else ([], s)
  | _, _ => ([], s)
  end.

(** The pre-release. *)
Definition read_pre (s : str) : option (phase * nat) * str :=
  match part pre_words s with Some (p, n, r) => (Some (p, n), r) | None => (None, s) end.

(** The post-release; a hyphen and digits are one, too. *)
Definition read_post (s : str) : option nat * str :=
  let words := match part post_words s with Some (_, n, r) => (Some n, r) | None => (None, s) end in
  match s with
  | c :: r => if ceq c c_minus then match digits_of r with ([], _) => words | (d, r') => (Some (number d), r') end else words
  | [] => words
  end.

Definition read_dev (s : str) : option nat * str :=
  match part dev_words s with Some (_, n, r) => (Some n, r) | None => (None, s) end.

(** [[a-z0-9]+(?:[-_.][a-z0-9]+)*]: separators stand between others. *)
Fixpoint local_ok (after_sep : bool) (s : str) : bool :=
  match s with
  | [] => negb after_sep
  | c :: r => if sep c then negb after_sep && local_ok true r
              else (is_digit c || (N.leb 97 c && N.leb c 122)) && local_ok false r
  end.

(** Behind the numbers. *)
Definition read_tail (e : nat) (ns : list nat) (s : str) : option python :=
  let '(p, s1) := read_pre s in
  let '(q, s2) := read_post s1 in
  let '(d, s3) := read_dev s2 in
  match s3 with
  | [] => Some (Python e ns p q d [])
  | c :: l => if ceq c c_plus && local_ok true l then Some (Python e ns p q d l) else None
  end.

(** The whole, which is read without regard to capitals; [v] may stand before it. *)
Definition read_python (text : str) : option python :=
  let s := to_lowercase text in
  let s := match s with c :: r => if ceq c 118%N then r else s | [] => s end in
  match digits_of s with
  | ([], _) => None
  | (d, r) =>
      let '(e, d, r) :=
        match r with
        | c :: r1 => if ceq c c_bang then (number d, fst (digits_of r1), snd (digits_of r1)) else (0, d, r)
        | [] => (0, d, r)
        end in
      match d with
      | [] => None
      | _ => let '(l, t) := more_numbers (length r) r in read_tail e (number d :: l) t
      end
  end.

(** What PyPI takes: no local version. *)
Definition uploaded (text : str) : option python :=
  match read_python text with
  | Some p => if is_empty (local p) then Some p else None
  | None => None
  end.
