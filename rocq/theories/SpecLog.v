(** * SpecLog: what RUST_LOG should mean. *)
From Coq Require Import Ascii String.
From Verif Require Import Strings StringsFacts Utf8 System.
Open Scope list_scope.

(** The words for the levels, in any case. *)
Definition level_words : list str :=
  [lit "off"; lit "error"; lit "warn"; lit "info"; lit "debug"; lit "trace"].
Definition level_word (w : str) (l : nat) : Prop := nth_error level_words l = Some (to_lowercase w).

(** The name of a module. *)
Definition module_name (n : str) : Prop :=
  n <> [] /\ forall c, In c n -> is_whitespace c = false /\ c <> 47%N /\ c <> 44%N /\ c <> 61%N.

(** The entry [s] sets the level of a module and what is in it, or of everything. *)
Inductive says : str -> option str * nat -> Prop :=
| says_level w l : level_word w l -> says w (None, l)
| says_name n : module_name n -> (forall l, ~ level_word n l) -> says n (Some n, 5)
| says_both n w l : module_name n -> level_word w l -> says (n ++ lit "=" ++ w) (Some n, l).

(** Entries with commas between them. *)
Inductive entries : str -> list (option str * nat) -> Prop :=
| entry_last s e : says s e -> entries s [e]
| entry_more s e t es : says s e -> entries t es -> entries (s ++ lit "," ++ t) (e :: es).

(** The entry is about the target. *)
Definition about (target : str) (name : option str) : Prop :=
  match name with None => True | Some n => starts_with n target = true end.
Definition size (name : option str) : nat :=
  match name with None => 0 | Some n => length n end.

(** The last entry for the most specific name decides. *)
Definition decides (es : list (option str * nat)) (target : str) (l : nat) : Prop :=
  exists pre name post, es = pre ++ (name, l) :: post /\ about target name /\
    (forall l', ~ In (name, l') post) /\
    (forall name' l', In (name', l') es -> about target name' -> size name' <= size name).

(** A level as a number. *)
Definition rank (l : level) : nat :=
  match l with LError => 1 | LWarn => 2 | LInfo => 3 | LDebug => 4 | LTrace => 5 end.
