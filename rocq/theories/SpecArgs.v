(** * SpecArgs: which command lines mean what, as a grammar. *)
From Coq Require Import Ascii String.
From Verif Require Import Strings StringsFacts Utf8 System Config Cli Args.
Open Scope list_scope.

(** A word that raises the verbosity by [k]. *)
Inductive louder : str -> nat -> Prop :=
| louder_verbose : louder (lit "--verbose") 1
| louder_debug : louder (lit "--debug") 1
| louder_short k : louder (lit "-" ++ crep (S k) 118%N) (S k).

Inductive loudness : list str -> nat -> Prop :=
| loud_none : loudness [] 0
| loud_more a k vs n : louder a k -> loudness vs n -> loudness (a :: vs) (k + n).

(** A value as a word of its own. *)
Definition detached (x : str) : Prop := x = lit "-" \/ starts_with (lit "-") x = false.

(** The five ways to give the option [-c], [--long] the value [x]. *)
Inductive gives (c : char) (long : str) (x : str) : list str -> Prop :=
| short_apart : detached x -> gives c long x [lit "-" ++ [c]; x]
| long_apart : detached x -> gives c long x [lit "--" ++ long; x]
| short_joined : x <> [] -> starts_with (lit "=") x = false -> gives c long x [lit "-" ++ [c] ++ x]
| short_equals : gives c long x [lit "-" ++ [c] ++ lit "=" ++ x]
| long_equals : gives c long x [lit "--" ++ long ++ lit "=" ++ x].

Inductive format_word : str -> format -> Prop :=
| word_pdf : format_word (lit "pdf") Pdf
| word_html : format_word (lit "html") Html.

Section Spec.
Variable home : option str.
Variable f : fs.
Variable dir : path.

(** The options of [parse]: each at most once, in any order. *)
Inductive options : option path -> option format -> list str -> Prop :=
| no_option : options None None []
| input_option x p ws o rest :
    gives 105%N (lit "input") x ws -> parse_dir home f dir x = Some p -> options None o rest ->
    options (Some p) o (ws ++ rest)
| output_option x y ws i rest :
    gives 111%N (lit "output") x ws -> format_word x y -> options i None rest ->
    options i (Some y) (ws ++ rest).

(** The end of the options may be marked. *)
Inductive words_end : list str -> Prop :=
| end_plain : words_end []
| end_marked : words_end [lit "--"].

Definition or_pdf (o : option format) : format := match o with Some x => x | None => Pdf end.

(** The command lines that start a command, and its verbosity. *)
Inductive line : list str -> command -> nat -> Prop :=
| line_parse vs k i o ws tl :
    loudness vs k -> options (Some i) o ws -> words_end tl ->
    line (vs ++ [lit "parse"] ++ ws ++ tl) (CParse i (or_pdf o)) (Nat.min k 255)
| line_initialize vs k tl :
    loudness vs k -> words_end tl ->
    line (vs ++ [lit "initialize"] ++ tl) CInitialize (Nat.min k 255).

(** A word that asks for help, behind [k] times [v]. *)
Inductive help_word (k : nat) : str -> Prop :=
| help_long : help_word k (lit "--help")
| help_version : help_word k (lit "--version")
| help_short c rest : c = 104%N \/ c = 86%N -> help_word k (lit "-" ++ crep k 118%N ++ c :: rest).

(** The command lines that ask for help: all is in order up to the word that asks. *)
Inductive help_line : list str -> Prop :=
| help_root vs k n a rest : loudness vs k -> help_word n a -> help_line (vs ++ a :: rest)
| help_parse vs k i o ws a rest : loudness vs k -> options i o ws -> help_word 0 a ->
    help_line (vs ++ [lit "parse"] ++ ws ++ a :: rest)
| help_initialize vs k a rest : loudness vs k -> help_word 0 a ->
    help_line (vs ++ [lit "initialize"] ++ a :: rest).

End Spec.
