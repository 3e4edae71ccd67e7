(** * Logger: /repo/smd/src/logger.rs.

    Colours (the styles of [env_logger]) are not modelled; a line is the text
    without them. *)
From Coq Require Import Ascii String.
From Verif Require Import Strings StringsFacts Utf8 System.
Open Scope list_scope.

(** logger.rs:29-40 [Padded]: [{: <width$}] counts chars. *)
Definition padded (s : str) (width : nat) : str := s ++ crep (width - length s) c_sp.

(** logger.rs:43-51 [max_target_width]: the width returned and the new value of
    [MAX_MODULE_WIDTH]; [target.len()] counts bytes. *)
Definition max_target_width (max_width : nat) (target : str) : nat * nat :=
  if max_width <? length (encode target)
  then (length (encode target), length (encode target))
  else (max_width, max_width).

(** logger.rs:54-65 [colored_level]. *)
Definition level_text (l : level) : str :=
  match l with
  | LTrace => lit "TRACE"
  | LDebug => lit "DEBUG"
  | LInfo => lit "INFO "
  | LWarn => lit "WARN "
  | LError => lit "ERROR"
  end.

(** logger.rs:85 *)
Definition log_line (r : record) (width : nat) : str :=
  lit " " ++ level_text (rec_level r) ++ lit " " ++ padded (rec_target r) width ++ lit " > " ++
  rec_text r ++ [c_nl].

(** logger.rs:71-86, one record after the other; [w] is [MAX_MODULE_WIDTH]. *)
Fixpoint log_all (w : nat) (rs : list record) : list str :=
  match rs with
  | [] => []
  | r :: rs' =>
      let (width, w') := max_target_width w (rec_target r) in
      log_line r width :: log_all w' rs'
  end.

(** ** Several threads.  [load] and [store] (lines 44 and 46) are separate steps,
    and so is the printing of the line.  The memory is sequentially consistent. *)

Inductive place :=
| Idle                      (* before line 44 *)
| Loaded (w : nat)          (* after line 44 *)
| Ready (width : nat).      (* the line is formatted, not yet printed *)

Record thread := { at_ : place; todo : list record }.

Record logger := { shared : nat; threads : list thread; printed : list (record * nat) }.

Definition set_thread (ts : list thread) (i : nat) (t : thread) : list thread :=
  firstn i ts ++ [t] ++ skipn (S i) ts.

(** One step of thread [i], if it has one. *)
Definition log_step (g : logger) (i : nat) : logger :=
  match nth_error (threads g) i with
  | Some {| at_ := a; todo := r :: rest |} =>
      match a with
      | Idle =>
          {| shared := shared g;
             threads := set_thread (threads g) i {| at_ := Loaded (shared g); todo := r :: rest |};
             printed := printed g |}
      | Loaded w =>
          let n := length (encode (rec_target r)) in
          if w <? n then
            {| shared := n;
               threads := set_thread (threads g) i {| at_ := Ready n; todo := r :: rest |};
               printed := printed g |}
          else
            {| shared := shared g;
               threads := set_thread (threads g) i {| at_ := Ready w; todo := r :: rest |};
               printed := printed g |}
      | Ready width =>
          {| shared := shared g;
             threads := set_thread (threads g) i {| at_ := Idle; todo := rest |};
             printed := printed g ++ [(r, width)] |}
      end
  | _ => g
  end.

Definition log_run (sched : list nat) (g : logger) : logger := fold_left log_step sched g.

Definition log_start (rss : list (list record)) : logger :=
  {| shared := 0; threads := map (fun rs => {| at_ := Idle; todo := rs |}) rss; printed := [] |}.

(** The lines on stderr. *)
Definition log_lines (g : logger) : list str := map (fun p => log_line (fst p) (snd p)) (printed g).
