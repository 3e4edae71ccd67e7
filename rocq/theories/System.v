(** * System: the operating system and the browser as smd sees them.

    Not code of /repo: the environment in which Cli.v runs.  A program is a tree
    of system calls ([prog]); [exec] runs it against a file system, one call per
    step, and for every call a [choice] says what the outside world does: the
    call succeeds, fails, or (for write(2)) is short.  When the choices run out
    the process is dead: every prefix of a run is a crash.  [exec2] runs two
    processes on the same file system in any interleaving.

    Simplifications.  A path is absolute, a list of names; directories are not
    symbolic links (the last component may be one).  Reading a file is one step.
    Permissions, full disks and the like are not modelled as such, but every
    call may fail at any time. *)
From Coq Require Import Ascii String.
From Verif Require Import Strings StringsFacts Utf8.
Open Scope list_scope.

Definition path := list str.

Fixpoint path_eqb (a b : path) : bool :=
  match a, b with
  | [], [] => true
  | x :: a', y :: b' => str_eqb x y && path_eqb a' b'
  | _, _ => false
  end.

(** Files have a number apart from their name; two names may have the same
    number (hard links).  The numbers a process allocates carry its id, those
    of files that existed before carry 0. *)
Definition inode := (nat * nat)%type.
Definition ino_eqb (a b : inode) : bool := (fst a =? fst b) && (snd a =? snd b).

Inductive node := NFile (i : inode) | NLink (target : path) | NDir.

Record fs := { names : path -> option node; data : inode -> bytes }.

(** How many symbolic links are followed before ELOOP. *)
Definition max_links : nat := 40.

(** The name behind all symbolic links; [None] for a loop. *)
Fixpoint resolve (n : nat) (f : fs) (p : path) : option path :=
  match n with
  | O => None
  | S n' => match names f p with
            | Some (NLink t) => resolve n' f t
            | _ => Some p
            end
  end.

(** The file a name stands for. *)
Definition inode_of (f : fs) (p : path) : option inode :=
  match resolve max_links f p with
  | Some q => match names f q with Some (NFile i) => Some i | _ => None end
  | None => None
  end.

(** What reading the name gives. *)
Definition contents (f : fs) (p : path) : option bytes := option_map (data f) (inode_of f p).

(** stat(2) succeeds. *)
Definition present (f : fs) (p : path) : bool :=
  match resolve max_links f p with
  | Some q => match names f q with Some _ => true | None => false end
  | None => false
  end.

Definition set_name (f : fs) (p : path) (n : option node) : fs :=
  {| names := fun q => if path_eqb q p then n else names f q; data := data f |}.
Definition set_data (f : fs) (i : inode) (b : bytes) : fs :=
  {| names := names f; data := fun j => if ino_eqb j i then b else data f j |}.

Definition parent (p : path) : path := removelast p.

(** The state of one process: the next inode it would allocate, its browser
    tabs and what it logged. *)
Inductive level := LError | LWarn | LInfo | LDebug | LTrace.
Record record := { rec_level : level; rec_target : str; rec_text : str }.
Inductive tab := TBlank | TLoading (p : path) | TLoaded (html : bytes).
Record local := { fresh : nat; tabs : list tab; logged : list record }.

(** Results of system calls: [std::io::Result], the error as displayed. *)
Definition io (A : Type) := (A + str)%type.

(** Open file for writing. *)
Definition handle := inode.

Inductive call : Type -> Type :=
| Read (p : path) : call (io bytes)                     (* std::fs::read *)
| Exists (p : path) : call bool                         (* Path::exists *)
| Create (p : path) : call (io handle)                  (* File::create *)
| Write (h : handle) (off : nat) (b : bytes) : call (io nat)  (* write(2) *)
| Remove (p : path) : call (io unit)                    (* std::fs::remove_file *)
| Mkdirs (p : path) : call (io unit)                    (* std::fs::create_dir_all *)
| Cwd : call (io path)                                  (* std::env::current_dir *)
| Log (r : record) : call unit                          (* log::...! *)
| Launch : call (io unit)                               (* Browser::default *)
| NewTab : call (io nat)                                (* Browser::new_tab *)
| Navigate (t : nat) (p : path) : call (io unit)        (* Tab::navigate_to *)
| WaitNav (t : nat) : call (io unit)                    (* Tab::wait_until_navigated *)
| Print (t : nat) : call (io bytes).                    (* Tab::print_to_pdf *)

(** What the outside world does at one call. *)
Inductive choice :=
| Ok                    (* it succeeds, if it can *)
| Fail (m : str)        (* it fails *)
| Short (n : nat)       (* write(2): only n bytes; create_dir_all: only n levels *)
| Late.                 (* navigate_to: the page is loaded while it is waited for *)

(** Programs.  [Stop] is a panic, [Spin] an endless loop. *)
Inductive prog (A : Type) : Type :=
| Done (a : A)
| Stop
| Spin
| Do {B : Type} (c : call B) (k : B -> prog A).
Arguments Done {A} a.
Arguments Stop {A}.
Arguments Spin {A}.
Arguments Do {A B} c k.

Fixpoint pbind {A B} (m : prog A) (k : A -> prog B) : prog B :=
  match m with
  | Done a => k a
  | Stop => Stop
  | Spin => Spin
  | Do c f => Do c (fun x => pbind (f x) k)
  end.

Definition call1 {A} (c : call A) : prog A := Do c (fun x => Done x).

(** The machine a process runs on: its working directory and how its browser
    prints a page. *)
Record machine := { pid : nat; cwd : path; pdf_of : bytes -> bytes }.

Definition enoent : str := lit "No such file or directory".
Definition eisdir : str := lit "Is a directory".
Definition enotdir : str := lit "Not a directory".
Definition eloop : str := lit "Too many levels of symbolic links".
Definition no_page : str := lit "net::ERR_FILE_NOT_FOUND".

(** [bs] with [b] written at offset [off]; a gap is filled with zeros. *)
Definition write_at (off : nat) (b bs : bytes) : bytes :=
  firstn off bs ++ repeat 0%N (off - length bs) ++ b ++ skipn (off + length b) bs.

Definition is_dir (f : fs) (p : path) : bool :=
  match names f p with Some NDir => true | _ => false end.

(** open(2) with O_CREAT and O_TRUNC. *)
Definition do_create (m : machine) (p : path) (f : fs) (l : local) : io handle * (fs * local) :=
  match resolve max_links f p with
  | None => (inr eloop, (f, l))
  | Some q =>
      match names f q with
      | Some (NFile i) => (inl i, (set_data f i [], l))
      | Some _ => (inr eisdir, (f, l))
      | None =>
          if is_dir f (parent q) then
            let i := (pid m, fresh l) in
            (inl i, (set_data (set_name f q (Some (NFile i))) i [],
                     {| fresh := S (fresh l); tabs := tabs l; logged := logged l |}))
          else (inr enoent, (f, l))
      end
  end.

(** mkdir -p for the first [n] levels of [p]. *)
Fixpoint do_mkdirs (n : nat) (done todo : path) (f : fs) : io unit * fs :=
  match todo, n with
  | [], _ => (inl tt, f)
  | _ :: _, O => (inr enotdir, f)
  | d :: todo', S n' =>
      let p := done ++ [d] in
      match names f p with
      | Some NDir => do_mkdirs n' p todo' f
      | Some _ => (inr enotdir, f)
      | None => do_mkdirs n' p todo' (set_name f p (Some NDir))
      end
  end.

Definition set_tab (l : local) (t : nat) (x : tab) : local :=
  {| fresh := fresh l;
     tabs := firstn t (tabs l) ++ [x] ++ skipn (S t) (tabs l);
     logged := logged l |}.

(** The browser fetches the page. *)
Definition load (t : nat) (p : path) (f : fs) (l : local) : io unit * (fs * local) :=
  match contents f p with
  | Some b => (inl tt, (f, set_tab l t (TLoaded b)))
  | None => (inr no_page, (f, l))
  end.

(** One system call. *)
Definition answer (m : machine) {A} (c : call A) (x : choice) (f : fs) (l : local)
  : A * (fs * local) :=
  match c in call B return B * (fs * local) with
  | Read p =>
      match x with
      | Fail e => (inr e, (f, l))
      | _ => match contents f p with
             | Some b => (inl b, (f, l))
             | None => (inr enoent, (f, l))
             end
      end
  | Exists p =>
      match x with
      | Fail _ => (false, (f, l))
      | _ => (present f p, (f, l))
      end
  | Create p =>
      match x with
      | Fail e => (inr e, (f, l))
      | _ => do_create m p f l
      end
  | Write h off b =>
      match x with
      | Fail e => (inr e, (f, l))
      | Short n =>
          let b' := firstn n b in
          (inl (length b'), (set_data f h (write_at off b' (data f h)), l))
      | _ => (inl (length b), (set_data f h (write_at off b (data f h)), l))
      end
  | Remove p =>
      match x with
      | Fail e => (inr e, (f, l))
      | _ => match names f p with
             | Some NDir => (inr eisdir, (f, l))
             | Some _ => (inl tt, (set_name f p None, l))
             | None => (inr enoent, (f, l))
             end
      end
  | Mkdirs p =>
      match x with
      | Fail e => (inr e, (f, l))
      | Short n => let r := do_mkdirs n [] p f in (fst r, (snd r, l))
      | _ => let r := do_mkdirs (length p) [] p f in (fst r, (snd r, l))
      end
  | Cwd =>
      match x with
      | Fail e => (inr e, (f, l))
      | _ => (inl (cwd m), (f, l))
      end
  | Log r => (tt, (f, {| fresh := fresh l; tabs := tabs l; logged := logged l ++ [r] |}))
  | Launch =>
      match x with
      | Fail e => (inr e, (f, l))
      | _ => (inl tt, (f, l))
      end
  | NewTab =>
      match x with
      | Fail e => (inr e, (f, l))
      | _ => (inl (length (tabs l)),
              (f, {| fresh := fresh l; tabs := tabs l ++ [TBlank]; logged := logged l |}))
      end
  | Navigate t p =>
      match x with
      | Fail e => (inr e, (f, l))
      | Late => (inl tt, (f, set_tab l t (TLoading p)))
      | _ => load t p f l
      end
  | WaitNav t =>
      match x with
      | Fail e => (inr e, (f, l))
      | _ => match nth t (tabs l) TBlank with
             | TLoading p => load t p f l
             | _ => (inl tt, (f, l))
             end
      end
  | Print t =>
      match x with
      | Fail e => (inr e, (f, l))
      | _ => match nth t (tabs l) TBlank with
             | TLoaded b => (inl (pdf_of m b), (f, l))
             | _ => (inl (pdf_of m []), (f, l))
             end
      end
  end.

(** A process: its machine, its local state and the rest of its program. *)
Record proc (A : Type) := { mach : machine; here : local; code : prog A }.
Arguments mach {A}.
Arguments here {A}.
Arguments code {A}.

(** One step of a process, if it has one. *)
Definition step {A} (x : choice) (f : fs) (p : proc A) : fs * proc A :=
  match code p with
  | Do c k =>
      let r := answer (mach p) c x f (here p) in
      (fst (snd r), {| mach := mach p; here := snd (snd r); code := k (fst r) |})
  | _ => (f, p)
  end.

(** A process alone: one choice per call; it dies when they run out. *)
Fixpoint exec {A} (xs : list choice) (f : fs) (p : proc A) : fs * proc A :=
  match xs with
  | [] => (f, p)
  | x :: xs' => let r := step x f p in exec xs' (fst r) (snd r)
  end.

(** Two processes: [true] is a step of the first one. *)
Fixpoint exec2 {A B} (xs : list (bool * choice)) (f : fs) (p : proc A) (q : proc B)
  : fs * (proc A * proc B) :=
  match xs with
  | [] => (f, (p, q))
  | (true, x) :: xs' => let r := step x f p in exec2 xs' (fst r) (snd r) q
  | (false, x) :: xs' => let r := step x f q in exec2 xs' (fst r) p (snd r)
  end.

Definition no_tabs : local := {| fresh := 0; tabs := []; logged := [] |}.
Definition start {A} (m : machine) (p : prog A) : proc A :=
  {| mach := m; here := no_tabs; code := p |}.
