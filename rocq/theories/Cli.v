(** * Cli: the command smd.

    /repo/smd-core/src/{error,fs,config,convert,browser}.rs and
    /repo/smd/src/{lib,main}.rs as programs over System.v.  Command line parsing
    (clap, args.rs) is not modelled: the program starts from its result, a
    [command]. *)
From Coq Require Import Ascii String.
From Verif Require Import Strings StringsFacts Token Iter Lexer Parser Utf8 System Config Url.
Open Scope list_scope.

(** ** error.rs *)

(** error.rs:5-41. *)
Inductive error :=
| IoError (m : str)
| SerializeError (m : str)
| DeserializeError (m : str)
| ConfigReadError (m : str)
| ConfigWriteError (m : str)
| ConfigValidatioinError (m : str)
| ConfigAlreadyExistsError (p : str)
| LoggerError (m : str)
| BrowserError (m : str)
| CustomError (m : str).

Definition tick : str := [c_tick].

(** The [#[error(...)]] attributes of error.rs:6-38. *)
Definition display_error (e : error) : str :=
  match e with
  | IoError m => lit "IO error: " ++ tick ++ m ++ tick
  | SerializeError m => lit "Serialization error: " ++ tick ++ m ++ tick
  | DeserializeError m => lit "Deserialization error: " ++ tick ++ m ++ tick
  | ConfigReadError m => lit "Cannot parse config: " ++ tick ++ m ++ tick
  | ConfigWriteError m => lit "Configuration error: " ++ tick ++ m ++ tick
  | ConfigValidatioinError m => lit "Invalid config: " ++ tick ++ m ++ tick
  | ConfigAlreadyExistsError p =>
      tick ++ p ++ tick ++ lit " already exists! Please back it up before continuing."
  | LoggerError m => lit "Logger error: " ++ tick ++ m ++ tick
  | BrowserError m => lit "Headless-chrome error: " ++ tick ++ m ++ tick
  | CustomError m => lit "Custom error: " ++ tick ++ m ++ tick
  end.

(** error.rs:44 [Result]. *)
Definition result (A : Type) := (A + error)%type.

(** [?] on a library result and on an I/O result ([#[from] std::io::Error]). *)
Definition try {A B} (m : prog (result A)) (k : A -> prog (result B)) : prog (result B) :=
  pbind m (fun r => match r with inl a => k a | inr e => Done (inr e) end).
Definition try_io {A B} (c : call (io A)) (k : A -> prog (result B)) : prog (result B) :=
  Do c (fun r => match r with inl a => k a | inr m => Done (inr (IoError m)) end).

(** ** Paths *)

(** [Path::display] / [to_string_lossy]. *)
Definition display (p : path) : str :=
  match p with [] => lit "/" | _ => flat_map (fun n => lit "/" ++ n) p end.

Definition file_name (p : path) : option str :=
  match rev p with n :: _ => Some n | [] => None end.

(** std [file_stem]: the name up to its last dot, unless that is its first char. *)
Definition file_stem (n : str) : str :=
  match rsplit_once c_dot n with
  | Some (before, _) => if is_empty before then n else before
  | None => n
  end.

(** std [PathBuf::set_extension]. *)
Definition set_extension (p : path) (ext : str) : path :=
  match file_name p with
  | Some n => removelast p ++ [file_stem n ++ lit "." ++ ext]
  | None => p
  end.

(** ** fs.rs *)

Definition say {A} (lv : level) (target text : str) (k : prog A) : prog A :=
  Do (Log {| rec_level := lv; rec_target := target; rec_text := text |}) (fun _ => k).

Definition t_fs : str := lit "smd_core::fs".
Definition t_smd : str := lit "smd".

(** The [io::Error] of [read_to_string] for bytes that are not UTF-8. *)
Definition not_utf8 : str := lit "stream did not contain valid UTF-8".

(** fs.rs:28-40 [read_to_string]. *)
Definition read_to_string (p : path) : prog (result str) :=
  say LDebug t_fs (lit "Attempting to read file: " ++ display p)
  (Do (Read p) (fun r =>
   let r := match r with
            | inl b => match decode b with Some s => inl s | None => inr not_utf8 end
            | inr m => inr m
            end in
   match r with
   | inl s => say LInfo t_fs (lit "Successfully read file: " ++ display p) (Done (inl s))
   | inr m => say LError t_fs (lit "Failed to read file: " ++ display p) (Done (inr (IoError m)))
   end)).

(** [content.lines().count()], fs.rs:45. *)
Definition line_count (s : str) : nat :=
  count_matches [c_nl] s + (if is_empty s || ends_with [c_nl] s then 0 else 1).

(** fs.rs:49-62 and 71-81: create, one [write], and no look at how much of the
    text was taken. *)
Definition create_and_write (p : path) (b : bytes) (told : nat -> str) : prog (result unit) :=
  try_io (Create p) (fun h =>
  Do (Write h 0 b) (fun r =>
  match r with
  | inl n => say LInfo t_fs (told n) (Done (inl tt))
  | inr m => say LError t_fs (lit "Failed to write file: " ++ display p) (Done (inr (IoError m)))
  end)).

(** fs.rs:43-63 [write_to_file]. *)
Definition write_to_file (p : path) (content : str) : prog (result unit) :=
  say LDebug t_fs (lit "Attempting to write file: " ++ display p)
  (create_and_write p (encode content) (fun n =>
     [c_quot] ++ display p ++ [c_quot] ++ lit " " ++ dec (line_count content) ++ lit "L, " ++
     dec n ++ lit "B written")).

(** fs.rs:66-82 [write_bytes]. *)
Definition write_bytes (p : path) (b : bytes) : prog (result unit) :=
  say LDebug t_fs (lit "Attempting to write file: " ++ display p)
  (create_and_write p b (fun n =>
     [c_quot] ++ display p ++ [c_quot] ++ lit ", " ++ dec n ++ lit "B written")).

(** ** config.rs *)

(** What the environment of the process determines. *)
Record settings := {
  toml : toml_reader;             (* the crate toml *)
  environ : list (str * str);     (* environment variables *)
  config_dir : option path;       (* dirs::config_dir() *)
  work_dir : path                 (* relative paths start here *)
}.

(** config.rs:55-56, 73: [config_dir().unwrap_or_default().join(DEFAULT_CONFIG)];
    lib.rs:17 [DEFAULT_CONFIG]. *)
Definition config_path (st : settings) : path :=
  match config_dir st with Some d => d | None => work_dir st end ++
  [lit "smd"; lit "config.toml"].

(** config.rs:54-64 [load_config]. *)
Definition load_config (st : settings) : prog (result config) :=
  Do (Exists (config_path st)) (fun there =>
  if there then
    try (read_to_string (config_path st)) (fun content =>
    match parse_from_str (toml st) (environ st) content with
    | inl c => Done (inl c)
    | inr m => Done (inr (ConfigReadError m))
    end)
  else Done (inl default_config)).

(** config.rs:66-87 [initialize]. *)
Definition initialize (st : settings) : prog (result unit) :=
  Do (Exists (config_path st)) (fun there =>
  if there then Done (inr (ConfigAlreadyExistsError (display (config_path st))))
  else
    try_io (Mkdirs (parent (config_path st))) (fun _ =>
    try (write_to_file (config_path st) default_toml) (fun _ => Done (inl tt)))).

(** ** browser.rs, convert.rs *)

(** [map_err(|_| Error::BrowserError(...))]. *)
Definition try_browser {A B} (msg : str) (c : call (io A)) (k : A -> prog (result B))
  : prog (result B) :=
  Do c (fun r => match r with inl a => k a | inr _ => Done (inr (BrowserError msg)) end).

(** browser.rs:33-35: the file that the browser takes the url for; the path is absolute, so joining it to the
    working directory (line 34) gives the path itself, and nothing of it is encoded (line 35). *)
Definition visited (p : path) : option path := url_path (lit "file://" ++ display p).

(** browser.rs:32-52 [open_file]. *)
Definition open_file (p : path) : prog (result nat) :=
  try_io Cwd (fun _ =>
  try_browser (lit "Failed to open new tab.") NewTab (fun t =>
  match visited p with
  | None => Done (inr (BrowserError (lit "Failed to open html file.")))
  | Some q =>
      try_browser (lit "Failed to open html file.") (Navigate t q) (fun _ =>
      try_browser (lit "Failed to wait until navigation is done.") (WaitNav t) (fun _ =>
      Done (inl t)))
  end)).

(** convert.rs:33 *)
Definition tmp_name : str := lit "tmp.html".

(** convert.rs:29-50 [PDFConverter::from_html], with browser.rs:21-29 and 55-79. *)
Definition from_html (html : str) : prog (result bytes) :=
  try_browser (lit "Failed to initialze headless_chrome session.") Launch (fun _ =>
  try_io Cwd (fun dir =>
  let tmpfile := dir ++ [tmp_name] in
  try (write_to_file tmpfile html) (fun _ =>
  try (open_file tmpfile) (fun t =>
  try_io (Remove tmpfile) (fun _ =>
  try_browser (lit "Failed to print to PDF:") (Print t) (fun b =>
  Done (inl b))))))).

(** ** smd/src/lib.rs, main.rs *)

(** args.rs:10-14, 72-80: the commands. *)
Inductive format := Pdf | Html.
Inductive command := CParse (input : path) (output : format) | CInitialize.

(** smd/src/lib.rs:19-20. *)
Definition extension (o : format) : str :=
  match o with Html => lit "html" | Pdf => lit "pdf" end.

(** lib.rs:38-41, 49: where the result goes. *)
Definition out_path (input : path) (o : format) : path := set_extension input (extension o).

(** lib.rs:36 [gfm::Parser::render]; [n] is the fuel of the model. *)
Definition rendering {A} (n : nat) (s : str) (k : str -> prog A) : prog A :=
  match render n s with
  | Ret html => k html
  | Panic => Stop
  | Hang => Spin
  end.

(** lib.rs:23-61 [run]. *)
Definition run (n : nat) (st : settings) (c : command) : prog (result unit) :=
  match c with
  | CInitialize => initialize st
  | CParse input o =>
      try (load_config st) (fun _config =>
      try (read_to_string input) (fun content =>
      say LInfo t_smd (lit "Transpiling markdown")
      (rendering n content (fun html =>
       match o with
       | Html => write_to_file (out_path input o) html
       | Pdf => try (from_html html) (fun b => write_bytes (out_path input o) b)
       end))))
  end.

(** main.rs:21-30: the exit status. *)
Definition main (n : nat) (st : settings) (c : command) : prog nat :=
  pbind (run n st c) (fun r =>
  match r with
  | inl _ => Done 0
  | inr e => say LError t_smd (display_error e) (Done 1)
  end).

(** How a process ended, if it did.  A Rust panic exits with 101. *)
Definition status (p : proc nat) : option nat :=
  match code p with
  | Done n => Some n
  | Stop => Some 101
  | _ => None
  end.

(** ** main.rs:12-19 and logger.rs:87-89: the log filter *)

(** clap's [ArgAction::Count] on a [u8] (args.rs:61-69) stops at 255. *)
Definition verbose_of (flags : nat) : nat := Nat.min flags 255.

(** The value of RUST_LOG when the logger is set up. *)
Definition rust_log (verbose : nat) (var : option str) : str :=
  if verbose =? 1 then lit "debug"
  else if 1 <? verbose then lit "trace"
  else match var with None => lit "info" | Some v => v end.

(** The log levels as numbers, and the reading of one (crate log, [LevelFilter]'s
    [from_str]): in any case. *)
Definition level_number (l : level) : nat :=
  match l with LError => 1 | LWarn => 2 | LInfo => 3 | LDebug => 4 | LTrace => 5 end.
Definition filter_of (v : str) : option nat :=
  let v := to_lowercase v in
  if str_eqb v (lit "off") then Some 0
  else if str_eqb v (lit "error") then Some 1
  else if str_eqb v (lit "warn") then Some 2
  else if str_eqb v (lit "info") then Some 3
  else if str_eqb v (lit "debug") then Some 4
  else if str_eqb v (lit "trace") then Some 5
  else None.
