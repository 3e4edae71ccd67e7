(** * SpecJson: texts in JSON, RFC 8259, and what npm makes of a package.json

    The reader accepts more than the RFC in one place: a number or a name without quotes (true, false, null) is any
    sequence of other chars.  Escapes by number are not read. *)
From Coq Require Import Ascii String.
From Verif Require Import Strings.
Open Scope list_scope.

Inductive json := Text (s : str) | List (l : list json) | Object (l : list (str * json)) | Unquoted.

(** Section 2 and 7: the tokens. *)
Inductive token := Quoted (s : str) | Sign (c : char) | Other.
Definition signs : str := lit "{}[],:".
Definition blank (c : char) : bool := mem_char c [c_sp; c_tab; c_nl; c_cr].
Definition escaped (c : char) : option char :=
  if mem_char c [c_quot; c_bslash; 47%N] then Some c
  else if ceq c 98%N then Some 8%N else if ceq c 102%N then Some 12%N
  else if ceq c 110%N then Some c_nl else if ceq c 114%N then Some c_cr
  else if ceq c 116%N then Some c_tab else None.

Inductive place := Outside | Inside (r : str) | Escape (r : str).
Definition give (t : token) (o : option (list token)) : option (list token) :=
  match o with Some ts => Some (t :: ts) | None => None end.
Fixpoint tokens (p : place) (s : str) : option (list token) :=
  match s with
  | [] => match p with Outside => Some [] | _ => None end
  | c :: s' =>
      match p with
      | Outside =>
          if blank c then tokens Outside s'
          else if ceq c c_quot then tokens (Inside []) s'
          else give (if mem_char c signs then Sign c else Other) (tokens Outside s')
      | Inside r =>
          if ceq c c_quot then give (Quoted (rev r)) (tokens Outside s')
          else if ceq c c_bslash then tokens (Escape r) s'
          else if N.ltb c 32 then None
          else tokens (Inside (c :: r)) s'
      | Escape r => match escaped c with Some d => tokens (Inside (d :: r)) s' | None => None end
      end
  end.

(** Sections 3 to 5: values, with a bound for the number of steps. *)
Definition is_sign (c : char) (ts : list token) : option (list token) :=
  match ts with Sign d :: ts' => if ceq c d then Some ts' else None | _ => None end.
Fixpoint others (ts : list token) : list token := match ts with Other :: ts' => others ts' | _ => ts end.

Fixpoint a_value (n : nat) (ts : list token) : option (json * list token) :=
  match n with
  | 0 => None
  | S n' =>
      match ts with
      | Quoted s :: ts' => Some (Text s, ts')
      | Other :: ts' => Some (Unquoted, others ts')
      | Sign c :: ts' =>
          if ceq c c_lbrk then
            match is_sign c_rbrk ts' with
            | Some r => Some (List [], r)
            | None => match elements n' ts' with Some (l, r) => Some (List l, r) | None => None end
            end
          else if ceq c c_lbrace then
            match is_sign c_rbrace ts' with
            | Some r => Some (Object [], r)
            | None => match members n' ts' with Some (l, r) => Some (Object l, r) | None => None end
            end
          else None
      | [] => None
      end
  end
with elements (n : nat) (ts : list token) : option (list json * list token) :=
  match n with
  | 0 => None
  | S n' =>
      match a_value n' ts with
      | Some (v, r) =>
          match is_sign c_rbrk r with
          | Some r' => Some ([v], r')
          | None => match is_sign 44%N r with
                    | Some r' => match elements n' r' with Some (l, r'') => Some (v :: l, r'') | None => None end
                    | None => None
                    end
          end
      | None => None
      end
  end
with members (n : nat) (ts : list token) : option (list (str * json) * list token) :=
  match n with
  | 0 => None
  | S n' =>
      match ts with
      | Quoted k :: ts' =>
          match is_sign c_colon ts' with
          | Some r0 =>
              match a_value n' r0 with
              | Some (v, r) =>
                  match is_sign c_rbrace r with
                  | Some r' => Some ([(k, v)], r')
                  | None => match is_sign 44%N r with
                            | Some r' => match members n' r' with Some (l, r'') => Some ((k, v) :: l, r'') | None => None end
                            | None => None
                            end
                  end
              | None => None
              end
          | None => None
          end
      | _ => None
      end
  end.

Definition read_json (s : str) : option json :=
  match tokens Outside s with
  | Some ts => match a_value (2 * length ts) ts with Some (v, []) => Some v | _ => None end
  | None => None
  end.

(** What a name stands for in an object, if it stands there once. *)
Definition has (o : json) (k : string) (v : json) : Prop :=
  match o with Object l => map snd (filter (fun p => str_eqb (fst p) (lit k)) l) = [v] | _ => False end.

(** The packages that there are to be, with the values that node gives to [process.platform] and [process.arch] on the
    systems they are for. *)
Definition platforms : list (str * str * str) := map (fun p => (lit (fst (fst p)), lit (snd (fst p)), lit (snd p)))
  [ ("linux", "x64", "smd-linux-x64"); ("linux", "arm64", "smd-linux-arm64");
    ("darwin", "x64", "smd-darwin-x64"); ("darwin", "arm64", "smd-darwin-arm64");
    ("win32", "x64", "smd-windows-x64"); ("win32", "arm64", "smd-windows-arm64") ]%string.

(** A system: the two values of node, and the C library it has. *)
Inductive library := Glibc | Musl | Native.
Record system := System { platform : str; arch : str; libc : library }.

(** On which systems the programs run that rustc makes for a target (doc.rust-lang.org, platform support).  Programs for
    musl are linked statically and need no library. *)
Definition target_systems (t : string) : list (string * string * library) :=
  match t with
  | "x86_64-unknown-linux-gnu" => [("linux", "x64", Glibc)]
  | "x86_64-unknown-linux-musl" => [("linux", "x64", Glibc); ("linux", "x64", Musl)]
  | "i686-unknown-linux-gnu" => [("linux", "ia32", Glibc)]
  | "i686-unknown-linux-musl" => [("linux", "ia32", Glibc); ("linux", "ia32", Musl)]
  | "aarch64-unknown-linux-gnu" => [("linux", "arm64", Glibc)]
  | "aarch64-unknown-linux-musl" => [("linux", "arm64", Glibc); ("linux", "arm64", Musl)]
  | "x86_64-pc-windows-gnu" | "x86_64-pc-windows-msvc" => [("win32", "x64", Native)]
  | "i686-pc-windows-msvc" => [("win32", "ia32", Native)]
  | "aarch64-pc-windows-msvc" => [("win32", "arm64", Native)]
  | "x86_64-apple-darwin" => [("darwin", "x64", Native)]
  | "aarch64-apple-darwin" => [("darwin", "arm64", Native)]
  | _ => []
  end%string.
Definition runs_on (t : string) (m : system) : Prop :=
  In (platform m, arch m, libc m) (map (fun p => (lit (fst (fst p)), lit (snd (fst p)), snd p)) (target_systems t)).
(** Linux has one of the two libraries, the other systems neither. *)
Definition real (m : system) : Prop := libc m = Native <-> platform m <> lit "linux".

(** A package.json of the package [n] in the version [v] for one platform. *)
Definition describes (s n v p a : str) : Prop := exists o,
  read_json s = Some o /\ has o "name" (Text n) /\ has o "version" (Text v) /\
  has o "os" (List [Text p]) /\ has o "cpu" (List [Text a]).

(** npm installs an optional dependency where [os] and [cpu] list the system.  (Entries that begin with an
    exclamation mark exclude one, and [libc] can name the C library; there is neither here.) *)
Definition installs (s : str) (m : system) : Prop := exists o ps cs,
  read_json s = Some o /\ has o "os" (List ps) /\ has o "cpu" (List cs) /\
  In (Text (platform m)) ps /\ In (Text (arch m)) cs.

(** The versions of semver.org: digits, letters, dots, hyphens and plus signs; and all the others that a script and a
    text in JSON can hold as they are. *)
Definition storable (v : str) : Prop :=
  forall c, In c v -> (32 <= c)%N /\ ~ In c [c_quot; c_bslash; 36%N; c_tick].
