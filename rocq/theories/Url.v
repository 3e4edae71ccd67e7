(** * Url: which file a browser opens for a url.

    Not code of /repo: the environment of browser.rs:35 (`format!("file://{}", ...)`) and 41 (`navigate_to`).
    After the URL standard (url.spec.whatwg.org, the basic URL parser for the scheme file) and the way Chrome makes a
    name of a file from a url.

    Simplifications.  The parser percent-encodes some characters of the path and the loader decodes them again: here a
    segment is only decoded.  Urls of other schemes and urls with a host name no file. *)
From Coq Require Import Ascii String.
From Verif Require Import Strings StringsFacts Utf8 System Args.
Open Scope list_scope.

Definition c_quest : char := 63%N.
Definition c_percent : char := 37%N.

(** Leading and trailing control characters and spaces are dropped, tabs and line breaks wherever they stand. *)
Definition is_control (c : char) : bool := N.leb c 32.
Fixpoint skip_control (s : str) : str :=
  match s with c :: s' => if is_control c then skip_control s' else s | [] => [] end.
Definition strip_control (s : str) : str := rev (skip_control (rev (skip_control s))).
Definition breaks : list char := [c_tab; c_nl; c_cr].
Definition without_breaks (s : str) : str := filter (fun c => negb (mem_char c breaks)) s.

(** The segments of the path; the path ends with a question mark or a hash; backslashes are slashes. *)
Definition separates (c : char) : bool := mem_char c [c_slash; c_bslash].
Definition ends_path (c : char) : bool := mem_char c [c_quest; c_hash].
Fixpoint segments (s : str) : list str :=
  match s with
  | [] => [[]]
  | c :: s' =>
      if ends_path c then [[]]
      else if separates c then [] :: segments s'
      else match segments s' with
           | seg :: segs => (c :: seg) :: segs
           | [] => [[c]]
           end
  end.

(** Segments of one and two dots, written as they are or encoded. *)
Definition one_of (xs : list str) (s : str) : bool := existsb (str_eqb (to_lowercase s)) xs.
Definition single_dot : str -> bool := one_of [lit "."; lit "%2e"].
Definition double_dot : str -> bool := one_of [lit ".."; lit ".%2e"; lit "%2e."; lit "%2e%2e"].
(** Letters of drives, and the one way to write them that is changed. *)
Definition is_letter (c : char) : bool := (N.leb 65 c && N.leb c 90) || (N.leb 97 c && N.leb c 122).
Definition is_drive (s : str) : bool :=
  match s with [c; x] => is_letter c && mem_char x [c_colon] | _ => false end.
Definition drive (s : str) : str :=
  match s with [c; x] => if is_letter c && ceq x c_pipe then [c; c_colon] else s | _ => s end.

(** The path without its dots; [acc] is what stands before, the last segment first. *)
Definition up (acc : list str) : list str :=
  match acc with
  | [] => []
  | [d] => if is_drive d then [d] else []
  | _ :: acc' => acc'
  end.
Fixpoint normal (acc segs : list str) : list str :=
  match segs with
  | [] => rev acc
  | seg :: segs' =>
      let there acc := match segs' with [] => [] :: acc | _ => acc end in
      if double_dot seg then normal (there (up acc)) segs'
      else if single_dot seg then normal (there acc) segs'
      else normal ((match acc with [] => drive seg | _ => seg end) :: acc) segs'
  end.

(** Percent-decoding of bytes. *)
Definition hex_value (c : N) : option N :=
  if N.leb 48 c && N.leb c 57 then Some (c - 48)%N
  else if N.leb 65 c && N.leb c 70 then Some (c - 55)%N
  else if N.leb 97 c && N.leb c 102 then Some (c - 87)%N
  else None.
Fixpoint percent_decode (bs : bytes) : bytes :=
  match bs with
  | c :: bs' =>
      match bs' with
      | h :: (l :: bs'') =>
          match (if ceq c c_percent then hex_value h else None), hex_value l with
          | Some x, Some y => (16 * x + y)%N :: percent_decode bs''
          | _, _ => c :: percent_decode bs'
          end
      | _ => c :: percent_decode bs'
      end
  | [] => []
  end.

(** The name of a file or directory that a segment stands for.  No name contains a slash or a zero; a name that is not
    UTF-8 does not occur in System.v. *)
Definition segment_name (seg : str) : option str :=
  match decode (percent_decode (encode seg)) with
  | Some n => if existsb (fun c => mem_char c [c_slash; 0%N]) n then None else Some n
  | None => None
  end.
Fixpoint all_names (segs : list str) : option path :=
  match segs with
  | [] => Some []
  | seg :: segs' =>
      match segment_name seg, all_names segs' with
      | Some n, Some p => Some (n :: p)
      | _, _ => None
      end
  end.

(** The file that a url names; empty segments name nothing. *)
Definition url_path (u : str) : option path :=
  match strip_prefix (lit "file://") (without_breaks (strip_control u)) with
  | Some (c :: s) =>
      if separates c then all_names (filter (fun x => negb (is_empty x)) (normal [] (segments s))) else None
  | _ => None
  end.
