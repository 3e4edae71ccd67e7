(** * Config: /repo/smd-core/src/config.rs:12-60, what a configuration is and how
    it is put together.

    The crates [toml] and [config] are not in /repo.  Reading a TOML document is
    a parameter ([toml]); merging sources follows the documentation of [config]
    0.14: sources are added in order, a later one overrides an earlier one;
    [Environment::with_prefix("SMD").separator("__")] takes the variables whose
    name, in any case, begins with SMD__ and turns the remaining __ into dots;
    [try_deserialize] fails for a field without value (no field has a serde
    default) and for a value of the wrong kind. *)
From Coq Require Import Ascii String.
From Verif Require Import Strings StringsFacts.
Open Scope list_scope.

(** config.rs:31-40 [ParseErrorAction]. *)
Inductive parse_error_action := Abort | Skip | SerializeIt.

(** config.rs:14-26 [Config], [ParseConfig]. *)
Record config := { on_parse_error : parse_error_action; keep_temp_files : bool }.

(** [Config::default()]: config.rs:13, 19, 38 (#[default]). *)
Definition default_config : config :=
  {| on_parse_error := SerializeIt; keep_temp_files := false |}.

(** Values of settings. *)
Inductive value := VBool (b : bool) | VString (s : str) | VOther.

(** Settings by dotted name, in the order they are given. *)
Definition table := list (str * value).

Definition key_action : str := lit "parse.on_parse_error".
Definition key_keep : str := lit "parse.keep_temp_files".

(** The setting an environment variable gives, config.rs:49. *)
Definition env_key (name : str) : option str :=
  match strip_prefix (lit "smd__") (to_lowercase name) with
  | Some rest => Some (replace (lit "__") (lit ".") rest)
  | None => None
  end.

Definition env_table (e : list (str * str)) : table :=
  flat_map (fun v => match env_key (fst v) with
                     | Some k => [(k, VString (snd v))]
                     | None => []
                     end) e.

(** The last value given for a key. *)
Fixpoint lookup (k : str) (t : table) : option value :=
  match t with
  | [] => None
  | (k', v) :: t' =>
      match lookup k t' with
      | Some w => Some w
      | None => if str_eqb k' k then Some v else None
      end
  end.

(** [try_deserialize] on the two kinds of fields. *)
Definition to_action (v : value) : option parse_error_action :=
  match v with
  | VString s =>
      if str_eqb s (lit "abort") then Some Abort
      else if str_eqb s (lit "skip") then Some Skip
      else if str_eqb s (lit "serialize") then Some SerializeIt
      else None
  | _ => None
  end.
Definition to_bool (v : value) : option bool :=
  match v with
  | VBool b => Some b
  | VString s =>
      let l := to_lowercase s in
      if existsb (str_eqb l) [lit "1"; lit "true"; lit "on"; lit "yes"] then Some true
      else if existsb (str_eqb l) [lit "0"; lit "false"; lit "off"; lit "no"] then Some false
      else None
  | VOther => None
  end.

(** Reading TOML: the settings or what is wrong. *)
Definition toml_reader := str -> table + str.

Definition missing (k : str) : str := lit "missing field `" ++ k ++ lit "`".
Definition wrong (k : str) : str := lit "invalid value for `" ++ k ++ lit "`".

Definition field {A} (f : value -> option A) (k : str) (t : table) : A + str :=
  match lookup k t with
  | Some v => match f v with Some a => inl a | None => inr (wrong k) end
  | None => inr (missing k)
  end.

(** config.rs:43-52 [parse_from_str]: the file first, the environment over it. *)
Definition parse_from_str (toml : toml_reader) (env : list (str * str)) (content : str)
  : config + str :=
  match toml content with
  | inr e => inr e
  | inl t =>
      let all := t ++ env_table env in
      match field to_action key_action all with
      | inr e => inr e
      | inl a =>
          match field to_bool key_keep all with
          | inr e => inr e
          | inl b => inl {| on_parse_error := a; keep_temp_files := b |}
          end
      end
  end.

(** config.rs:67-72: what [initialize] writes; the part behind the comment is
    what [toml::to_string_pretty] makes of the default configuration. *)
Definition c_quote : str := [c_quot].
Definition default_toml : str :=
  lit "# Documentation for the config is available at" ++ [c_nl] ++
  lit "# <https://docs.rs/smd_core/1.0.0/smd_core/config/struct.Config.html>" ++ [c_nl; c_nl] ++
  lit "[parse]" ++ [c_nl] ++
  lit "on_parse_error = " ++ c_quote ++ lit "serialize" ++ c_quote ++ [c_nl] ++
  lit "keep_temp_files = false" ++ [c_nl].

(** The settings this text means. *)
Definition default_table : table :=
  [(key_action, VString (lit "serialize")); (key_keep, VBool false)].

(** A reader of a small part of TOML, enough for [default_toml]: comments, one
    level of tables, strings without escapes and booleans.  It shows that the
    assumption [toml default_toml = inl default_table] can be met. *)
Definition toml_value (s : str) : option value :=
  if str_eqb s (lit "true") then Some (VBool true)
  else if str_eqb s (lit "false") then Some (VBool false)
  else match strip_prefix c_quote s with
       | Some r => match strip_suffix c_quote r with
                   | Some t => if contains_char c_quot t then None else Some (VString t)
                   | None => None
                   end
       | None => None
       end.
Fixpoint toml_lines (section : str) (ls : list str) : table + str :=
  match ls with
  | [] => inl []
  | l :: ls' =>
      let l := trim l in
      match l with
      | [] => toml_lines section ls'
      | c :: r =>
          if ceq c c_hash then toml_lines section ls'
          else if ceq c c_lbrk then
            match strip_suffix [c_rbrk] r with
            | Some name => toml_lines (name ++ [c_dot]) ls'
            | None => inr (lit "expected ]")
            end
          else match split_once 61%N l with
               | Some (k, v) =>
                   match toml_value (trim v), toml_lines section ls' with
                   | Some w, inl t => inl ((section ++ trim k, w) :: t)
                   | None, _ => inr (lit "bad value")
                   | _, inr e => inr e
                   end
               | None => inr (lit "expected =")
               end
      end
  end.
Definition small_toml : toml_reader := fun s => toml_lines [] (split [c_nl] s).

Example small_toml_default : small_toml default_toml = inl default_table.
Proof. vm_compute. reflexivity. Qed.
