(** * Codec: storing objects, /repo/smd-core/src/fs.rs:17-26 and 84-119, the tests of smd-core that use files, the
    browser or the configuration, and the test of smd that uses the home directory.

    The traits [Serialize] and [Deserialize] (fs.rs:18-26) are the parameters [serialize] and [deserialize]; both are
    taken for functions, as in the only implementations (fs.rs:133-159, tests).

    Simplifications.  Relative paths of the tests are joined to the working directory.  [expect] and a failing
    [assert] panic ([Stop]).  What the tests log goes nowhere, no logger is installed. *)
From Coq Require Import Ascii String ZArith.
From Verif Require Import Strings StringsFacts Token Iter Lexer Parser Utf8 System Config Url Cli Release Args.
Open Scope list_scope.

Section Object.
Variable T : Type.
Variable serialize : T -> result str.      (* fs.rs:19 *)
Variable deserialize : str -> result T.    (* fs.rs:25 *)

(** fs.rs:85-100 [encode_to_string]. *)
Definition encode_to_string (v : T) : prog (result str) :=
  say LDebug t_fs (lit "Serializing object...")
  (match serialize v with
   | inl s => say LInfo t_fs (lit "Object serialized successfully.") (Done (inl s))
   | inr e => say LError t_fs (lit "Serialization failed: " ++ display_error e) (Done (inr e))
   end).

(** fs.rs:103-119 [decode_from_file]. *)
Definition decode_from_file (p : path) : prog (result T) :=
  say LDebug t_fs (lit "Decoding object from file: " ++ display p)
  (try (read_to_string p) (fun content =>
   match deserialize content with
   | inl v => say LInfo t_fs (lit "Deserialization successful.") (Done (inl v))
   | inr e => say LError t_fs (lit "Deserialization failed: " ++ display_error e) (Done (inr e))
   end)).

(** Storing an object with the functions of fs.rs. *)
Definition store (p : path) (v : T) : prog (result unit) :=
  try (encode_to_string v) (fun s => write_to_file p s).
End Object.

(** ** The objects of the tests *)

(** fs.rs:127-131 [MyStruct]. *)
Record my_struct := { ms_name : str; ms_value : Z }.

(** [format!("{}", x)] and [str::parse::<i32>]. *)
Definition show_int (z : Z) : str :=
  if Z.ltb z 0 then c_minus :: dec (Z.to_nat (- z)) else dec (Z.to_nat z).
Definition in_i32 (z : Z) : bool := Z.leb (-2147483648) z && Z.leb z 2147483647.
Definition digits_value (s : str) : option Z :=
  if negb (is_empty s) && forallb is_digit s
  then Some (fold_left (fun n c => 10 * n + (Z.of_N c - 48))%Z s 0%Z) else None.
Definition parse_int (s : str) : option Z :=
  let r := match s with
           | c :: s' => if ceq c c_minus then option_map Z.opp (digits_value s')
                        else if ceq c c_plus then digits_value s' else digits_value s
           | [] => None
           end in
  match r with Some z => if in_i32 z then Some z else None | None => None end.

(** fs.rs:133-142. *)
Definition my_serialize (v : my_struct) : result str :=
  if is_empty (ms_name v) then inr (SerializeError (lit "Name cannot be empty"))
  else inl (ms_name v ++ lit ":" ++ show_int (ms_value v)).

(** fs.rs:144-159. *)
Definition my_deserialize (s : str) : result my_struct :=
  match split [c_colon] s with
  | [name; value] =>
      match parse_int value with
      | Some z => inl {| ms_name := name; ms_value := z |}
      | None => inr (DeserializeError (lit "Value is not a valid integer"))
      end
  | _ => inr (DeserializeError (lit "Input string is not properly formatted"))
  end.

(** ** The tests

    A test passes if it ends without a panic. *)
Definition expect {A} (p : prog (result A)) (k : A -> prog unit) : prog unit :=
  pbind p (fun r => match r with inl a => k a | inr _ => Stop end).
Definition expect_io {A} (c : call (io A)) (k : A -> prog unit) : prog unit :=
  Do c (fun r => match r with inl a => k a | inr _ => Stop end).
Definition assert (b : bool) (k : prog unit) : prog unit := if b then k else Stop.

Section Tests.
(** The working directory: that of the crate, where cargo runs tests. *)
Variable dir : path.

Definition test42 : my_struct := {| ms_name := lit "Test"; ms_value := 42 |}.
Definition is_test42 (v : my_struct) : bool := str_eqb (ms_name v) (lit "Test") && Z.eqb (ms_value v) 42.

(** fs.rs:161-169 and 171-180. *)
Definition test_serialize : prog unit :=
  match my_serialize test42 with inl s => assert (str_eqb s (lit "Test:42")) (Done tt) | inr _ => Stop end.
Definition test_deserialize : prog unit :=
  match my_deserialize (lit "Test:42") with inl v => assert (is_test42 v) (Done tt) | inr _ => Stop end.

(** fs.rs:182-190. *)
Definition test_read_to_string : prog unit :=
  let p := dir ++ [lit "test_file.txt"] in
  expect (write_to_file p (lit "Test Content")) (fun _ =>
  expect (read_to_string p) (fun content =>
  assert (str_eqb content (lit "Test Content"))
  (expect_io (Remove p) (fun _ => Done tt)))).

(** fs.rs:192-200. *)
Definition test_encode_to_string : prog unit :=
  expect (encode_to_string my_struct my_serialize test42) (fun s => assert (str_eqb s (lit "Test:42")) (Done tt)).

(** fs.rs:202-218. *)
Definition test_decode_from_file : prog unit :=
  let p := dir ++ [lit "decode_test_file.txt"] in
  expect (write_to_file p (lit "Test:42")) (fun _ =>
  expect (decode_from_file my_struct my_deserialize p) (fun v =>
  assert (is_test42 v)
  (expect_io (Remove p) (fun _ => Done tt)))).

(** error.rs:55-73 [mock_function] and [throw_parse_error]; [kind() == NotFound] is the message of ENOENT. *)
Definition throw_parse_error : prog unit :=
  Do (Read (dir ++ [lit "path_that_does_not_exist"])) (fun r =>
  match r with inl _ => Stop | inr e => assert (str_eqb e enoent) (Done tt) end).

(** browser.rs:84-88, 90-101 and 103-121; [std::fs::write] writes until everything is written, in one go here. *)
Definition launch : prog (result unit) :=
  try_browser (lit "Failed to initialze headless_chrome session.") Launch (fun _ => Done (inl tt)).
Definition page_text : str := lit "<html><body>Test</body></html>".
Definition with_page (k : nat -> prog unit) : prog unit :=
  let p := dir ++ [lit "test.html"] in
  expect launch (fun _ =>
  expect_io (Create p) (fun h =>
  expect_io (Write h 0 (encode page_text)) (fun _ =>
  expect (open_file p) k))).
Definition test_initialize : prog unit := expect launch (fun _ => Done tt).
Definition test_open_file : prog unit := with_page (fun _ => Done tt).
Definition test_print_to_pdf : prog unit := with_page (fun t => expect_io (Print t) (fun _ => Done tt)).
End Tests.

(** config.rs:94-99, 101-112 and 134-143: the texts, and whether the tests pass. *)
Definition indent (n : nat) : str := repeat c_sp n.
Definition quoted (s : str) : str := [c_quot] ++ s ++ [c_quot].
Definition abort_toml : str :=
  [c_nl] ++ indent 12 ++ lit "[parse]" ++ [c_nl] ++ indent 12 ++ lit "on_parse_error = " ++ quoted (lit "abort") ++
  [c_nl] ++ indent 12 ++ lit "keep_temp_files = true" ++ [c_nl] ++ indent 8.
Definition invalid_toml : str :=
  [c_nl] ++ indent 12 ++ lit "[parse]" ++ [c_nl] ++ indent 12 ++ lit "on_parse_error = " ++ quoted (lit "invalid_value") ++
  [c_nl] ++ indent 8.
Definition is_abort (a : parse_error_action) : bool := match a with Abort => true | _ => false end.
Definition test_default_config : bool :=
  match on_parse_error default_config with SerializeIt => negb (keep_temp_files default_config) | _ => false end.
Definition test_parse_from_toml (toml : toml_reader) (env : list (str * str)) : bool :=
  match parse_from_str toml env abort_toml with
  | inl c => is_abort (on_parse_error c) && keep_temp_files c
  | inr _ => false
  end.
Definition test_invalid_toml (toml : toml_reader) (env : list (str * str)) : bool :=
  match parse_from_str toml env invalid_toml with inl _ => false | inr _ => true end.

(** args.rs:131-137; [home] is [dirs::home_dir()], that of [shellexpand] is the same.  Paths are equal if their
    components are. *)
Definition path_tilde_expansion (home : option path) (f : fs) (dir : path) : bool :=
  match home with
  | Some h => match parse_dir (Some (display h)) f dir (lit "~/") with Some q => path_eqb q h | None => false end
  | None => false
  end.
