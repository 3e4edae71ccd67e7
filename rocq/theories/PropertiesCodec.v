(** * PropertiesCodec: objects in files (C123) and the tests of the crates smd-core and smd (C124).

    [T], [serialize] and [deserialize] are any type with implementations of the traits of fs.rs:18-26.  [round p v]
    is: store [v] in [p] with [encode_to_string] and [write_to_file], then [decode_from_file p]. *)
From Coq Require Import Ascii String ZArith.
From Verif Require Import Strings StringsFacts Token Iter Lexer Parser Utf8 System Config Url Cli
  SpecCli SystemFacts CliFacts CliMain ConfigFacts Release CliProps Args ArgsFacts Codec CodecFacts.
Open Scope list_scope.

(** C123: nothing else is decoded from what was stored, whatever fails in between, unless a write is short *)
Theorem C123_decoded_partial : forall T (serialize : T -> result str) (deserialize : str -> result T) m f p v xs f' p' w,
  (forall s, serialize v = inl s -> valid s /\ deserialize s = inl v) ->
  new_process m f -> Forall no_short xs ->
  exec xs f (start m (round T serialize deserialize p v)) = (f', p') -> code p' = Done (inl w) -> w = v.
Proof. exact round_decoded. Qed.
Print Assumptions C123_decoded_partial.

(** C123: what cannot be serialized is refused with that error, which is logged, and no file is touched *)
Theorem C123_refused : forall T (serialize : T -> result str) m f p v e xs f' p', serialize v = inr e ->
  exec xs f (start m (store T serialize p v)) = (f', p') ->
  f' = f /\ forall r, code p' = Done r -> r = inr e /\
    logged (here p') =
      [{| rec_level := LDebug; rec_target := lit "smd_core::fs"; rec_text := lit "Serializing object..." |};
       {| rec_level := LError; rec_target := lit "smd_core::fs"; rec_text := lit "Serialization failed: " ++ display_error e |}].
Proof. exact store_refused. Qed.
Print Assumptions C123_refused.

(** C123: in every place where a file can be made, storing and decoding can succeed; with a short write as well, and then
    what is decoded is made of the first bytes, and nobody is told *)
Theorem C123_short_refuted : forall T (serialize : T -> result str) (deserialize : str -> result T) m f p v s x,
  serialize v = inl s -> new_process m f -> creatable f p -> x = Ok \/ (exists k, x = Short k) ->
  let stored := match x with Short k => firstn k (encode s) | _ => encode s end in
  exists xs f' p', Forall (fun y => y = Ok \/ y = x) xs /\
    exec xs f (start m (round T serialize deserialize p v)) = (f', p') /\
    contents f' p = Some stored /\
    code p' = Done (match decode stored with Some t => deserialize t | None => inr (IoError (lit "stream did not contain valid UTF-8")) end).
Proof. exact runs_round. Qed.
Print Assumptions C123_short_refuted.

(** C123: the objects of the tests are deserialized again exactly if there is no colon in the name *)
Theorem C123_struct_partial : forall v, (-2147483648 <= ms_value v <= 2147483647)%Z ->
  ((exists s, my_serialize v = inl s /\ my_deserialize s = inl v) <-> ms_name v <> [] /\ ~ In c_colon (ms_name v)).
Proof. exact my_range. Qed.
Print Assumptions C123_struct_partial.

(** C123: nothing outside of the numbers of 32 bits is deserialized *)
Theorem C123_within : forall s v, my_deserialize s = inl v -> (-2147483648 <= ms_value v <= 2147483647)%Z.
Proof. exact my_within. Qed.
Print Assumptions C123_within.

(** C123 as stated is false for these: with a colon they are stored and cannot be decoded *)
Theorem C123_colon_refuted : forall v, In c_colon (ms_name v) ->
  exists s, my_serialize v = inl s /\
    my_deserialize s = inr (DeserializeError (lit "Input string is not properly formatted")).
Proof. exact my_stored. Qed.
Print Assumptions C123_colon_refuted.

(** 42 becomes 4 with a write of six bytes. *)
Example C123_case :
  let m := sample_machine 1 in
  let f := sample_disk [] [] in
  let p := [lit "w"; lit "x"] in
  let run xs := code (snd (exec xs f (start m (round my_struct my_serialize my_deserialize p test42)))) in
  new_process m f /\ creatable f p /\
  my_serialize test42 = inl (lit "Test:42") /\ my_deserialize (lit "Test:42") = inl test42 /\
  run (oks 11) = Done (inl test42) /\
  run (oks 4 ++ [Short 6] ++ oks 6) = Done (inl {| ms_name := lit "Test"; ms_value := 4 |}) /\
  my_serialize {| ms_name := []; ms_value := 1 |} = inr (SerializeError (lit "Name cannot be empty")) /\
  my_serialize {| ms_name := lit "a:b"; ms_value := -7 |} = inl (lit "a:b:-7").
Proof.
  split; [apply disk_new; reflexivity|]. split; [|vm_compute; auto 10].
  exists [lit "w"; lit "x"]. split; [reflexivity|]. right. split; reflexivity.
Qed.

(** C124: the tests of fs.rs that write files pass in a directory without these files if nothing fails, and leave
    everything as it was; the others need no file *)
Theorem C124_files_partial : forall m f name t,
  In (name, t) [(lit "test_file.txt", test_read_to_string (cwd m)); (lit "decode_test_file.txt", test_decode_from_file (cwd m))] ->
  new_process m f -> names f (cwd m) = Some NDir -> names f (cwd m ++ [name]) = None ->
  exists xs f' p', Forall (eq Ok) xs /\ exec xs f (start m t) = (f', p') /\ code p' = Done tt /\
    (forall q, names f' q = names f q /\ contents f' q = contents f q) /\
    (test_serialize = Done tt /\ test_deserialize = Done tt).
Proof. exact files_pass. Qed.
Print Assumptions C124_files_partial.

(** C124 as stated is false: a file of this name that was there before is gone whenever the test passes *)
Theorem C124_lost_refuted : forall m f xs f' p' name t,
  In (name, t) [(lit "test_file.txt", test_read_to_string (cwd m)); (lit "decode_test_file.txt", test_decode_from_file (cwd m))] ->
  exec xs f (start m t) = (f', p') -> code p' = Done tt -> names f' (cwd m ++ [name]) = None.
Proof. exact cleaned_lost. Qed.
Print Assumptions C124_lost_refuted.

(** C124: the tests of the browser leave a page in the directory of the crate whenever they pass *)
Theorem C124_page_refuted : forall m f xs f' p' t, In t [test_open_file (cwd m); test_print_to_pdf (cwd m)] ->
  new_process m f -> Forall no_short xs ->
  exec xs f (start m t) = (f', p') -> code p' = Done tt ->
  contents f' (cwd m ++ [lit "test.html"]) = Some (encode (lit "<html><body>Test</body></html>")).
Proof. exact page_left. Qed.
Print Assumptions C124_page_refuted.

(** C124: the test of the error passes exactly if there is no such file, or the system says so *)
Theorem C124_absent : forall m f x, exists p', exec [x] f (start m (throw_parse_error (cwd m))) = (f, p') /\
  (code p' = Done tt <->
   match x with
   | Fail e => e = lit "No such file or directory"
   | _ => contents f (cwd m ++ [lit "path_that_does_not_exist"]) = None
   end).
Proof. exact absent_exact. Qed.
Print Assumptions C124_absent.

(** C124: the tests of the configuration pass in an environment that sets nothing *)
Theorem C124_config_partial : forall toml env v,
  toml abort_toml = inl [(lit "parse.on_parse_error", VString (lit "abort")); (lit "parse.keep_temp_files", VBool true)] ->
  toml invalid_toml = inl [(lit "parse.on_parse_error", v)] ->
  (forall name w, In (name, w) env -> ~ sets name (lit "parse.on_parse_error") /\ ~ sets name (lit "parse.keep_temp_files")) ->
  test_default_config = true /\ test_parse_from_toml toml env = true /\ test_invalid_toml toml env = true.
Proof. exact config_pass. Qed.
Print Assumptions C124_config_partial.

(** C124 as stated is false: a variable of the environment makes the second one fail, whatever is in the text *)
Theorem C124_environment_refuted : forall toml env name,
  In (name, lit "false") env -> sets name (lit "parse.keep_temp_files") ->
  (forall name' v, In (name', v) env -> sets name' (lit "parse.keep_temp_files") -> v = lit "false") ->
  test_parse_from_toml toml env = false.
Proof. exact abort_fails. Qed.
Print Assumptions C124_environment_refuted.

(** C124: the test of the tilde passes exactly if the home directory is a directory and not a link to one *)
Theorem C124_home_partial : forall f dir h, tidy f -> h <> [] -> Forall proper h ->
  (path_tilde_expansion (Some h) f dir = true <-> names f h = Some NDir).
Proof. exact home_exact. Qed.
Print Assumptions C124_home_partial.

Example C124_home_case :
  let f := disk [([], NDir); ([lit "home"], NDir); ([lit "home"; lit "a"], NDir); ([lit "home"; lit "b"], NLink [lit "home"; lit "a"])] [] in
  path_tilde_expansion (Some [lit "home"; lit "a"]) f [] = true /\
  path_tilde_expansion (Some [lit "home"; lit "b"]) f [] = false /\
  parse_dir (Some (lit "/home/b")) f [] (lit "~/") = Some [lit "home"; lit "a"].
Proof. vm_compute. auto. Qed.

(** The third one refuses its text for a setting that is missing: it also passes if the value in it is valid
    ([v] above is any value). *)
Example C124_config_case :
  small_toml abort_toml = inl [(lit "parse.on_parse_error", VString (lit "abort")); (lit "parse.keep_temp_files", VBool true)] /\
  small_toml invalid_toml = inl [(lit "parse.on_parse_error", VString (lit "invalid_value"))] /\
  test_invalid_toml (fun _ => inl [(lit "parse.on_parse_error", VString (lit "skip"))]) [] = true /\
  sets (lit "SMD__PARSE__KEEP_TEMP_FILES") (lit "parse.keep_temp_files") /\
  test_parse_from_toml small_toml [(lit "SMD__PARSE__KEEP_TEMP_FILES", lit "false")] = false.
Proof. do 3 (split; [vm_compute; reflexivity|]). split; [eexists; split; vm_compute; reflexivity|vm_compute; reflexivity]. Qed.

(** In /w of the examples: the test passes; the one of the browser leaves its page. *)
Example C124_case :
  let m := sample_machine 1 in
  let f := sample_disk [] [] in
  new_process m f /\ names f (cwd m) = Some NDir /\ names f (cwd m ++ [lit "test_file.txt"]) = None /\
  code (snd (exec (oks 8) f (start m (test_read_to_string (cwd m))))) = Done tt /\
  code (snd (exec (oks 8) f (start m (test_open_file (cwd m))))) = Done tt /\
  contents f (cwd m ++ [lit "test.html"]) = None /\
  contents (fst (exec (oks 8) f (start m (test_open_file (cwd m))))) (cwd m ++ [lit "test.html"]) =
    Some (lit "<html><body>Test</body></html>").
Proof. split; [apply disk_new; reflexivity|]. vm_compute. auto 10. Qed.
