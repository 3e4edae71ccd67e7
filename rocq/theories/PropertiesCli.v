(** * PropertiesCli: the command line program (C40-C51).

    A run is [exec xs f (start m (main n st c))]: a file system [f], a machine
    [m], settings [st] and one choice of the outside world per system call; runs
    that end early are crashes.  [n] is the fuel of the renderer. *)
From Coq Require Import Ascii String Permutation.
From Verif Require Import Strings StringsFacts Token Iter Lexer Parser Utf8 System Config Cli
  SpecCli SystemFacts CliFacts CliMain CliRuns ConfigFacts Concurrent UrlFacts CliProps DetailsFacts.
Open Scope list_scope.

(** The world of the examples: /w/a.md and /w/b.md, no configuration. *)
Definition world : fs := sample_disk [] [].
Definition a_md : path := [lit "w"; lit "a.md"].
Definition a_html : path := [lit "w"; lit "a.html"].
Definition a_pdf : path := [lit "w"; lit "a.pdf"].
Definition tmp_html : path := [lit "w"; lit "tmp.html"].
Definition run_of (xs : list choice) (f : fs) (c : command) : fs * proc nat :=
  exec xs f (start (sample_machine 1) (main 100 sample_settings c)).

Example world_new : new_process (sample_machine 1) world.
Proof. apply disk_new. reflexivity. Qed.
Example world_case :
  present world (config_path sample_settings) = false /\ contents world a_md = Some (lit "# A") /\
  decode (lit "# A") = Some (lit "# A") /\ renders (lit "# A") (lit "<h1>A</h1>" ++ [10%N]) /\
  replaced (lit "html") a_md a_html /\ replaced (lit "pdf") a_md a_pdf /\
  creatable world a_html /\ creatable world tmp_html.
Proof.
  do 3 (split; [vm_compute; reflexivity|]). split; [exists 100; exact race_a|].
  split; [apply (replaced_ext (lit "html") [lit "w"] (lit "a") (lit "md")); vm_compute; intuition discriminate|].
  split; [apply (replaced_ext (lit "pdf") [lit "w"] (lit "a") (lit "md")); vm_compute; intuition discriminate|].
  split; (eexists; split; [vm_compute; reflexivity|right; split; vm_compute; reflexivity]).
Qed.
Example world_dir : web_dir (cwd (sample_machine 1)) /\ web_dir [lit "x"].
Proof. split; apply web_dir_iff; vm_compute; reflexivity. Qed.
Example world_apart : (forall t, names world tmp_html <> Some (NLink t)) /\
  ~ aliases world tmp_html a_pdf /\ ~ aliases world a_pdf a_md /\ ~ aliases world tmp_html a_md /\
  ~ aliases world a_html a_md /\ names world tmp_html = None.
Proof.
  split; [vm_compute; discriminate|].
  do 4 (split; [apply (sample_no_alias _ _ _ _ _) with (2 := eq_refl) (3 := eq_refl);
                  [vm_compute; discriminate|vm_compute; congruence]|]).
  vm_compute. reflexivity.
Qed.

(** C40, C41: if the conversion to HTML exits with 0 and no write was short, the
    output holds the rendering of what the input held, and nothing else changed *)
Theorem C40_C41_written_partial : forall n st m f xs input f' p',
  new_process m f -> Forall no_short xs ->
  exec xs f (start m (main n st (CParse input Html))) = (f', p') -> status p' = Some 0 ->
  exists b s html out,
    contents f input = Some b /\ decode b = Some s /\ renders s html /\
    replaced (lit "html") input out /\
    contents f' out = Some (encode html) /\ only_changes f out f'.
Proof. exact html_written. Qed.
Print Assumptions C40_C41_written_partial.

Example C40_case : status (snd (run_of (oks 9) world (CParse a_md Html))) = Some 0 /\
  contents (fst (run_of (oks 9) world (CParse a_md Html))) a_html = Some (lit "<h1>A</h1>" ++ [10%N]).
Proof. vm_compute. auto. Qed.


(** C40, C41 as stated are false: whenever a conversion is possible at all, a write(2)
    of the first [k] bytes gives a run that exits with 0 and leaves just these *)
Theorem C40_C41_short_refuted : forall st m f input out b s html k,
  new_process m f -> present f (config_path st) = false ->
  contents f input = Some b -> decode b = Some s -> renders s html ->
  replaced (lit "html") input out -> creatable f out ->
  exists n xs f' p', exec xs f (start m (main n st (CParse input Html))) = (f', p') /\
    status p' = Some 0 /\ contents f' out = Some (firstn k (encode html)).
Proof. exact html_short. Qed.
Print Assumptions C40_C41_short_refuted.

(** C41 for PDF: without short writes, and if the names of the working directory mean
    themselves in a url (C116) and the temporary file is no link and not the output, the output is the PDF of the rendering *)
Theorem C41_C116_pdf_partial : forall n st m f xs input out f' p',
  new_process m f -> Forall no_short xs -> web_dir (cwd m) -> replaced (lit "pdf") input out ->
  (forall t, names f (cwd m ++ [lit "tmp.html"]) <> Some (NLink t)) ->
  ~ aliases f (cwd m ++ [lit "tmp.html"]) out ->
  exec xs f (start m (main n st (CParse input Pdf))) = (f', p') -> status p' = Some 0 ->
  exists b s html, contents f input = Some b /\ decode b = Some s /\ renders s html /\
    contents f' out = Some (pdf_of m (encode html)).
Proof. exact pdf_whole. Qed.
Print Assumptions C41_C116_pdf_partial.

Example C41_case : status (snd (run_of (oks 21) world (CParse a_md Pdf))) = Some 0 /\
  contents (fst (run_of (oks 21) world (CParse a_md Pdf))) a_pdf = Some (lit "%PDF<h1>A</h1>" ++ [10%N]).
Proof. vm_compute. auto. Qed.


(** C42 as stated is false: whenever a conversion is possible, the process can die
    with an empty output, no system call having failed *)
Theorem C42_crash_refuted : forall st m f input out b s html,
  new_process m f -> present f (config_path st) = false ->
  contents f input = Some b -> decode b = Some s -> renders s html ->
  replaced (lit "html") input out -> creatable f out ->
  exists n xs f' p', exec xs f (start m (main n st (CParse input Html))) = (f', p') /\
    Forall (eq Ok) xs /\ status p' = None /\ contents f' out = Some [].
Proof. exact html_dies. Qed.
Print Assumptions C42_crash_refuted.

(** C42, what holds: at every point of every run the output is what it was or
    a beginning of the rendering, and no other file differs *)
Theorem C42_html_partial : forall n st m f xs input f' p',
  new_process m f -> exec xs f (start m (main n st (CParse input Html))) = (f', p') ->
  exists out, replaced (lit "html") input out /\ only_changes f out f' /\
    (contents f' out = contents f out \/
     exists b s html w rest, contents f input = Some b /\ decode b = Some s /\ renders s html /\
       contents f' out = Some w /\ encode html = w ++ rest).
Proof. exact html_crash. Qed.
Print Assumptions C42_html_partial.

(** C42 for PDF, what holds without short writes, in directories whose names mean themselves in a url *)
Theorem C42_pdf_partial : forall n st m f xs input out f' p',
  new_process m f -> Forall no_short xs -> web_dir (cwd m) -> replaced (lit "pdf") input out ->
  (forall t, names f (cwd m ++ [lit "tmp.html"]) <> Some (NLink t)) ->
  ~ aliases f (cwd m ++ [lit "tmp.html"]) out -> exec xs f (start m (main n st (CParse input Pdf))) = (f', p') ->
  contents f' out = contents f out \/
  exists b s html v rest, contents f input = Some b /\ decode b = Some s /\ renders s html /\
    contents f' out = Some v /\ pdf_of m (encode html) = v ++ rest.
Proof. exact pdf_dies. Qed.
Print Assumptions C42_pdf_partial.

Example C42_case :
  let f := sample_disk [(a_html, NFile (0, 3))] [((0, 3), lit "before")] in
  contents (fst (run_of (oks 7) f (CParse a_md Html))) a_html = Some [] /\
  contents (fst (run_of (oks 6) f (CParse a_md Html))) a_html = Some (lit "before").
Proof. vm_compute. auto. Qed.


(** C43 as stated is false: the input is overwritten if it is called .html *)
Theorem C43_html_refuted : exists n st m f xs input f' p',
  new_process m f /\ exec xs f (start m (main n st (CParse input Html))) = (f', p') /\
  status p' = Some 0 /\ contents f' input <> contents f input.
Proof. exact input_overwritten. Qed.
Print Assumptions C43_html_refuted.

(** C43 for PDF is false: every successful conversion of tmp.html in the working
    directory deletes it *)
Theorem C43_tmp_refuted : forall n st m f xs f' p',
  new_process m f -> Forall no_short xs ->
  let input := cwd m ++ [lit "tmp.html"] in
  (forall t, names f input <> Some (NLink t)) ->
  ~ aliases f input (cwd m ++ [lit "tmp.pdf"]) ->
  exec xs f (start m (main n st (CParse input Pdf))) = (f', p') -> status p' = Some 0 ->
  contents f input <> None /\ names f' input = None.
Proof. exact tmp_input_removed. Qed.
Print Assumptions C43_tmp_refuted.

Example C43_tmp_case :
  let f := sample_disk [(tmp_html, NFile (0, 3))] [((0, 3), lit "# T")] in
  let r := run_of (oks 21) f (CParse tmp_html Pdf) in
  status (snd r) = Some 0 /\ contents f tmp_html = Some (lit "# T") /\ contents (fst r) tmp_html = None.
Proof. vm_compute. auto. Qed.


(** C43, what holds: in every run the input stays as it was unless it is the output *)
Theorem C43_html_partial : forall n st m f xs input out f' p',
  new_process m f -> replaced (lit "html") input out -> ~ aliases f out input ->
  exec xs f (start m (main n st (CParse input Html))) = (f', p') -> contents f' input = contents f input.
Proof. exact html_keeps. Qed.
Print Assumptions C43_html_partial.

(** C43 for PDF: the same if it is neither the output nor the temporary file *)
Theorem C43_pdf_partial : forall n st m f xs input out f' p',
  new_process m f -> replaced (lit "pdf") input out ->
  (forall t, names f (cwd m ++ [lit "tmp.html"]) <> Some (NLink t)) ->
  ~ aliases f (cwd m ++ [lit "tmp.html"]) out ->
  ~ aliases f out input -> ~ aliases f (cwd m ++ [lit "tmp.html"]) input ->
  exec xs f (start m (main n st (CParse input Pdf))) = (f', p') -> contents f' input = contents f input.
Proof. exact pdf_keeps. Qed.
Print Assumptions C43_pdf_partial.

(** C44 as stated is false: names that differ in the extension only collide *)
Theorem C44_collision_refuted : forall ext dir stem e e', stem <> [] -> ~ In c_dot e -> ~ In c_dot e' -> e <> e' ->
  exists p q out, p = dir ++ [stem ++ lit "." ++ e] /\ q = dir ++ [stem ++ lit "." ++ e'] /\ p <> q /\
    replaced ext p out /\ replaced ext q out.
Proof. exact collide. Qed.
Print Assumptions C44_collision_refuted.

(** C44: the outputs are the same exactly if directory and stem are *)
Theorem C44_exactly_partial : forall ext p q a b, p <> [] -> q <> [] ->
  replaced ext p a -> replaced ext q b ->
  (a = b <-> exists dir stem, stem_of p dir stem /\ stem_of q dir stem).
Proof. exact outputs_same_iff. Qed.
Print Assumptions C44_exactly_partial.

(** C44 holds for names with the same extension *)
Theorem C44_same_extension_partial : forall ext e p q a b,
  has_extension e p -> has_extension e q -> p <> q ->
  replaced ext p a -> replaced ext q b -> a <> b.
Proof. exact same_extension_apart. Qed.
Print Assumptions C44_same_extension_partial.

Example C44_case : has_extension (lit "md") a_md /\ has_extension (lit "md") [lit "w"; lit "b.md"].
Proof.
  split; [apply (has_ext (lit "md") [lit "w"] (lit "a"))|apply (has_ext (lit "md") [lit "w"] (lit "b"))];
    vm_compute; intuition discriminate.
Qed.


(** C45 as stated is false: an existing tmp.html is lost *)
Theorem C45_clobbered_refuted : exists n st m f xs input f' p' old,
  new_process m f /\ exec xs f (start m (main n st (CParse input Pdf))) = (f', p') /\
  status p' = Some 0 /\
  contents f (cwd m ++ [lit "tmp.html"]) = Some old /\ contents f' (cwd m ++ [lit "tmp.html"]) = None.
Proof. exact tmp_clobbered. Qed.
Print Assumptions C45_clobbered_refuted.

(** C45 as stated is false: the temporary file stays if the browser cannot open it *)
Theorem C45_leak_refuted : forall st m f input b s html why,
  new_process m f -> present f (config_path st) = false ->
  contents f input = Some b -> decode b = Some s -> renders s html ->
  creatable f (cwd m ++ [lit "tmp.html"]) ->
  exists n xs f' p', exec xs f (start m (main n st (CParse input Pdf))) = (f', p') /\
    In (Fail why) xs /\ status p' = Some 1 /\
    contents f' (cwd m ++ [lit "tmp.html"]) = Some (encode html).
Proof. exact pdf_leak. Qed.
Print Assumptions C45_leak_refuted.

(** C45, what holds: if there was no tmp.html, a successful conversion changes
    nothing but the output *)
Theorem C45_success_partial : forall n st m f xs input out f' p',
  new_process m f -> Forall no_short xs -> replaced (lit "pdf") input out ->
  names f (cwd m ++ [lit "tmp.html"]) = None -> ~ aliases f (cwd m ++ [lit "tmp.html"]) out ->
  exec xs f (start m (main n st (CParse input Pdf))) = (f', p') -> status p' = Some 0 ->
  only_changes f out f'.
Proof. exact pdf_only. Qed.
Print Assumptions C45_success_partial.

(** C45: after success the temporary file is gone *)
Theorem C45_gone_partial : forall n st m f xs input out f' p',
  new_process m f -> Forall no_short xs -> replaced (lit "pdf") input out ->
  (forall t, names f (cwd m ++ [lit "tmp.html"]) <> Some (NLink t)) ->
  ~ aliases f (cwd m ++ [lit "tmp.html"]) out ->
  exec xs f (start m (main n st (CParse input Pdf))) = (f', p') -> status p' = Some 0 ->
  names f' (cwd m ++ [lit "tmp.html"]) = None.
Proof. exact tmp_lost. Qed.
Print Assumptions C45_gone_partial.

(** C45: whatever fails, only the output and tmp.html can differ *)
Theorem C45_others_partial : forall n st m f xs input out f' p' q,
  new_process m f -> replaced (lit "pdf") input out ->
  (forall t, names f (cwd m ++ [lit "tmp.html"]) <> Some (NLink t)) ->
  ~ aliases f (cwd m ++ [lit "tmp.html"]) out -> exec xs f (start m (main n st (CParse input Pdf))) = (f', p') ->
  ~ aliases f (cwd m ++ [lit "tmp.html"]) q -> ~ aliases f out q -> contents f' q = contents f q.
Proof. exact pdf_others. Qed.
Print Assumptions C45_others_partial.

(** C46 as stated is false: two processes in the same directory; the first exits
    with 0 and its output is the PDF of the second one's input *)
Theorem C46_race_refuted : exists n st m1 m2 in1 in2 out1 f xs f' p1 p2 b2 s2 html2,
  pid m1 <> pid m2 /\ new_process m1 f /\ new_process m2 f /\ Forall (fun x => snd x = Ok) xs /\
  in1 <> in2 /\ replaced (lit "pdf") in1 out1 /\
  exec2 xs f (start m1 (main n st (CParse in1 Pdf))) (start m2 (main n st (CParse in2 Pdf)))
    = (f', (p1, p2)) /\
  status p1 = Some 0 /\ contents f in2 = Some b2 /\ decode b2 = Some s2 /\ renders s2 html2 /\
  contents f' out1 = Some (pdf_of m1 (encode html2)) /\
  (forall b1 s1 html1, contents f in1 = Some b1 -> decode b1 = Some s1 -> renders s1 html1 ->
     contents f' out1 <> Some (pdf_of m1 (encode html1))).
Proof. exact pdf_race. Qed.
Print Assumptions C46_race_refuted.

(** C46 holds in every interleaving if the processes share no file that one of them
    writes; in particular they need different working directories (whose names mean themselves in a url) *)
Theorem C46_apart_partial : forall n1 st1 m1 in1 out1 n2 st2 m2 in2 out2 f xs f' p1 p2,
  let tmp1 := cwd m1 ++ [lit "tmp.html"] in
  let tmp2 := cwd m2 ++ [lit "tmp.html"] in
  pid m1 <> pid m2 -> new_process m1 f -> new_process m2 f -> Forall no_short (map snd xs) ->
  web_dir (cwd m1) -> web_dir (cwd m2) ->
  replaced (lit "pdf") in1 out1 -> replaced (lit "pdf") in2 out2 ->
  (forall t, names f tmp1 <> Some (NLink t)) -> (forall t, names f tmp2 <> Some (NLink t)) ->
  ~ aliases f tmp1 out1 -> ~ aliases f tmp2 out2 ->
  (forall p q, In p [config_path st1; in1; tmp1; out1] -> In q [tmp2; out2] -> ~ aliases f p q) ->
  (forall p q, In p [config_path st2; in2; tmp2; out2] -> In q [tmp1; out1] -> ~ aliases f p q) ->
  exec2 xs f (start m1 (main n1 st1 (CParse in1 Pdf))) (start m2 (main n2 st2 (CParse in2 Pdf)))
    = (f', (p1, p2)) ->
  (status p1 = Some 0 -> exists b s html, contents f in1 = Some b /\ decode b = Some s /\
     renders s html /\ contents f' out1 = Some (pdf_of m1 (encode html))) /\
  (status p2 = Some 0 -> exists b s html, contents f in2 = Some b /\ decode b = Some s /\
     renders s html /\ contents f' out2 = Some (pdf_of m2 (encode html))).
Proof. exact pdf_both. Qed.
Print Assumptions C46_apart_partial.

Example C46_other_machine : machine := {| pid := 2; cwd := [lit "x"]; pdf_of := fun b => b |}.
Example C46_world : fs :=
  sample_disk [([lit "x"], NDir); ([lit "x"; lit "a.md"], NFile (0, 3))] [((0, 3), lit "# X")].
Example C46_case :
  (forall p q, In p [config_path sample_settings; a_md; tmp_html; a_pdf] ->
     In q [[lit "x"; lit "tmp.html"]; [lit "x"; lit "a.pdf"]] -> ~ aliases C46_world p q) /\
  let r := exec2 (concat (repeat [(true, Ok); (false, Ok)] 21)) C46_world
             (start (sample_machine 1) (main 100 sample_settings (CParse a_md Pdf)))
             (start C46_other_machine (main 100 sample_settings (CParse [lit "x"; lit "a.md"] Pdf))) in
  status (fst (snd r)) = Some 0 /\ status (snd (snd r)) = Some 0.
Proof.
  split; [|vm_compute; auto]. intros p q Hp Hq.
  destruct Hp as [<-|[<-|[<-|[<-|[]]]]]; destruct Hq as [<-|[<-|[]]];
    (apply (sample_no_alias _ _ _ _ _) with (2 := eq_refl) (3 := eq_refl);
     [vm_compute; discriminate|vm_compute; congruence]).
Qed.


(** C47: with a configuration that stat(2) can see, initialize changes nothing and
    can only exit with 1 and the message *)
Theorem C47_present_partial : forall n st m f x xs f' p',
  present f (config_path st) = true -> not_failing x ->
  exec (x :: xs) f (start m (main n st CInitialize)) = (f', p') ->
  f' = f /\ forall k, status p' = Some k -> k = 1 /\
    logged (here p') = [error_record (ConfigAlreadyExistsError (display (config_path st)))].
Proof. exact init_present. Qed.
Print Assumptions C47_present_partial.

(** C47: initialize only writes its file and makes directories *)
Theorem C47_frame_partial : forall n st m f xs f' p',
  new_process m f -> exec xs f (start m (main n st CInitialize)) = (f', p') ->
  (forall q, ~ aliases f (config_path st) q -> contents f' q = contents f q) /\
  (forall q, resolve max_links f (config_path st) <> Some q ->
     names f' q = names f q \/ names f q = None /\ names f' q = Some NDir).
Proof. exact init_frame. Qed.
Print Assumptions C47_frame_partial.

(** C47: on success without short writes the file holds the default text, and
    load_config makes the default configuration of it, if the TOML reader reads
    the text as meant and no variable SMD__... is set *)
Theorem C47_written_partial : forall n st m f xs f' p',
  new_process m f -> Forall no_short xs -> exec xs f (start m (main n st CInitialize)) = (f', p') -> status p' = Some 0 ->
  contents f' (config_path st) = Some (encode default_toml) /\
  (forall ys g q r,
     toml st default_toml = inl default_table ->
     (forall name v key, In (name, v) (environ st) -> ~ sets name key) ->
     exec ys f' (start m (load_config st)) = (g, q) -> code q = Done r ->
     r = inl default_config \/ exists t, r = inr (IoError t)).
Proof. exact init_written. Qed.
Print Assumptions C47_written_partial.

Example C47_case : status (snd (run_of (oks 6) world CInitialize)) = Some 0 /\
  toml sample_settings default_toml = inl default_table /\
  code (snd (exec (oks 4) (fst (run_of (oks 6) world CInitialize))
    (start (sample_machine 1) (load_config sample_settings)))) = Done (inl default_config) /\
  present (sample_disk own_config []) (config_path sample_settings) = true.
Proof. vm_compute. auto. Qed.


(** C47 as stated is false: of two at the same time both succeed *)
Theorem C47_race_refuted : exists n st m1 m2 f xs f' p1 p2,
  pid m1 <> pid m2 /\ new_process m1 f /\ new_process m2 f /\ Forall (fun x => snd x = Ok) xs /\
  exec2 xs f (start m1 (main n st CInitialize)) (start m2 (main n st CInitialize)) = (f', (p1, p2)) /\
  status p1 = Some 0 /\ status p2 = Some 0.
Proof. exact init_race. Qed.
Print Assumptions C47_race_refuted.

(** C47 as stated is false: one succeeds and the other, dying, leaves the file empty *)
Theorem C47_lost_refuted : exists n st m1 m2 f xs f' p1 p2,
  pid m1 <> pid m2 /\ new_process m1 f /\ new_process m2 f /\ Forall (fun x => snd x = Ok) xs /\
  exec2 xs f (start m1 (main n st CInitialize)) (start m2 (main n st CInitialize)) = (f', (p1, p2)) /\
  status p1 = Some 0 /\ contents f' (config_path st) = Some [].
Proof. exact init_lost. Qed.
Print Assumptions C47_lost_refuted.

(** C47 as stated is false: a failing stat(2) counts as absence and the file is overwritten *)
Theorem C47_stat_refuted : exists n st m f why xs f' p' old,
  new_process m f /\ contents f (config_path st) = Some old /\ old <> encode default_toml /\
  exec (Fail why :: xs) f (start m (main n st CInitialize)) = (f', p') /\ Forall (eq Ok) xs /\
  status p' = Some 0 /\ contents f' (config_path st) = Some (encode default_toml).
Proof. exact init_clobbers. Qed.
Print Assumptions C47_stat_refuted.

(** C48: with a configuration that stat(2) can see and that cannot be read, decoded
    or parsed, nothing changes and the exit status can only be 1 with a message *)
Theorem C48_bad_partial : forall n st m f input o x xs f' p',
  present f (config_path st) = true -> not_failing x ->
  (unusable st f \/ exists y e xs', xs = y :: Fail e :: xs') ->
  exec (x :: xs) f (start m (main n st (CParse input o))) = (f', p') ->
  f' = f /\ forall k, status p' = Some k -> k = 1 /\
    exists e pre, logged (here p') = pre ++ [error_record e].
Proof. exact bad_config. Qed.
Print Assumptions C48_bad_partial.

(** C48: without a configuration the defaults are used *)
Theorem C48_absent_partial : forall st m f xs f' p' r,
  present f (config_path st) = false ->
  exec xs f (start m (load_config st)) = (f', p') -> code p' = Done r -> r = inl default_config.
Proof. exact load_default. Qed.
Print Assumptions C48_absent_partial.

(** C48 as stated is false: if stat(2) fails, the conversion goes on whatever the
    configuration is *)
Theorem C48_stat_refuted : forall st m f input out b s html why,
  new_process m f ->
  contents f input = Some b -> decode b = Some s -> renders s html ->
  replaced (lit "html") input out -> creatable f out ->
  exists n xs f' p', exec (Fail why :: xs) f (start m (main n st (CParse input Html))) = (f', p') /\
    status p' = Some 0 /\ contents f' out = Some (encode html).
Proof. exact unusable_html. Qed.
Print Assumptions C48_stat_refuted.

Example C48_case :
  let f := sample_disk own_config [((0, 3), lit "mine")] in
  present f (config_path sample_settings) = true /\ unusable sample_settings f /\
  status (snd (run_of (oks 9) f (CParse a_md Html))) = Some 1.
Proof.
  split; [vm_compute; reflexivity|]. split; [|vm_compute; reflexivity].
  intros b s c Hb Hd. vm_compute in Hb. apply some_inj in Hb. subst b. vm_compute in Hd.
  apply some_inj in Hd. subst s. vm_compute. discriminate.
Qed.


(** C49: a variable decides on_parse_error, if no two disagree *)
Theorem C49_env_action_partial : forall tm e s c name v, parse_from_str tm e s = inl c ->
  In (name, v) e -> sets name (lit "parse.on_parse_error") ->
  (forall name' v', In (name', v') e -> sets name' (lit "parse.on_parse_error") -> v' = v) ->
  means_action (VString v) (on_parse_error c).
Proof. exact env_action. Qed.
Print Assumptions C49_env_action_partial.

(** C49: without a variable the file decides on_parse_error *)
Theorem C49_file_action_partial : forall tm e s c t v, parse_from_str tm e s = inl c -> tm s = inl t ->
  (forall name w, In (name, w) e -> ~ sets name (lit "parse.on_parse_error")) ->
  In (lit "parse.on_parse_error", v) t ->
  (forall w, In (lit "parse.on_parse_error", w) t -> w = v) ->
  means_action v (on_parse_error c).
Proof. exact file_action. Qed.
Print Assumptions C49_file_action_partial.

(** C49: a variable decides keep_temp_files, if no two disagree *)
Theorem C49_env_keep_partial : forall tm e s c name v, parse_from_str tm e s = inl c ->
  In (name, v) e -> sets name (lit "parse.keep_temp_files") ->
  (forall name' v', In (name', v') e -> sets name' (lit "parse.keep_temp_files") -> v' = v) ->
  means_bool (VString v) (keep_temp_files c).
Proof. exact env_keep. Qed.
Print Assumptions C49_env_keep_partial.

(** C49: without a variable the file decides keep_temp_files *)
Theorem C49_file_keep_partial : forall tm e s c t v, parse_from_str tm e s = inl c -> tm s = inl t ->
  (forall name w, In (name, w) e -> ~ sets name (lit "parse.keep_temp_files")) ->
  In (lit "parse.keep_temp_files", v) t ->
  (forall w, In (lit "parse.keep_temp_files", w) t -> w = v) ->
  means_bool v (keep_temp_files c).
Proof. exact file_keep. Qed.
Print Assumptions C49_file_keep_partial.

(** C49: a setting given by neither is an error *)
Theorem C49_missing_partial : forall tm e s t k, k = lit "parse.on_parse_error" \/ k = lit "parse.keep_temp_files" ->
  tm s = inl t -> (forall name w, In (name, w) e -> ~ sets name k) -> (forall w, ~ In (k, w) t) ->
  exists why, parse_from_str tm e s = inr why.
Proof. exact missing_key. Qed.
Print Assumptions C49_missing_partial.

(** C49: ... and the message names it, or the other one *)
Theorem C49_missing_named_partial : forall tm e s t k why,
  k = lit "parse.on_parse_error" \/ k = lit "parse.keep_temp_files" ->
  tm s = inl t -> (forall name w, In (name, w) e -> ~ sets name k) -> (forall w, ~ In (k, w) t) ->
  parse_from_str tm e s = inr why ->
  why = lit "missing field `" ++ k ++ lit "`" \/
  k = lit "parse.keep_temp_files" /\ exists a, why = a ++ lit " `parse.on_parse_error`".
Proof. exact missing_names_it. Qed.
Print Assumptions C49_missing_named_partial.

(** C49: a variable that means nothing is an error, whatever the file says *)
Theorem C49_wrong_partial : forall tm e s t k name v,
  k = lit "parse.on_parse_error" \/ k = lit "parse.keep_temp_files" ->
  tm s = inl t -> In (name, v) e -> sets name k ->
  (forall name' v', In (name', v') e -> sets name' k -> v' = v) ->
  (k = lit "parse.on_parse_error" -> forall a, ~ means_action (VString v) a) ->
  (k = lit "parse.keep_temp_files" -> forall b, ~ means_bool (VString v) b) ->
  exists why, parse_from_str tm e s = inr why.
Proof. exact wrong_value. Qed.
Print Assumptions C49_wrong_partial.

Example C49_case_errors :
  parse_from_str (fun _ => inl [(lit "parse.on_parse_error", VString (lit "abort"))]) [] [] =
    inr (lit "missing field `parse.keep_temp_files`") /\
  exists why, parse_from_str small_toml [(lit "SMD__PARSE__KEEP_TEMP_FILES", lit "maybe")] default_toml = inr why.
Proof. split; [vm_compute; reflexivity|]. eexists. vm_compute. reflexivity. Qed.

(** C49: the order of the variables does not matter if no two disagree *)
Theorem C49_order_partial : forall tm e e' s, Permutation e e' ->
  (forall n1 v1 n2 v2 k, In (n1, v1) e -> In (n2, v2) e -> sets n1 k -> sets n2 k -> v1 = v2) ->
  parse_from_str tm e s = parse_from_str tm e' s.
Proof. exact parse_perm. Qed.
Print Assumptions C49_order_partial.

(** C49 as stated is false: names that differ in case only are the same setting *)
Theorem C49_order_refuted : exists tm e e' s c c', Permutation e e' /\ NoDup (map fst e) /\
  parse_from_str tm e s = inl c /\ parse_from_str tm e' s = inl c' /\ c <> c'.
Proof. exact order_matters. Qed.
Print Assumptions C49_order_refuted.

Example C49_case :
  parse_from_str small_toml [(lit "SMD__PARSE__ON_PARSE_ERROR", lit "abort"); (lit "HOME", lit "/")] default_toml
    = inl {| on_parse_error := Abort; keep_temp_files := false |} /\
  sets (lit "SMD__PARSE__ON_PARSE_ERROR") (lit "parse.on_parse_error").
Proof. split; [vm_compute; reflexivity|]. eexists. split; vm_compute; reflexivity. Qed.


(** C50 as stated is false: whatever two readable configurations say, the runs are
    the same *)
Theorem C50_ignored_refuted : forall n st st' m f xs input o b s c c',
  config_path st' = config_path st ->
  contents f (config_path st) = Some b -> decode b = Some s ->
  parse_from_str (toml st) (environ st) s = inl c ->
  parse_from_str (toml st') (environ st') s = inl c' ->
  let e := exec xs f (start m (main n st (CParse input o))) in
  let e' := exec xs f (start m (main n st' (CParse input o))) in
  fst e' = fst e /\ here (snd e') = here (snd e) /\ status (snd e') = status (snd e).
Proof. exact config_ignored. Qed.
Print Assumptions C50_ignored_refuted.

Example C50_case :
  let st' := {| toml := small_toml; environ := [(lit "SMD__PARSE__KEEP_TEMP_FILES", lit "true")];
                config_dir := Some [lit "c"]; work_dir := [lit "w"] |} in
  let f := sample_disk own_config [((0, 3), encode default_toml)] in
  contents f (config_path sample_settings) = Some (encode default_toml) /\
  decode (encode default_toml) = Some default_toml /\
  parse_from_str (toml sample_settings) (environ sample_settings) default_toml = inl default_config /\
  parse_from_str (toml st') (environ st') default_toml =
    inl {| on_parse_error := SerializeIt; keep_temp_files := true |} /\
  status (snd (exec (oks 24) f (start (sample_machine 1) (main 100 st' (CParse a_md Pdf))))) = Some 0.
Proof. vm_compute. auto. Qed.


(** C51: a process that ends by itself exits with 0 and has logged no error, or with 1
    and an error is its last record, or it has panicked *)
Theorem C51_exit_partial : forall n st c m f xs f' p' k,
  exec xs f (start m (main n st c)) = (f', p') -> status p' = Some k ->
  (k = 0 /\ forall r, In r (logged (here p')) -> rec_level r <> LError) \/
  (k = 1 /\ exists e pre, logged (here p') = pre ++ [error_record e]) \/
  k = 101.
Proof. exact exit_told. Qed.
Print Assumptions C51_exit_partial.

(** C51 as stated is false: for every file on which the renderer panics the status
    is 101 and no error is logged *)
Theorem C51_panic_refuted : forall st m f input o b s,
  present f (config_path st) = false ->
  contents f input = Some b -> decode b = Some s -> crashes s ->
  exists n xs p', exec xs f (start m (main n st (CParse input o))) = (f, p') /\
    status p' = Some 101 /\ forall r, In r (logged (here p')) -> rec_level r <> LError.
Proof. exact renderer_panics. Qed.
Print Assumptions C51_panic_refuted.

(** C51 as stated is false: for every file on which the renderer loops there is no status *)
Theorem C51_endless_refuted : forall st m f input o b s n k,
  present f (config_path st) = false ->
  contents f input = Some b -> decode b = Some s -> runs_forever s ->
  status (snd (exec (repeat Ok k) f (start m (main n st (CParse input o))))) = None.
Proof. exact renderer_hangs. Qed.
Print Assumptions C51_endless_refuted.

Example C51_case :
  let f := sample_disk [([lit "w"; lit "c"], NFile (0, 3))] [((0, 3), lit "# {#a} b")] in
  contents f [lit "w"; lit "c"] = Some (lit "# {#a} b") /\ decode (lit "# {#a} b") = Some (lit "# {#a} b") /\
  crashes (lit "# {#a} b") /\ status (snd (run_of (oks 9) f (CParse [lit "w"; lit "c"] Html))) = Some 101 /\
  status (snd (run_of (oks 9) f (CParse [lit "w"; lit "missing"] Html))) = Some 1.
Proof.
  do 2 (split; [vm_compute; reflexivity|]). split; [exists 1; vm_compute; reflexivity|].
  split; vm_compute; reflexivity.
Qed.
Example C51_endless_case :
  let s := lit "<details>" ++ [c_nl] ++ lit "<summary>a</summary>" ++ [c_nl] ++ lit "<details></details>" in
  let f := sample_disk [([lit "w"; lit "c"], NFile (0, 3))] [((0, 3), s)] in
  contents f [lit "w"; lit "c"] = Some s /\ decode s = Some s /\ runs_forever s.
Proof.
  split; [vm_compute; reflexivity|]. split; [vm_compute; reflexivity|].
  apply (unclosed_details_hangs (lit "a") [([], [])] []); try (vm_compute; intuition discriminate).
  repeat constructor; vm_compute; intuition discriminate.
Qed.
