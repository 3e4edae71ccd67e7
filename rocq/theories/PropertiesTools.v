(** * PropertiesTools: the log (C53), the npm package (C54-C57), the argument --input (C58, C59). *)
From Coq Require Import Ascii String.
From Verif Require Import Strings StringsFacts Utf8 System Config Cli SpecCli SystemFacts Logger LoggerFacts
  Npm NpmFacts Args ArgsFacts.
Open Scope list_scope.

(** ** C53 *)

Definition rec (target : str) : record := {| rec_level := LInfo; rec_target := target; rec_text := lit "x" |}.

(** With one thread: the line of every record has its target, padded to at least
    the length of every target before. *)
Theorem C53_one_thread_partial : forall rs, length (log_all 0 rs) = length rs /\
  forall i r, nth_error rs i = Some r -> exists n,
    nth_error (log_all 0 rs) i = Some (line_with r n) /\
    forall j r', j <= i -> nth_error rs j = Some r' ->
      length (rec_target r') <= length (rec_target r) + n.
Proof. exact sequential. Qed.
Print Assumptions C53_one_thread_partial.

(** ... and for targets in ASCII no further than one of them. *)
Theorem C53_exact_partial : forall rs i r,
  (forall r, In r rs -> Forall (fun c => (c < 128)%N) (rec_target r)) ->
  nth_error rs i = Some r -> exists n r' j,
    nth_error (log_all 0 rs) i = Some (line_with r n) /\
    j <= i /\ nth_error rs j = Some r' /\ length (rec_target r) + n = length (rec_target r').
Proof. exact sequential_exact. Qed.
Print Assumptions C53_exact_partial.

(** With threads it is false: for any two threads with targets of different
    length there is a schedule after which the column is narrower than a line
    that was already printed, and stays so. *)
Theorem C53_threads_refuted : forall a b c,
  Forall (fun x => (x < 128)%N) (rec_target a) -> Forall (fun x => (x < 128)%N) (rec_target b) ->
  Forall (fun x => (x < 128)%N) (rec_target c) ->
  length (rec_target c) <= length (rec_target b) < length (rec_target a) -> rec_target b <> [] ->
  exists sched n m, log_lines (log_run sched (log_start [[a; c]; [b]])) =
      [line_with a 0; line_with b n; line_with c m] /\
    length (rec_target b) + n < length (rec_target a) /\
    length (rec_target c) + m < length (rec_target a).
Proof. exact race_lines. Qed.
Print Assumptions C53_threads_refuted.

(** What holds in every interleaving: each line is the line of a record, its
    target never cut, padded to the width of some target at most. *)
Theorem C53_threads_partial : forall rss sched l, In l (log_lines (log_run sched (log_start rss))) ->
  exists rs r n, In rs rss /\ In r rs /\ l = line_with r n /\
    (n = 0 \/ exists rs' r', In rs' rss /\ In r' rs' /\
       length (rec_target r) + n = length (encode (rec_target r'))).
Proof. exact threads_lines. Qed.
Print Assumptions C53_threads_partial.

(** In every interleaving the targets begin in one column: a space, the level in
    five columns, a space. *)
Theorem C53_levels_partial : forall g l, In l (log_lines g) ->
  exists r lv rest, In r (map fst (printed g)) /\
    l = lv ++ rec_target r ++ rest /\ length lv = 7 /\
    exists name, lv = [c_sp] ++ name ++ crep (6 - length name) c_sp /\
      In (rec_level r, name) [(LTrace, lit "TRACE"); (LDebug, lit "DEBUG"); (LInfo, lit "INFO");
                              (LWarn, lit "WARN"); (LError, lit "ERROR")].
Proof. exact level_column. Qed.
Print Assumptions C53_levels_partial.

Example C53_case :
  log_all 0 [rec (lit "smd"); rec (lit "smd_core::fs"); rec (lit "smd")] =
    [lit " INFO  smd > x" ++ [c_nl]; lit " INFO  smd_core::fs > x" ++ [c_nl];
     lit " INFO  smd          > x" ++ [c_nl]] /\
  log_lines (log_run [0; 1; 0; 1; 0; 1; 0; 0; 0] (log_start [[rec (lit "smd_core::fs"); rec (lit "smd")];
    [rec (lit "browser")]])) =
    [lit " INFO  smd_core::fs > x" ++ [c_nl]; lit " INFO  browser > x" ++ [c_nl];
     lit " INFO  smd     > x" ++ [c_nl]].
Proof. vm_compute. auto. Qed.

(** ** C54: [u] is what [toLowerCase] does outside ASCII *)

(** For keys in ASCII, the arguments are exactly those the documentation
    describes. *)
Theorem C54_documented_partial : forall u os, (forall e, In e os -> ascii (fst e)) ->
  forall args, args = options_to_args u os <->
    exists pieces, Forall2 documented os pieces /\ args = concat pieces.
Proof. exact options_documented. Qed.
Print Assumptions C54_documented_partial.

(** The settings can be recovered from the arguments if no value looks like an
    option. *)
Theorem C54_settings_partial : forall u os os' r r',
  settings_of os r -> settings_of os' r' -> Forall plain_setting r -> Forall plain_setting r' ->
  options_to_args u os = options_to_args u os' -> r = r'.
Proof. exact settings_kept. Qed.
Print Assumptions C54_settings_partial.

(** ... and not otherwise. *)
Theorem C54_settings_refuted : forall u, exists os os' r r',
  settings_of os r /\ settings_of os' r' /\ r <> r' /\ options_to_args u os = options_to_args u os'.
Proof. exact settings_mixed. Qed.
Print Assumptions C54_settings_refuted.

(** An option that is present but undefined, which the type allows, puts
    something that is no string among the arguments; nothing else does. *)
Theorem C54_undefined_refuted : forall u k, In AUndefined (options_to_args u [(k, JUndefined)]).
Proof. exact undefined_passed. Qed.
Print Assumptions C54_undefined_refuted.
Theorem C54_strings_partial : forall u os,
  (forall k, ~ In (k, JUndefined) os) -> ~ In AUndefined (options_to_args u os).
Proof. exact only_undefined. Qed.
Print Assumptions C54_strings_partial.

Example C54_options : list (str * js) :=
  [(lit "topoOrder", JTrue); (lit "latest", JFalse); (lit "tag", JString (lit "1.0.0"));
   (lit "body", JNull); (lit "skipCommit", JArray [lit "a"; lit "b"])].
Example C54_case : forall u,
  options_to_args u C54_options =
    map AString [lit "--topo-order"; lit "--tag"; lit "1.0.0"; lit "--skip-commit"; lit "a";
                 lit "--skip-commit"; lit "b"] /\
  exists r, settings_of C54_options r /\ length r = 4.
Proof.
  intros u. split; [reflexivity|]. eexists. split; [repeat constructor|reflexivity].
Qed.

(** ** C55 *)

(** False: a capital letter, and a hyphen with the small letter, in any place. *)
Theorem C55_collision_refuted : forall u a b c, ascii a -> ascii b -> (65 <= c <= 90)%N ->
  a ++ [c] ++ b <> a ++ [c_minus; (c + 32)%N] ++ b /\
  flag u (a ++ [c] ++ b) = flag u (a ++ [c_minus; (c + 32)%N] ++ b).
Proof. exact flags_collide. Qed.
Print Assumptions C55_collision_refuted.

(** True for keys in ASCII without hyphens, ... *)
Theorem C55_apart_partial : forall u k k', ascii k -> ascii k' ->
  ~ In c_minus k -> ~ In c_minus k' -> k <> k' -> flag u k <> flag u k'.
Proof. exact flags_apart. Qed.
Print Assumptions C55_apart_partial.

(** ... such as all keys of options.ts. *)
Theorem C55_known_partial : forall u k k', In k option_keys -> In k' option_keys -> k <> k' ->
  flag u k <> flag u k'.
Proof. exact known_flags. Qed.
Print Assumptions C55_known_partial.
Example C55_case : forall u, flag u (lit "withTagMessage") = lit "--with-tag-message" /\
  flag u (lit "with-tag-message") = lit "--with-tag-message".
Proof. intros u. split; reflexivity. Qed.

(** ** C56: the package runs another program, on every platform. *)
Theorem C56_program_refuted : forall platform arch,
  exists rest, exe_module platform arch = lit "git-cliff-" ++ rest.
Proof. exact other_program. Qed.
Print Assumptions C56_program_refuted.
Example C56_case : exe_module (lit "win32") (lit "x64") = lit "git-cliff-windows-x64/bin/git-cliff.exe".
Proof. reflexivity. Qed.

(** ** C57 *)
Theorem C57_zero_partial : forall e, cli_status e = 0 <-> e = Exited 0.
Proof. exact status_zero. Qed.
Print Assumptions C57_zero_partial.

(** False otherwise: every failure is a 1. *)
Theorem C57_status_refuted : forall n, n <> 0 -> cli_status (Exited n) = 1.
Proof. exact status_lost. Qed.
Print Assumptions C57_status_refuted.
Example C57_case : cli_status (Exited 101) = 1.
Proof. reflexivity. Qed.

(** ** C58 *)
Theorem C58_canonical : forall home home' f dir dir' s p, tidy f -> names f dir = Some NDir ->
  parse_dir home f dir s = Some p ->
  real f p /\ parse_dir home' f dir' (display p) = Some p.
Proof. exact parse_stable. Qed.
Print Assumptions C58_canonical.

(** Every existing path can be given, and means what it leads to. *)
Theorem C58_complete : forall home f dir p q, tidy f ->
  names f p <> None -> resolve max_links f p = Some q -> names f q <> None ->
  parse_dir home f dir (display p) = Some q.
Proof. exact parse_path. Qed.
Print Assumptions C58_complete.

(** The tilde stands for the home directory, alone or before a slash, and only there. *)
Theorem C58_tilde : forall home f dir rest,
  parse_dir (Some (lit "/" ++ home)) f dir (lit "~/" ++ rest) =
    parse_dir None f dir (lit "/" ++ home ++ lit "/" ++ rest) /\
  parse_dir (Some (lit "/" ++ home)) f dir (lit "~") = parse_dir None f dir (lit "/" ++ home).
Proof. exact parse_tilde. Qed.
Print Assumptions C58_tilde.
Theorem C58_no_tilde : forall home f dir s,
  s <> lit "~" -> starts_with (lit "~/") s = false -> parse_dir home f dir s = parse_dir None f dir s.
Proof. exact parse_no_tilde. Qed.
Print Assumptions C58_no_tilde.

Example C58_disk : fs :=
  disk [([], NDir); ([lit "h"], NDir); ([lit "w"], NDir); ([lit "w"; lit "a.md"], NFile (0, 1));
        ([lit "h"; lit "l.md"], NLink [lit "w"; lit "a.md"])] [((0, 1), lit "# A")].
Example C58_tidy : tidy C58_disk.
Proof.
  split; [reflexivity|]. intros p c N. unfold C58_disk, disk in *. cbn [names] in *.
  destruct (List.find (fun e => path_eqb (fst e) (p ++ [c])) _) as [e|] eqn:E; [|congruence].
  apply find_some in E. destruct E as [I E]. apply path_eqb_eq in E.
  assert (K : forall d n, d ++ [n] = p ++ [c] -> d = p /\ n = c) by (intros d n H; apply app_inj_tail, H).
  assert (P : proper (lit "h") /\ proper (lit "w") /\ proper (lit "a.md") /\ proper (lit "l.md"))
    by (repeat split; vm_compute; intuition discriminate).
  destruct P as (P1 & P2 & P3 & P4).
  destruct I as [<-|[<-|[<-|[<-|[<-|[]]]]]]; cbn [fst] in E.
  - destruct p; discriminate.
  - destruct (K [] (lit "h") E) as [<- <-]. split; [reflexivity|exact P1].
  - destruct (K [] (lit "w") E) as [<- <-]. split; [reflexivity|exact P2].
  - destruct (K [lit "w"] (lit "a.md") E) as [<- <-]. split; [reflexivity|exact P3].
  - destruct (K [lit "h"] (lit "l.md") E) as [<- <-]. split; [reflexivity|exact P4].
Qed.
Example C58_case :
  parse_dir (Some (lit "/h")) C58_disk [lit "w"] (lit "~/l.md") = Some [lit "w"; lit "a.md"] /\
  parse_dir None C58_disk [lit "w"] (lit ".././h//../w/a.md") = Some [lit "w"; lit "a.md"] /\
  parse_dir None C58_disk [lit "w"] (lit "a.md/") = None.
Proof. vm_compute. auto. Qed.

(** ** C59 *)

(** True for files that are no symbolic link, ... *)
Theorem C59_beside_partial : forall home f dir p q ext out, tidy f -> real f p ->
  parse_dir home f dir (display p) = Some q -> replaced ext q out -> q = p /\ parent out = parent p.
Proof. exact output_beside. Qed.
Print Assumptions C59_beside_partial.

(** ... false for every link to another directory. *)
Theorem C59_link_refuted : forall home f dir p t ext, tidy f ->
  names f p = Some (NLink t) -> real f t -> parent t <> parent p ->
  parse_dir home f dir (display p) = Some t /\
  forall out, replaced ext t out -> parent out <> parent p.
Proof. exact output_elsewhere. Qed.
Print Assumptions C59_link_refuted.
Example C59_case : names C58_disk [lit "h"; lit "l.md"] = Some (NLink [lit "w"; lit "a.md"]) /\
  real C58_disk [lit "w"; lit "a.md"].
Proof. split; [reflexivity|]. eexists. split; [reflexivity|discriminate]. Qed.
