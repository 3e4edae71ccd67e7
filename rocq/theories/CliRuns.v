(** * CliRuns: runs that show what may go wrong, and runs of [initialize] and
    [load_config]. *)
From Coq Require Import Ascii String.
From Verif Require Import Strings StringsFacts Token Iter Lexer Parser Utf8 System Config Cli
  SpecCli SystemFacts CliFacts CliMain UrlFacts.
Open Scope list_scope.

(** ** Conversions *)

Lemma unused_here m f l : new_process m f -> logged_only no_tabs l -> unused m f l.
Proof. intros N [E _]. apply (unused_fresh m f no_tabs); [apply unused_start; exact N|exact E]. Qed.

(** C41: a short write. *)
Lemma short_write st m f input b s html k :
  new_process m f -> present f (config_path st) = false ->
  contents f input = Some b -> decode b = Some s -> renders s html ->
  creatable f (set_extension input (lit "html")) ->
  exists n xs f' p', exec xs f (start m (main n st (CParse input Html))) = (f', p') /\
    status p' = Some 0 /\
    contents f' (set_extension input (lit "html")) = Some (firstn k (encode html)).
Proof.
  intros N Np Hb Hd [n Hr] C.
  destruct (runs_convert n st m f Ok input Html b s html (or_introl (conj eq_refl Np)) Hb Hd Hr) as (l & Ll & K).
  destruct (runs_write m f l (out_path input Html) html (Short k) (unused_here m f l N Ll) C
              (or_intror (ex_intro _ k eq_refl))) as (f' & l' & W & _ & _ & R).
  destruct (K _ f' l' (inl tt) 0 R (runs_finish_ok m f' l' tt)) as (l2 & E).
  exists n. eexists _, _, _. split; [exact E|]. split; [reflexivity|]. apply (wr_here _ _ _ _ W).
Qed.

(** C42: death between creating and writing. *)
Lemma crash_empty st m f input b s html :
  new_process m f -> present f (config_path st) = false ->
  contents f input = Some b -> decode b = Some s -> renders s html ->
  creatable f (set_extension input (lit "html")) ->
  exists n xs f' p', exec xs f (start m (main n st (CParse input Html))) = (f', p') /\
    Forall (eq Ok) xs /\ status p' = None /\
    contents f' (set_extension input (lit "html")) = Some [].
Proof.
  intros N Np Hb Hd [n Hr] C.
  destruct (runs_read m input f no_tabs b s Hb Hd) as (l & Ll & R1).
  pose proof (unused_here m f l N Ll) as U.
  assert (Stp : exists l' f' l2 q, steps m ([Ok] ++ [Ok; Ok; Ok] ++ [Ok; Ok; Ok]) f no_tabs
            (main n st (CParse input Html)) f' l2 q /\
            created m (out_path input Html) f l' (match inode_of f' (out_path input Html) with Some i => i | None => (0, 0) end) f' l2 /\
            status {| mach := m; here := l2; code := q |} = None).
  { unfold main. cbn [run]. unfold try.
    pose (l' := logs (logs l {| rec_level := LInfo; rec_target := t_smd;
                                rec_text := lit "Transpiling markdown" |})
               {| rec_level := LDebug; rec_target := t_fs;
                  rec_text := lit "Attempting to write file: " ++ display (out_path input Html) |}).
    destruct (creatable_create m (out_path input Html) f l' C) as (i & f1 & l1 & E).
    pose proof (create_spec m (out_path input Html) f l' i f1 l1 U E) as Cr.
    exists l', f1, l1. eexists. split; [|split; [rewrite (cr_inode _ _ _ _ _ _ _ Cr); exact Cr|]].
    - apply steps_within. apply (steps_after m [Ok] _ f no_tabs _ f no_tabs (inl default_config));
        [apply runs_load_absent; left; auto|].
      cbv iota beta. apply (steps_after m [Ok; Ok; Ok] _ f no_tabs _ f l (inl s)); [exact R1|].
      cbv iota beta. unfold say at 1. eapply st_do; [reflexivity|]. cbv beta.
      unfold rendering. rewrite Hr. unfold write_to_file, say at 1.
      eapply st_do; [reflexivity|]. cbv beta. unfold create_and_write, try_io.
      eapply st_do; [cbn [answer]; exact E|]. cbv iota beta. constructor.
    - reflexivity. }
  destruct Stp as (l' & f' & l2 & q & Stp & Cr & Sn).
  eexists n, _, f', _. split; [apply (steps_exec m _ _ _ _ _ _ _ Stp)|].
  split; [repeat constructor|]. split; [exact Sn|]. apply (cr_empty _ _ _ _ _ _ _ Cr).
Qed.

(** C43: the input is its own output. *)
Lemma html_overwrites n st m f xs dir stem f' p' :
  new_process m f -> Forall no_short xs -> stem <> [] ->
  let input := dir ++ [stem ++ lit ".html"] in
  exec xs f (start m (main n st (CParse input Html))) = (f', p') -> status p' = Some 0 ->
  exists b s html, contents f input = Some b /\ decode b = Some s /\ renders s html /\
    contents f' input = Some (encode html).
Proof.
  intros N F Ne input E S0.
  destruct (html_written n st m f xs input f' p' N F E S0) as (b & s & html & out & Hb & Hd & Hr & R & C & _).
  apply replaced_functional in R.
  assert (O : out = input).
  { subst out. unfold input. change (lit ".html") with (lit "." ++ lit "html").
    rewrite set_extension_at, file_stem_ext; [reflexivity|exact Ne|vm_compute; intuition discriminate]. }
  rewrite O in C. exists b, s, html. auto.
Qed.

Lemma web_visited m : web_dir (cwd m) -> visited (tmp_path m) = Some (tmp_path m).
Proof. intros [Pr Sf]. apply (visited_exact (cwd m) Pr). exact Sf. Qed.

(** What the browser shows is the temporary file. *)
Lemma page_own m f tmp w f1 c : tmp = cwd m ++ [lit "tmp.html"] -> web_dir (cwd m) ->
  written f tmp w f1 -> page m f1 c -> c = w.
Proof.
  intros -> Wd W (q & Op & C). rewrite (web_visited m Wd) in Op. injection Op as <-.
  change (tmp_path m) with (cwd m ++ [lit "tmp.html"]) in C. rewrite (wr_here _ _ _ _ W) in C. congruence.
Qed.

(** C41, C45, C43, C116: what a successful conversion to PDF leaves. *)
Lemma pdf_shown n st m f xs input f' p' :
  new_process m f -> Forall no_short xs ->
  let tmp := cwd m ++ [lit "tmp.html"] in
  let out := set_extension input (lit "pdf") in
  (forall t, names f tmp <> Some (NLink t)) -> ~ aliases f tmp out ->
  exec xs f (start m (main n st (CParse input Pdf))) = (f', p') -> status p' = Some 0 ->
  exists b s html f1 c, contents f input = Some b /\ decode b = Some s /\ renders s html /\
    written f tmp (encode html) f1 /\ page m f1 c /\
    contents f' out = Some (pdf_of m c) /\ names f' tmp = None /\
    (forall q, ~ aliases f tmp q -> ~ aliases f out q -> contents f' q = contents f q) /\
    (forall q, q <> tmp -> resolve max_links f out <> Some q -> names f' q = names f q) /\
    (forall k q, resolve k f' q = resolve k f q).
Proof.
  intros N F tmp out Nl Ap E S0.
  destruct (pdf_exec no_short m n st input f xs N F) as (_ & R & _).
  rewrite E in R. cbn [fst snd] in R.
  destruct (pdf_success no_short m n f input Nl Ap f' (R S0))
    as (Nt & C & Nm & Rs & s & html & w & f1 & c & v & ((b & Hb & Hd) & Hr) & Tw & W & Pg & Tv & Co).
  apply taken_all in Tw. subst w. apply taken_all in Tv. subst v.
  exists b, s, html, f1, c. split; [exact Hb|]. split; [exact Hd|]. split; [exact (renders_of n s html Hr)|].
  split; [exact W|]. split; [exact Pg|].
  split; [exact Co|]. split; [exact Nt|]. split; [exact C|]. split; [exact Nm|exact Rs].
Qed.

Lemma pdf_written n st m f xs input f' p' :
  new_process m f -> Forall no_short xs -> web_dir (cwd m) ->
  let tmp := cwd m ++ [lit "tmp.html"] in
  let out := set_extension input (lit "pdf") in
  (forall t, names f tmp <> Some (NLink t)) -> ~ aliases f tmp out ->
  exec xs f (start m (main n st (CParse input Pdf))) = (f', p') -> status p' = Some 0 ->
  exists b s html, contents f input = Some b /\ decode b = Some s /\ renders s html /\
    contents f' out = Some (pdf_of m (encode html)).
Proof.
  intros N F Wd tmp out Nl Ap E S0.
  destruct (pdf_shown n st m f xs input f' p' N F Nl Ap E S0)
    as (b & s & html & f1 & c & Hb & Hd & Hr & W & Pg & Co & _).
  rewrite (page_own m f tmp (encode html) f1 c eq_refl Wd W Pg) in Co. exists b, s, html. auto.
Qed.

(** C116: in other directories it is another file. *)
Lemma pdf_other n st m f xs input f' p' q :
  new_process m f -> Forall no_short xs ->
  let tmp := cwd m ++ [lit "tmp.html"] in
  let out := set_extension input (lit "pdf") in
  (forall t, names f tmp <> Some (NLink t)) -> ~ aliases f tmp out ->
  visited tmp = Some q -> ~ aliases f tmp q ->
  exec xs f (start m (main n st (CParse input Pdf))) = (f', p') -> status p' = Some 0 ->
  exists c, contents f q = Some c /\ contents f' out = Some (pdf_of m c).
Proof.
  intros N F tmp out Nl Ap Op Aq E S0.
  destruct (pdf_shown n st m f xs input f' p' N F Nl Ap E S0)
    as (b & s & html & f1 & c & Hb & Hd & Hr & W & (q' & Op' & Cq) & Co & _).
  change (tmp_path m) with tmp in Op'. rewrite Op in Op'. injection Op' as <-.
  exists c. split; [|exact Co]. rewrite <- Cq. symmetry. apply (wr_other _ _ _ _ W). exact Aq.
Qed.

Lemma pdf_nothing n st m f xs input f' p' :
  new_process m f -> Forall no_short xs ->
  let tmp := cwd m ++ [lit "tmp.html"] in
  let out := set_extension input (lit "pdf") in
  (forall t, names f tmp <> Some (NLink t)) -> ~ aliases f tmp out ->
  visited tmp = None ->
  exec xs f (start m (main n st (CParse input Pdf))) = (f', p') -> status p' <> Some 0.
Proof.
  intros N F tmp out Nl Ap Op E S0.
  destruct (pdf_shown n st m f xs input f' p' N F Nl Ap E S0)
    as (b & s & html & f1 & c & Hb & Hd & Hr & W & (q' & Op' & Cq) & Co & _).
  change (tmp_path m) with tmp in Op'. congruence.
Qed.

(** C45: at every moment, in every outcome. *)
Lemma pdf_frame n st m f xs input f' p' :
  new_process m f ->
  let tmp := cwd m ++ [lit "tmp.html"] in
  let out := set_extension input (lit "pdf") in
  (forall t, names f tmp <> Some (NLink t)) -> ~ aliases f tmp out ->
  exec xs f (start m (main n st (CParse input Pdf))) = (f', p') ->
  forall q, ~ aliases f tmp q -> ~ aliases f out q -> contents f' q = contents f q.
Proof.
  intros N tmp out Nl Ap E q.
  destruct (pdf_exec anything m n st input f xs N (anything_all xs)) as ((St & _) & _).
  rewrite E in St. cbn [fst snd] in St. apply (pdf_touches anything m n f input Nl Ap f' q St).
Qed.

(** C42 for PDF: the output is the previous one or a beginning of the new one. *)
Lemma pdf_crash n st m f xs input f' p' :
  new_process m f -> Forall no_short xs -> web_dir (cwd m) ->
  let tmp := cwd m ++ [lit "tmp.html"] in
  let out := set_extension input (lit "pdf") in
  (forall t, names f tmp <> Some (NLink t)) -> ~ aliases f tmp out ->
  exec xs f (start m (main n st (CParse input Pdf))) = (f', p') ->
  contents f' out = contents f out \/
  exists b s html v rest, contents f input = Some b /\ decode b = Some s /\ renders s html /\
    contents f' out = Some v /\ pdf_of m (encode html) = v ++ rest.
Proof.
  intros N F Wd tmp out Nl Ap E.
  destruct (pdf_exec no_short m n st input f xs N F) as ((St & _) & _).
  rewrite E in St. cbn [fst snd] in St.
  destruct St as [->|s html w Rd Pw W|s html w f1 Rd Tk W Rm|s html w f1 f2 c v Rd Tk W Rm Pg [rest Ev] Wv].
  - left. reflexivity.
  - left. apply (wr_other _ _ _ _ W). exact Ap.
  - left. destruct (gone m f Nl w f1 f' W Rm) as (_ & C & _). apply C. exact Ap.
  - right. rewrite (page_own m f tmp w f1 c eq_refl Wd W Pg) in Ev. apply taken_all in Tk. subst w. destruct Rd as ((b & Hb & Hd) & Hr).
    exists b, s, html, v, rest. split; [exact Hb|]. split; [exact Hd|].
    split; [exact (renders_of n s html Hr)|]. split; [apply (wr_here _ _ _ _ Wv)|exact Ev].
Qed.

(** C45: when the browser cannot open the page the temporary file stays. *)
Lemma pdf_leak st m f input b s html why :
  new_process m f -> present f (config_path st) = false ->
  contents f input = Some b -> decode b = Some s -> renders s html ->
  creatable f (cwd m ++ [lit "tmp.html"]) ->
  exists n xs f' p', exec xs f (start m (main n st (CParse input Pdf))) = (f', p') /\
    In (Fail why) xs /\ status p' = Some 1 /\
    contents f' (cwd m ++ [lit "tmp.html"]) = Some (encode html).
Proof.
  intros N Np Hb Hd [n Hr] C.
  destruct (runs_convert n st m f Ok input Pdf b s html (or_introl (conj eq_refl Np)) Hb Hd Hr) as (l & Ll & K).
  destruct (runs_write m f l (cwd m ++ [tmp_name]) html Ok (unused_here m f l N Ll) C
              (or_introl eq_refl)) as (f' & l' & W & _ & _ & R).
  pose (e := BrowserError (lit "Failed to open new tab.")).
  assert (R2 : runs_to m ([Ok; Ok] ++ ([Ok; Ok; Ok; Ok] ++ [Ok; Fail why]) ++ []) f l
                 (convert input Pdf html) f' l' (inr e)).
  { cbn [convert]. change ([Ok; Ok] ++ ([Ok; Ok; Ok; Ok] ++ [Ok; Fail why]) ++ [])
      with (([Ok; Ok] ++ [Ok; Ok; Ok; Ok] ++ [Ok; Fail why]) ++ []).
    apply (runs_to_bind m _ [] f l _ f' l' (inr e)); [|constructor].
    unfold from_html, try_browser at 1. eapply rt_do; [reflexivity|].
    unfold try_io at 1. eapply rt_do; [reflexivity|]. cbv iota beta zeta.
    apply (runs_try m [Ok; Ok; Ok; Ok] _ f l _ f' l' tt); [exact R|].
    change [Ok; Fail why] with ([Ok; Fail why] ++ []).
    apply (runs_to_bind m _ [] f' l' _ f' l' (inr e)); [|constructor].
    unfold open_file, try_io at 1. eapply rt_do; [reflexivity|].
    eapply rt_do; [reflexivity|]. constructor. }
  destruct (K _ f' l' (inr e) 1 R2 (runs_finish_err m f' l' e)) as (l2 & E).
  exists n. eexists _, _, _. split; [exact E|]. split; [cbn; auto 20|]. split; [reflexivity|].
  apply (wr_here _ _ _ _ W).
Qed.

(** ** initialize *)

Lemma mkdirs_names n : forall todo done f r f', do_mkdirs n done todo f = (r, f') ->
  data f' = data f /\
  (forall k q, resolve k f' q = resolve k f q) /\
  (forall q, names f' q = names f q \/ names f q = None /\ names f' q = Some NDir).
Proof.
  induction n as [|n IH]; intros [|d todo] done f r f' E; cbn [do_mkdirs] in E.
  - injection E as _ <-. auto.
  - injection E as _ <-. auto.
  - injection E as _ <-. auto.
  - destruct (names f (done ++ [d])) as [[i|t|]|] eqn:Nd.
    + injection E as _ <-. auto.
    + injection E as _ <-. auto.
    + apply (IH _ _ _ _ _ E).
    + destruct (IH _ _ _ _ _ E) as (D & Rs & Nm). split; [exact D|]. split.
      * intros k q. rewrite Rs. apply resolve_set_name; [rewrite Nd|]; intros t; discriminate.
      * intros q. specialize (Nm q). cbn [names set_name] in Nm.
        destruct (path_eqb q (done ++ [d])) eqn:Q; [|exact Nm].
        apply path_eqb_eq in Q. subst q. rewrite Nd.
        destruct Nm as [Nm|[Nm _]]; [right; auto|discriminate].
Qed.

(** [f'] is [f] with more directories. *)
Definition more_dirs (f f' : fs) : Prop :=
  data f' = data f /\
  (forall k q, resolve k f' q = resolve k f q) /\
  (forall q, names f' q = names f q \/ names f q = None /\ names f' q = Some NDir).

Lemma more_dirs_refl f : more_dirs f f.
Proof. repeat split; auto. Qed.

Lemma more_dirs_inode f f' q : more_dirs f f' -> inode_of f' q = inode_of f q.
Proof.
  intros (D & Rs & Nm). unfold inode_of. rewrite Rs.
  destruct (resolve max_links f q) as [r|]; [|reflexivity].
  destruct (Nm r) as [->|[-> ->]]; reflexivity.
Qed.

Lemma more_dirs_contents f f' q : more_dirs f f' -> contents f' q = contents f q.
Proof.
  intros M. unfold contents. rewrite (more_dirs_inode f f' q M). destruct M as [-> _]. reflexivity.
Qed.

Lemma more_dirs_aliases f f' p q : more_dirs f f' -> aliases f' p q -> aliases f p q.
Proof.
  intros M [E|(i & E1 & E2)].
  - left. destruct M as (_ & Rs & _). rewrite !Rs in E. exact E.
  - right. exists i. rewrite !(more_dirs_inode f f' _ M) in *. auto.
Qed.

Lemma more_dirs_unused m f f' l : more_dirs f f' -> unused m f l -> unused m f' l.
Proof.
  intros (_ & _ & Nm) U p k K. destruct (Nm p) as [->|[_ ->]]; [apply U; exact K|discriminate].
Qed.

(** The stages of [initialize]. *)
Definition init_stage (f : fs) (cfg : path) (f' : fs) : Prop :=
  more_dirs f f' \/
  exists f1 w, more_dirs f f1 /\ prefix w (encode default_toml) /\ written f1 cfg w f'.

Definition init_result P (f : fs) (cfg : path) (r : result unit) (f' : fs) : Prop :=
  match r with
  | inl _ => exists f1 w, more_dirs f f1 /\ taken P (encode default_toml) w /\ written f1 cfg w f'
  | inr _ => init_stage f cfg f'
  end.

Lemma safe_initialize P m st f l : unused m f l ->
  safe P m (fun f' l' => init_stage f (config_path st) f' /\ unused m f' l')
    (fun r f' _ => init_result P f (config_path st) r f')
    (initialize st) f l.
Proof.
  intros U. unfold initialize.
  assert (I0 : forall l', fresh l' = fresh l -> init_stage f (config_path st) f /\ unused m f l').
  { intros l' E. split; [left; apply more_dirs_refl|apply (unused_fresh m f l); assumption]. }
  apply safe_pure; [apply pure_exists|apply I0; reflexivity|].
  intros [|] l1 E1; [split; [apply I0; exact E1|left; apply more_dirs_refl]|].
  unfold try_io. split; [apply I0; exact E1|]. intros x _. cbv zeta.
  assert (Em : exists r f1, answer m (Mkdirs (parent (config_path st))) x f l1 = (r, (f1, l1)) /\
                            more_dirs f f1).
  { destruct x as [|e|k|]; cbn [answer].
    - destruct (do_mkdirs (length (parent (config_path st))) [] (parent (config_path st)) f) as [r f1] eqn:E.
      exists r, f1. split; [reflexivity|]. apply (mkdirs_names _ _ _ _ _ _ E).
    - exists (inr e), f. split; [reflexivity|apply more_dirs_refl].
    - destruct (do_mkdirs k [] (parent (config_path st)) f) as [r f1] eqn:E.
      exists r, f1. split; [reflexivity|]. apply (mkdirs_names _ _ _ _ _ _ E).
    - destruct (do_mkdirs (length (parent (config_path st))) [] (parent (config_path st)) f) as [r f1] eqn:E.
      exists r, f1. split; [reflexivity|]. apply (mkdirs_names _ _ _ _ _ _ E). }
  destruct Em as (r & f1 & -> & Md). cbn [fst snd].
  assert (U1 : unused m f1 l1).
  { apply (more_dirs_unused m f f1 l1 Md). apply (unused_fresh m f l); assumption. }
  destruct r as [[]|e]; [|split; [split; [left; exact Md|exact U1]|left; exact Md]].
  apply (safe_try P m _ (fun r f' l' => unused m f' l' /\ init_result P f (config_path st) r f')).
  - apply safe_write_to_file.
    + exact U1.
    + intros l' U' _. split; [left; exact Md|exact U'].
    + intros w f' l' Pw W U' _. split; [right; exists f1, w; auto|exact U'].
    + intros w f' l' Tk W U' _. split; [exact U'|]. exists f1, w. auto.
    + intros e f' l' [->|W] U' _; (split; [exact U'|]); [left; exact Md|].
      right. exists f1, []. auto using prefix_nil.
  - intros [] f' l' I' [_ R]. split; [exact I'|exact R].
  - intros e f' l' I' [_ R]. exact R.
Qed.

(** C47: a configuration that is there. *)
Lemma init_present n st m f x xs f' p' :
  present f (config_path st) = true -> not_failing x ->
  exec (x :: xs) f (start m (main n st CInitialize)) = (f', p') ->
  f' = f /\ forall k, status p' = Some k -> k = 1 /\
    logged (here p') = [error_record (ConfigAlreadyExistsError (display (config_path st)))].
Proof.
  intros Pr Nf. unfold start, main. cbn [run]. unfold initialize. cbn [pbind].
  cbn [exec]. unfold step. cbn [code mach here].
  assert (E : answer m (Exists (config_path st)) x f no_tabs = (true, (f, no_tabs))).
  { destruct x; [..|]; cbn [answer]; rewrite ?Pr; try reflexivity. destruct Nf. }
  rewrite E. cbn [fst snd pbind]. destruct xs as [|y xs]; cbn [exec].
  - intros K. injection K as <- <-. split; [reflexivity|]. discriminate.
  - unfold say, step. cbn [code mach here answer fst snd].
    rewrite (exec_done xs f _ 1) by reflexivity. intros K. injection K as <- <-.
    split; [reflexivity|]. intros k K. injection K as <-. split; reflexivity.
Qed.

(** C47: in general. *)
Lemma init_frame n st m f xs f' p' :
  new_process m f ->
  exec xs f (start m (main n st CInitialize)) = (f', p') ->
  (forall q, ~ aliases f (config_path st) q -> contents f' q = contents f q) /\
  (forall q, resolve max_links f (config_path st) <> Some q ->
     names f' q = names f q \/ names f q = None /\ names f' q = Some NDir).
Proof.
  intros N E.
  destruct (main_exec anything m (fun f' l' => init_stage f (config_path st) f' /\ unused m f' l')
    (fun r f' => init_result anything f (config_path st) r f') n st CInitialize f xs) as ((St & _) & _).
  - intros g l r H. exact H.
  - apply safe_initialize. apply unused_start. exact N.
  - apply anything_all.
  - rewrite E in St. cbn [fst snd] in St. destruct St as [Md|(f1 & w & Md & Pw & W)].
    + split; [intros q _; apply more_dirs_contents; exact Md|]. intros q _. apply Md.
    + split.
      * intros q A. rewrite (wr_other _ _ _ _ W), (more_dirs_contents f f1 q Md); [reflexivity|].
        intros A1. apply A. apply (more_dirs_aliases f f1 _ _ Md A1).
      * intros q A. rewrite (wr_names _ _ _ _ W); [apply Md|]. destruct Md as (_ & Rs & _).
        rewrite Rs. exact A.
Qed.

Lemma init_success n st m f xs f' p' :
  new_process m f -> Forall no_short xs ->
  exec xs f (start m (main n st CInitialize)) = (f', p') -> status p' = Some 0 ->
  contents f' (config_path st) = Some (encode default_toml).
Proof.
  intros N F E S0.
  destruct (main_exec no_short m (fun f' l' => init_stage f (config_path st) f' /\ unused m f' l')
    (fun r f' => init_result no_short f (config_path st) r f') n st CInitialize f xs) as (_ & R & _).
  - intros g l r H. exact H.
  - apply safe_initialize. apply unused_start. exact N.
  - exact F.
  - rewrite E in R. cbn [fst snd] in R. destruct (R S0) as (f1 & w & Md & Tk & W).
    apply taken_all in Tk. subst w. apply (wr_here _ _ _ _ W).
Qed.

Lemma lookup_env_none k e : (forall name v, In (name, v) e -> env_key name = None) ->
  forall t, lookup k (t ++ env_table e) = lookup k t.
Proof.
  intros H. assert (E : env_table e = []).
  { induction e as [|[name v] e IH]; [reflexivity|]. cbn [env_table flat_map fst].
    rewrite (H name v) by (left; reflexivity). cbn [app]. apply IH. intros n' v' I.
    apply (H n' v'). right. exact I. }
  rewrite E. intros t. rewrite app_nil_r. reflexivity.
Qed.

Lemma parse_default tm e : tm default_toml = inl default_table ->
  (forall name v, In (name, v) e -> env_key name = None) ->
  parse_from_str tm e default_toml = inl default_config.
Proof.
  intros T H. unfold parse_from_str. rewrite T. unfold field.
  rewrite !(lookup_env_none _ e H). vm_compute. reflexivity.
Qed.

Lemma decode_default : decode (encode default_toml) = Some default_toml.
Proof. vm_compute. reflexivity. Qed.

(** C47, C48: what [load_config] returns. *)
Lemma load_exec st m f xs f' p' r :
  exec xs f (start m (load_config st)) = (f', p') -> code p' = Done r ->
  f' = f /\
  match r with
  | inl c => c = default_config \/
             exists b s, contents f (config_path st) = Some b /\ decode b = Some s /\
                         parse_from_str (toml st) (environ st) s = inl c
  | inr (IoError _) => present f (config_path st) = true
  | inr (ConfigReadError _) => exists b s e, contents f (config_path st) = Some b /\ decode b = Some s /\
                         parse_from_str (toml st) (environ st) s = inr e
  | inr _ => False
  end.
Proof.
  intros E D.
  assert (Sf : safe anything m (fun f' _ => f' = f) (fun (r : result config) f' _ =>
     match r with
  | inl c => c = default_config \/
             exists b s, contents f (config_path st) = Some b /\ decode b = Some s /\
                         parse_from_str (toml st) (environ st) s = inl c
  | inr (IoError _) => present f (config_path st) = true
  | inr (ConfigReadError _) => exists b s e, contents f (config_path st) = Some b /\ decode b = Some s /\
                         parse_from_str (toml st) (environ st) s = inr e
  | inr _ => False
  end) (load_config st) f no_tabs).
  { unfold load_config. split; [reflexivity|]. intros x _. cbv zeta.
    assert (Ea : exists t, answer m (Exists (config_path st)) x f no_tabs = (t, (f, no_tabs)) /\
                           (t = true -> present f (config_path st) = true)).
    { destruct x; cbn [answer]; eexists; (split; [reflexivity|]); auto; discriminate. }
    destruct Ea as ([|] & -> & T); cbn [fst snd].
    - apply (safe_try anything m _ (fun r f' _ => f' = f /\
        match r with
        | inl s => exists b, contents f (config_path st) = Some b /\ decode b = Some s
        | inr e => exists t, e = IoError t end)).
      + apply safe_read; [reflexivity|intros; auto|].
        intros e l' _. split; [reflexivity|]. exists e. reflexivity.
      + intros s f1 l1 _ [-> (b & Hb & Hd)].
        destruct (parse_from_str (toml st) (environ st) s) as [c|e] eqn:Pe; (split; [reflexivity|]).
        * right. exists b, s. auto.
        * exists b, s, e. auto.
      + intros e f1 l1 _ [_ (t & ->)]. apply T. reflexivity.
    - split; [reflexivity|]. left. reflexivity. }
  destruct (safe_exec anything m _ _ xs f (start m (load_config st)) eq_refl (anything_all xs) Sf) as [_ S'].
  rewrite E in S'. cbn [fst snd] in S'. rewrite D in S'. exact S'.
Qed.

(** Without a configuration, or when [exists] cannot tell. *)
Lemma load_default st m f xs f' p' r :
  present f (config_path st) = false ->
  exec xs f (start m (load_config st)) = (f', p') -> code p' = Done r -> r = inl default_config.
Proof.
  intros Np E D. destruct xs as [|x xs]; [injection E as _ <-; discriminate|].
  unfold start, load_config in E. rewrite exec_do in E.
  assert (Ea : answer m (Exists (config_path st)) x f no_tabs = (false, (f, no_tabs))).
  { destruct x; cbn [answer]; rewrite ?Np; reflexivity. }
  rewrite Ea in E. cbn [fst snd] in E. rewrite (exec_done (A := result config) xs f _ (inl default_config)) in E by reflexivity.
  injection E as _ <-. cbn [code] in D. congruence.
Qed.

Lemma some_inj {A} (a b : A) : Some a = Some b -> a = b.
Proof. congruence. Qed.

Lemma load_initialized st m f xs f' p' r :
  contents f (config_path st) = Some (encode default_toml) ->
  toml st default_toml = inl default_table ->
  (forall name v, In (name, v) (environ st) -> env_key name = None) ->
  exec xs f (start m (load_config st)) = (f', p') -> code p' = Done r ->
  r = inl default_config \/ exists t, r = inr (IoError t).
Proof.
  intros C T H E D. destruct (load_exec st m f xs f' p' r E D) as [_ R].
  destruct r as [c|[t|t|t|t|t|t|t|t|t|t]]; try (destruct R; fail).
  - left. destruct R as [->|(b & s & Hb & Hd & Pe)]; [reflexivity|].
    rewrite C in Hb. apply some_inj in Hb. subst b. rewrite decode_default in Hd. apply some_inj in Hd. subst s.
    rewrite (parse_default (toml st) (environ st) T H) in Pe. congruence.
  - right. eauto.
  - destruct R as (b & s & e & Hb & Hd & Pe).
    rewrite C in Hb. apply some_inj in Hb. subst b. rewrite decode_default in Hd. apply some_inj in Hd. subst s.
    rewrite (parse_default (toml st) (environ st) T H) in Pe. discriminate.
Qed.

(** ** A configuration that cannot be used (C48) *)

(** The configuration cannot be read, decoded or parsed. *)
Definition unusable (st : settings) (f : fs) : Prop :=
  forall b s c, contents f (config_path st) = Some b -> decode b = Some s ->
    parse_from_str (toml st) (environ st) s <> inl c.

Lemma exists_true m f l p x : present f p = true -> not_failing x ->
  answer m (Exists p) x f l = (true, (f, l)).
Proof. intros Pr Nf. destruct x; cbn [answer]; rewrite ?Pr; try reflexivity. destruct Nf. Qed.

Lemma bad_config n st m f input o x xs f' p' :
  present f (config_path st) = true -> not_failing x ->
  (unusable st f \/ exists y e xs', xs = y :: Fail e :: xs') ->
  exec (x :: xs) f (start m (main n st (CParse input o))) = (f', p') ->
  f' = f /\ forall k, status p' = Some k -> k = 1 /\
    exists e pre, logged (here p') = pre ++ [error_record e].
Proof.
  intros Pr Nf Bad E. unfold start, main in E. cbn [run] in E. unfold load_config, try in E.
  cbn [pbind exec] in E. unfold step in E. cbn [code mach here] in E.
  rewrite (exists_true m f no_tabs _ x Pr Nf) in E. cbn [fst snd] in E.
  unfold read_to_string, say in E. cbn [pbind] in E.
  destruct xs as [|y xs]; [injection E as <- <-; split; [reflexivity|discriminate]|].
  rewrite exec_do in E. cbn [answer fst snd pbind] in E.
  destruct xs as [|z xs]; [injection E as <- <-; split; [reflexivity|discriminate]|].
  rewrite exec_do in E.
  match type of E with context [answer m (Read ?q) z f ?l] =>
    assert (Ea : exists r, answer m (Read q) z f l = (r, (f, l)) /\
      forall b, r = inl b -> contents f q = Some b /\ not_failing z) end.
  { destruct z; cbn [answer]; try (destruct (contents f (config_path st)) as [b0|] eqn:C);
      eexists; (split; [reflexivity|]); intros b K; try discriminate; injection K as <-; split; auto; exact Logic.I. }
  destruct Ea as (r & Ea & Hr). rewrite Ea in E. cbn [fst snd] in E.
  destruct r as [b|e].
  - destruct (Hr b eq_refl) as [Hb Nz].
    destruct Bad as [Un|(y' & e & xs' & K)]; [|injection K as _ -> _; destruct Nz].
    destruct (decode b) as [s|] eqn:D.
    + cbn [pbind] in E.
      destruct xs as [|w xs]; [injection E as <- <-; split; [reflexivity|discriminate]|].
      rewrite exec_do in E. cbn [answer fst snd pbind] in E. specialize (Un b s).
      destruct (parse_from_str (toml st) (environ st) s) as [c|e]; [destruct (Un c Hb D eq_refl)|].
      cbn [pbind] in E. unfold say in E.
      destruct xs as [|v xs]; [injection E as <- <-; split; [reflexivity|discriminate]|].
      rewrite exec_do in E. cbn [answer fst snd pbind] in E.
      rewrite (exec_done xs f _ 1) in E by reflexivity. apply pair_equal_spec in E; destruct E as [<- <-].
      split; [reflexivity|]. intros k K. apply some_inj in K; subst k. split; [reflexivity|].
      eexists _, _. cbn [here logged]. unfold error_record. reflexivity.
    + cbn [pbind] in E.
      destruct xs as [|w xs]; [injection E as <- <-; split; [reflexivity|discriminate]|].
      rewrite exec_do in E. cbn [answer fst snd pbind] in E. unfold say in E.
      destruct xs as [|v xs]; [injection E as <- <-; split; [reflexivity|discriminate]|].
      rewrite exec_do in E. cbn [answer fst snd pbind] in E.
      rewrite (exec_done xs f _ 1) in E by reflexivity. apply pair_equal_spec in E; destruct E as [<- <-].
      split; [reflexivity|]. intros k K. apply some_inj in K; subst k. split; [reflexivity|].
      eexists _, _. cbn [here logged]. unfold error_record. reflexivity.
  - cbn [pbind] in E.
    destruct xs as [|w xs]; [injection E as <- <-; split; [reflexivity|discriminate]|].
    rewrite exec_do in E. cbn [answer fst snd pbind] in E. unfold say in E.
    destruct xs as [|v xs]; [injection E as <- <-; split; [reflexivity|discriminate]|].
    rewrite exec_do in E. cbn [answer fst snd pbind] in E.
    rewrite (exec_done xs f _ 1) in E by reflexivity. apply pair_equal_spec in E; destruct E as [<- <-].
    split; [reflexivity|]. intros k K. apply some_inj in K; subst k. split; [reflexivity|].
      eexists _, _. cbn [here logged]. unfold error_record. reflexivity.
Qed.

(** C48: when [exists] fails the configuration is not used, whatever it holds. *)
Lemma unusable_ignored st m f input b s html why :
  new_process m f ->
  contents f input = Some b -> decode b = Some s -> renders s html ->
  creatable f (set_extension input (lit "html")) ->
  exists n xs f' p', exec (Fail why :: xs) f (start m (main n st (CParse input Html))) = (f', p') /\
    status p' = Some 0 /\
    contents f' (set_extension input (lit "html")) = Some (encode html).
Proof.
  intros N Hb Hd [n Hr] C.
  assert (Nf : not_found (Fail why) f (config_path st)) by (right; eauto).
  destruct (runs_convert n st m f (Fail why) input Html b s html Nf Hb Hd Hr) as (l & Ll & K).
  destruct (runs_write m f l (out_path input Html) html Ok (unused_here m f l N Ll) C
              (or_introl eq_refl)) as (f' & l' & W & _ & _ & R).
  destruct (K _ f' l' (inl tt) 0 R (runs_finish_ok m f' l' tt)) as (l2 & E).
  exists n. eexists _, _, _. split; [exact E|]. split; [reflexivity|]. apply (wr_here _ _ _ _ W).
Qed.

(** C47: when [exists] fails a configuration is overwritten. *)
Lemma init_overwrites n st m f why :
  new_process m f -> creatable f (config_path st) ->
  fst (do_mkdirs (length (parent (config_path st))) [] (parent (config_path st)) f) = inl tt ->
  snd (do_mkdirs (length (parent (config_path st))) [] (parent (config_path st)) f) = f ->
  exists f' p', exec (Fail why :: Ok :: [Ok; Ok; Ok; Ok]) f (start m (main n st CInitialize)) = (f', p') /\
    status p' = Some 0 /\ contents f' (config_path st) = Some (encode default_toml).
Proof.
  intros N C M1 M2.
  destruct (runs_write m f no_tabs (config_path st) default_toml Ok (unused_start m f N) C
              (or_introl eq_refl)) as (f' & l' & W & _ & _ & R).
  exists f', {| mach := m; here := l'; code := Done 0 |}.
  split; [|split; [reflexivity|apply (wr_here _ _ _ _ W)]].
  apply runs_to_exec. change (Fail why :: Ok :: [Ok; Ok; Ok; Ok]) with ((Fail why :: Ok :: [Ok; Ok; Ok; Ok] ++ []) ++ []).
  unfold main. apply (runs_to_bind m _ [] f no_tabs _ f' l' (inl tt)); [|constructor].
  cbn [run]. unfold initialize. eapply rt_do; [reflexivity|]. cbv iota.
  unfold try_io. eapply rt_do; [cbn [answer]; cbv zeta; rewrite M1, M2; reflexivity|]. cbv iota beta.
  apply (runs_try m [Ok; Ok; Ok; Ok] [] f no_tabs _ f' l' tt); [exact R|constructor].
Qed.

(** ** The values of the configuration are not used (C50) *)

Lemma config_ignored n st st' m f xs input o b s c c' :
  config_path st' = config_path st ->
  contents f (config_path st) = Some b -> decode b = Some s ->
  parse_from_str (toml st) (environ st) s = inl c ->
  parse_from_str (toml st') (environ st') s = inl c' ->
  let e := exec xs f (start m (main n st (CParse input o))) in
  let e' := exec xs f (start m (main n st' (CParse input o))) in
  fst e' = fst e /\ here (snd e') = here (snd e) /\ status (snd e') = status (snd e).
Proof.
  intros Ec Hb Hd Pc Pc' e e'. subst e e'. unfold start, main. cbn [run]. unfold load_config, try.
  cbn [pbind]. rewrite Ec.
  destruct xs as [|x xs]; [repeat split|]. rewrite !exec_do.
  assert (Ea : exists t, answer m (Exists (config_path st)) x f no_tabs = (t, (f, no_tabs)))
    by (destruct x; cbn [answer]; eauto).
  destruct Ea as [t ->]. cbn [fst snd]. destruct t; [|repeat split].
  unfold read_to_string, say. cbn [pbind].
  destruct xs as [|y xs]; [repeat split|]. rewrite !exec_do. cbn [answer fst snd pbind].
  destruct xs as [|z xs]; [repeat split|]. rewrite !exec_do.
  match goal with |- context [answer m (Read ?q) z f ?l] =>
    assert (Er : answer m (Read q) z f l = (inl b, (f, l)) \/ exists w, answer m (Read q) z f l = (inr w, (f, l)))
      by (destruct z; cbn [answer]; rewrite ?Hb; eauto) end.
  destruct Er as [->|[w ->]]; cbn [fst snd].
  - rewrite Hd. cbn [pbind]. destruct xs as [|u xs]; [repeat split|]. rewrite !exec_do.
    cbn [answer fst snd pbind]. rewrite Pc, Pc'. cbn [pbind]. repeat split.
  - cbn [pbind]. destruct xs as [|u xs]; [repeat split|]. rewrite !exec_do.
    cbn [answer fst snd pbind]. repeat split.
Qed.

(** ** Panics and endless loops (C51) *)

Lemma renderer_panics st m f input o b s :
  present f (config_path st) = false ->
  contents f input = Some b -> decode b = Some s -> crashes s ->
  exists n xs p', exec xs f (start m (main n st (CParse input o))) = (f, p') /\
    status p' = Some 101 /\ forall r, In r (logged (here p')) -> rec_level r <> LError.
Proof.
  intros Np Hb Hd [n Hr].
  exists n, [Ok; Ok; Ok; Ok; Ok]. eexists. split.
  - unfold start, main. cbn [run]. unfold load_config, try. cbn [pbind].
    rewrite exec_do. cbn [answer]. rewrite Np. cbn [fst snd pbind].
    unfold read_to_string, say. cbn [pbind]. rewrite exec_do. cbn [answer fst snd pbind].
    rewrite exec_do. cbn [answer]. rewrite Hb. cbn [fst snd]. rewrite Hd. cbn [pbind].
    rewrite exec_do. cbn [answer fst snd pbind]. rewrite exec_do. cbn [answer fst snd pbind].
    unfold rendering. rewrite Hr. reflexivity.
  - split; [reflexivity|]. cbn [here logged]. intros r.
    repeat (rewrite in_app_iff); cbn [In]. intros R.
    repeat match goal with H : _ \/ _ |- _ => destruct H end; subst; try discriminate; contradiction.
Qed.

Lemma exec_spin {A} xs f (p : proc A) : code p = Spin -> exec xs f p = (f, p).
Proof.
  intros E. revert f. induction xs as [|x xs IH]; intros f; [reflexivity|].
  cbn [exec]. unfold step. rewrite E. apply IH.
Qed.

Lemma renderer_hangs st m f input o b s n k :
  present f (config_path st) = false ->
  contents f input = Some b -> decode b = Some s -> runs_forever s ->
  status (snd (exec (repeat Ok k) f (start m (main n st (CParse input o))))) = None.
Proof.
  intros Np Hb Hd Hr. specialize (Hr n).
  unfold start, main. cbn [run]. unfold load_config, try. cbn [pbind].
  destruct k as [|k]; [reflexivity|]. cbn [repeat].
  rewrite exec_do. cbn [answer]. rewrite Np. cbn [fst snd pbind].
  unfold read_to_string, say. cbn [pbind].
  destruct k as [|k]; [reflexivity|]. cbn [repeat]. rewrite exec_do. cbn [answer fst snd pbind].
  destruct k as [|k]; [reflexivity|]. cbn [repeat].
  rewrite exec_do. cbn [answer]. rewrite Hb. cbn [fst snd]. rewrite Hd. cbn [pbind].
  destruct k as [|k]; [reflexivity|]. cbn [repeat].
  rewrite exec_do. cbn [answer fst snd pbind].
  destruct k as [|k]; [reflexivity|]. cbn [repeat].
  rewrite exec_do. cbn [answer fst snd pbind].
  unfold rendering. rewrite Hr. cbn [pbind]. rewrite exec_spin by reflexivity. reflexivity.
Qed.
