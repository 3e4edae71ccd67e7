(** * CliProps: the properties of the command line program, ready to be stated. *)
From Coq Require Import Ascii String Permutation.
From Verif Require Import Strings StringsFacts Token Iter Lexer Parser Utf8 System Config Cli
  SpecCli SystemFacts CliFacts CliMain CliRuns ConfigFacts Concurrent LexMono.
Open Scope list_scope.

(** ** A small world for examples *)

Definition sample_machine (id : nat) : machine :=
  {| pid := id; cwd := [lit "w"]; pdf_of := fun b => lit "%PDF" ++ b |}.
Definition sample_settings : settings :=
  {| toml := small_toml; environ := []; config_dir := Some [lit "c"]; work_dir := [lit "w"] |}.
Definition sample_disk (more : list (path * node)) (stored : list (inode * bytes)) : fs :=
  disk ([([], NDir); ([lit "w"], NDir); ([lit "c"], NDir); ([lit "w"; lit "a.md"], NFile (0, 1));
         ([lit "w"; lit "b.md"], NFile (0, 2))] ++ more)
       ([((0, 1), lit "# A"); ((0, 2), lit "# B")] ++ stored).
Definition oks (n : nat) : list choice := repeat Ok n.

Lemma disk_new files stored m :
  forallb (fun e => match snd e with NFile i => negb (fst i =? pid m) | _ => true end) files = true ->
  new_process m (disk files stored).
Proof.
  intros H p k. cbn [names disk].
  destruct (List.find (fun e => path_eqb (fst e) p) files) as [[q nd]|] eqn:E; [|discriminate].
  apply find_some in E. destruct E as [I _]. rewrite forallb_forall in H. specialize (H _ I).
  cbn [snd] in H. intros K. injection K as ->. cbn [fst] in H. rewrite Nat.eqb_refl in H. discriminate.
Qed.

(** ** C41, C42 *)

Lemma html_short st m f input out b s html k :
  new_process m f -> present f (config_path st) = false ->
  contents f input = Some b -> decode b = Some s -> renders s html ->
  replaced (lit "html") input out -> creatable f out ->
  exists n xs f' p', exec xs f (start m (main n st (CParse input Html))) = (f', p') /\
    status p' = Some 0 /\ contents f' out = Some (firstn k (encode html)).
Proof.
  intros N Np Hb Hd Hr R C. apply replaced_functional in R. subst out.
  apply (short_write st m f input b s html k); assumption.
Qed.

Lemma html_dies st m f input out b s html :
  new_process m f -> present f (config_path st) = false ->
  contents f input = Some b -> decode b = Some s -> renders s html ->
  replaced (lit "html") input out -> creatable f out ->
  exists n xs f' p', exec xs f (start m (main n st (CParse input Html))) = (f', p') /\
    Forall (eq Ok) xs /\ status p' = None /\ contents f' out = Some [].
Proof.
  intros N Np Hb Hd Hr R C. apply replaced_functional in R. subst out.
  apply (crash_empty st m f input b s html); assumption.
Qed.

Lemma pdf_whole n st m f xs input out f' p' :
  new_process m f -> Forall no_short xs -> web_dir (cwd m) -> replaced (lit "pdf") input out ->
  (forall t, names f (cwd m ++ [lit "tmp.html"]) <> Some (NLink t)) ->
  ~ aliases f (cwd m ++ [lit "tmp.html"]) out ->
  exec xs f (start m (main n st (CParse input Pdf))) = (f', p') -> status p' = Some 0 ->
  exists b s html, contents f input = Some b /\ decode b = Some s /\ renders s html /\
    contents f' out = Some (pdf_of m (encode html)).
Proof.
  intros N F Wd R Nl Ap E S0. apply replaced_functional in R. subst out.
  destruct (pdf_written n st m f xs input f' p' N F Wd Nl Ap E S0) as (b & s & html & H1 & H2 & H3 & H4).
  exists b, s, html. auto.
Qed.

Lemma pdf_dies n st m f xs input out f' p' :
  new_process m f -> Forall no_short xs -> web_dir (cwd m) -> replaced (lit "pdf") input out ->
  (forall t, names f (cwd m ++ [lit "tmp.html"]) <> Some (NLink t)) ->
  ~ aliases f (cwd m ++ [lit "tmp.html"]) out ->
  exec xs f (start m (main n st (CParse input Pdf))) = (f', p') ->
  contents f' out = contents f out \/
  exists b s html v rest, contents f input = Some b /\ decode b = Some s /\ renders s html /\
    contents f' out = Some v /\ pdf_of m (encode html) = v ++ rest.
Proof.
  intros N F Wd R Nl Ap E. apply replaced_functional in R. subst out.
  apply (pdf_crash n st m f xs input f' p' N F Wd Nl Ap E).
Qed.

(** ** C43 *)

Lemma html_keeps n st m f xs input out f' p' :
  new_process m f -> replaced (lit "html") input out -> ~ aliases f out input ->
  exec xs f (start m (main n st (CParse input Html))) = (f', p') ->
  contents f' input = contents f input.
Proof.
  intros N R A E. apply replaced_functional in R. subst out.
  apply (html_input n st m f xs input input f' p' N E A).
Qed.

Lemma pdf_keeps n st m f xs input out f' p' :
  new_process m f -> replaced (lit "pdf") input out ->
  (forall t, names f (cwd m ++ [lit "tmp.html"]) <> Some (NLink t)) ->
  ~ aliases f (cwd m ++ [lit "tmp.html"]) out ->
  ~ aliases f out input -> ~ aliases f (cwd m ++ [lit "tmp.html"]) input ->
  exec xs f (start m (main n st (CParse input Pdf))) = (f', p') ->
  contents f' input = contents f input.
Proof.
  intros N R Nl Ap A1 A2 E. apply replaced_functional in R. subst out.
  apply (pdf_frame n st m f xs input f' p' N Nl Ap E input A2 A1).
Qed.

Lemma tmp_input_removed n st m f xs f' p' :
  new_process m f -> Forall no_short xs ->
  let input := cwd m ++ [lit "tmp.html"] in
  (forall t, names f input <> Some (NLink t)) ->
  ~ aliases f input (cwd m ++ [lit "tmp.pdf"]) ->
  exec xs f (start m (main n st (CParse input Pdf))) = (f', p') -> status p' = Some 0 ->
  contents f input <> None /\ names f' input = None.
Proof.
  intros N F input Nl Ap E S0.
  assert (O : set_extension input (lit "pdf") = cwd m ++ [lit "tmp.pdf"]).
  { unfold input. rewrite set_extension_at. reflexivity. }
  destruct (pdf_shown n st m f xs input f' p' N F Nl) as (b & s & html & f1 & c & Hb & _ & _ & _ & _ & _ & Nt & _); auto.
  - rewrite O. exact Ap.
  - split; [congruence|exact Nt].
Qed.

Lemma input_overwritten : exists n st m f xs input f' p',
  new_process m f /\ exec xs f (start m (main n st (CParse input Html))) = (f', p') /\
  status p' = Some 0 /\ contents f' input <> contents f input.
Proof.
  pose (f := sample_disk [([lit "w"; lit "a.html"], NFile (0, 3))] [((0, 3), lit "# C")]).
  pose (r := exec (oks 9) f (start (sample_machine 1) (main 100 sample_settings
              (CParse [lit "w"; lit "a.html"] Html)))).
  exists 100, sample_settings, (sample_machine 1), f, (oks 9), [lit "w"; lit "a.html"], (fst r), (snd r).
  split; [apply disk_new; reflexivity|]. split; [apply surjective_pairing|].
  split; [vm_compute; reflexivity|]. vm_compute. discriminate.
Qed.

(** ** C44 *)

Lemma collide ext dir stem e e' : stem <> [] -> ~ In c_dot e -> ~ In c_dot e' -> e <> e' ->
  exists p q out, p = dir ++ [stem ++ lit "." ++ e] /\ q = dir ++ [stem ++ lit "." ++ e'] /\ p <> q /\
    replaced ext p out /\ replaced ext q out.
Proof.
  intros Ne N N' D. eexists _, _, (dir ++ [stem ++ lit "." ++ ext]).
  split; [reflexivity|]. split; [reflexivity|]. split; [|split; constructor; assumption].
  intros K. apply app_inj_tail in K. destruct K as [_ K]. apply app_inv_head in K.
  apply app_inv_head in K. exact (D K).
Qed.

Lemma stem_of_stem p dir stem : stem_of p dir stem ->
  exists n, p = dir ++ [n] /\ file_stem n = stem.
Proof.
  intros [d s e Ne Nd|d n Nd|d n Nd]; eexists; (split; [reflexivity|]).
  - apply file_stem_ext; assumption.
  - apply file_stem_none; assumption.
  - apply file_stem_hidden; assumption.
Qed.

Lemma stem_of_total p : p <> [] -> exists dir stem, stem_of p dir stem.
Proof.
  intros Ne. destruct (exists_last Ne) as (d & n & ->). destruct (name_cases n) as [Nd|(stem & e & -> & Nd)].
  - exists d, n. constructor. exact Nd.
  - destruct stem as [|c stem].
    + exists d, (lit "." ++ e). exact (stem_hidden d e Nd).
    + exists d, (c :: stem). constructor; [discriminate|exact Nd].
Qed.

Lemma outputs_same_iff ext p q a b : p <> [] -> q <> [] ->
  replaced ext p a -> replaced ext q b ->
  (a = b <-> exists dir stem, stem_of p dir stem /\ stem_of q dir stem).
Proof.
  intros Np Nq Ra Rb. apply replaced_functional in Ra. apply replaced_functional in Rb. subst a b.
  destruct (stem_of_total p Np) as (dp & sp & Hp). destruct (stem_of_total q Nq) as (dq & sq & Hq).
  assert (F : forall p' d s, stem_of p' d s -> set_extension p' ext = d ++ [s ++ lit "." ++ ext]).
  { intros p' d s H. destruct (stem_of_stem p' d s H) as (n & -> & <-). apply set_extension_at. }
  split.
  - rewrite (F p dp sp Hp), (F q dq sq Hq). intros K. apply app_inj_tail in K. destruct K as [<- K].
    apply app_inv_tail in K. subst sq. eauto.
  - intros (d & s & H1 & H2). rewrite (F p d s H1), (F q d s H2). reflexivity.
Qed.

Lemma same_extension_apart ext e p q a b :
  has_extension e p -> has_extension e q -> p <> q ->
  replaced ext p a -> replaced ext q b -> a <> b.
Proof.
  intros [d s Ne Nd] [d' s' Ne' Nd'] D Ra Rb K. apply D.
  apply replaced_functional in Ra. apply replaced_functional in Rb. subst a b.
  rewrite !set_extension_at, !file_stem_ext in K by assumption.
  apply app_inj_tail in K. destruct K as [<- K]. apply app_inv_tail in K. subst s'. reflexivity.
Qed.

(** ** C45 *)

Lemma pdf_only n st m f xs input out f' p' :
  new_process m f -> Forall no_short xs -> replaced (lit "pdf") input out ->
  names f (cwd m ++ [lit "tmp.html"]) = None ->
  ~ aliases f (cwd m ++ [lit "tmp.html"]) out ->
  exec xs f (start m (main n st (CParse input Pdf))) = (f', p') -> status p' = Some 0 ->
  only_changes f out f'.
Proof.
  intros N F R Na Ap E S0. apply replaced_functional in R. subst out.
  assert (Nl : forall t, names f (cwd m ++ [lit "tmp.html"]) <> Some (NLink t))
    by (intros t; rewrite Na; discriminate).
  destruct (pdf_shown n st m f xs input f' p' N F Nl Ap E S0)
    as (b & s & html & f1 & c & _ & _ & _ & _ & _ & _ & Nt & C & Nm & Rs).
  set (tmp := cwd m ++ [lit "tmp.html"]) in *.
  assert (Sf : resolve max_links f tmp = Some tmp) by (apply resolve_self; exact Nl).
  split.
  - intros q A. destruct (resolve max_links f q) as [r|] eqn:Rq.
    + destruct (path_eqb r tmp) eqn:K.
      * apply path_eqb_eq in K. subst r. unfold contents, inode_of. rewrite Rs, Rq, Na, Nt. reflexivity.
      * apply path_eqb_neq in K. apply C; [|exact A]. intros [X|(i & X & _)]; [congruence|].
        unfold inode_of in X. rewrite Sf, Na in X. discriminate.
    + unfold contents, inode_of. rewrite Rs, Rq. reflexivity.
  - intros q A. destruct (path_eqb q tmp) eqn:K; [|apply path_eqb_neq in K; apply Nm; assumption].
    apply path_eqb_eq in K. subst q. congruence.
Qed.

Lemma pdf_others n st m f xs input out f' p' q :
  new_process m f -> replaced (lit "pdf") input out ->
  (forall t, names f (cwd m ++ [lit "tmp.html"]) <> Some (NLink t)) ->
  ~ aliases f (cwd m ++ [lit "tmp.html"]) out ->
  exec xs f (start m (main n st (CParse input Pdf))) = (f', p') ->
  ~ aliases f (cwd m ++ [lit "tmp.html"]) q -> ~ aliases f out q -> contents f' q = contents f q.
Proof.
  intros N R Nl Ap E. apply replaced_functional in R. subst out.
  apply (pdf_frame n st m f xs input f' p' N Nl Ap E q).
Qed.

Lemma tmp_lost n st m f xs input out f' p' :
  new_process m f -> Forall no_short xs -> replaced (lit "pdf") input out ->
  (forall t, names f (cwd m ++ [lit "tmp.html"]) <> Some (NLink t)) ->
  ~ aliases f (cwd m ++ [lit "tmp.html"]) out ->
  exec xs f (start m (main n st (CParse input Pdf))) = (f', p') -> status p' = Some 0 ->
  names f' (cwd m ++ [lit "tmp.html"]) = None.
Proof.
  intros N F R Nl Ap E S0. apply replaced_functional in R. subst out.
  destruct (pdf_shown n st m f xs input f' p' N F Nl Ap E S0)
    as (b & s & html & f1 & c & _ & _ & _ & _ & _ & _ & Nt & _). exact Nt.
Qed.

Lemma tmp_clobbered : exists n st m f xs input f' p' old,
  new_process m f /\ exec xs f (start m (main n st (CParse input Pdf))) = (f', p') /\
  status p' = Some 0 /\
  contents f (cwd m ++ [lit "tmp.html"]) = Some old /\ contents f' (cwd m ++ [lit "tmp.html"]) = None.
Proof.
  pose (f := sample_disk [([lit "w"; lit "tmp.html"], NFile (0, 3))] [((0, 3), lit "mine")]).
  pose (r := exec (oks 21) f (start (sample_machine 1) (main 100 sample_settings
              (CParse [lit "w"; lit "a.md"] Pdf)))).
  exists 100, sample_settings, (sample_machine 1), f, (oks 21), [lit "w"; lit "a.md"], (fst r), (snd r), (lit "mine").
  split; [apply disk_new; reflexivity|]. split; [apply surjective_pairing|].
  split; [vm_compute; reflexivity|]. split; vm_compute; reflexivity.
Qed.

(** ** C46 *)

Lemma pdf_both n1 st1 m1 in1 out1 n2 st2 m2 in2 out2 f xs f' p1 p2 :
  let tmp1 := cwd m1 ++ [lit "tmp.html"] in
  let tmp2 := cwd m2 ++ [lit "tmp.html"] in
  pid m1 <> pid m2 -> new_process m1 f -> new_process m2 f -> Forall no_short (map snd xs) ->
  web_dir (cwd m1) -> web_dir (cwd m2) ->
  replaced (lit "pdf") in1 out1 -> replaced (lit "pdf") in2 out2 ->
  (forall t, names f tmp1 <> Some (NLink t)) -> (forall t, names f tmp2 <> Some (NLink t)) ->
  ~ aliases f tmp1 out1 -> ~ aliases f tmp2 out2 ->
  (forall p q, In p [config_path st1; in1; tmp1; out1] -> In q [tmp2; out2] -> ~ aliases f p q) ->
  (forall p q, In p [config_path st2; in2; tmp2; out2] -> In q [tmp1; out1] -> ~ aliases f p q) ->
  exec2 xs f (start m1 (main n1 st1 (CParse in1 Pdf))) (start m2 (main n2 st2 (CParse in2 Pdf)))
    = (f', (p1, p2)) ->
  (status p1 = Some 0 -> exists b s html, contents f in1 = Some b /\ decode b = Some s /\
     renders s html /\ contents f' out1 = Some (pdf_of m1 (encode html))) /\
  (status p2 = Some 0 -> exists b s html, contents f in2 = Some b /\ decode b = Some s /\
     renders s html /\ contents f' out2 = Some (pdf_of m2 (encode html))).
Proof.
  intros tmp1 tmp2 Np N1 N2 Ns W1 W2 R1 R2 L1 L2 A1 A2 D12 D21 E.
  apply replaced_functional in R1. apply replaced_functional in R2. subst out1 out2.
  split; intros S0.
  - apply (pdf_beside n1 st1 m1 in1 n2 st2 m2 in2 Pdf f xs f' p1 p2); auto.
    intros p q Hp Hq. apply D12.
    + destruct Hp as [->|[->|[->|[->|Hp]]]]; cbn; auto.
      rewrite (web_visited m1 W1) in Hp. injection Hp as <-. auto.
    + destruct Hq as [->| ->]; cbn; auto.
  - apply exec2_swap in E.
    apply (pdf_beside n2 st2 m2 in2 n1 st1 m1 in1 Pdf f _ f' p2 p1) in E; auto.
    + intros p q Hp Hq. apply D21.
      * destruct Hp as [->|[->|[->|[->|Hp]]]]; cbn; auto.
        rewrite (web_visited m2 W2) in Hp. injection Hp as <-. auto.
      * destruct Hq as [->| ->]; cbn; auto.
    + rewrite map_map. cbn [snd]. exact Ns.
Qed.

Definition sample_race : list (bool * choice) :=
  repeat (true, Ok) 11 ++ repeat (false, Ok) 11 ++ repeat (true, Ok) 10.

Definition race_first := start (sample_machine 1) (main 100 sample_settings (CParse [lit "w"; lit "a.md"] Pdf)).
Definition race_second := start (sample_machine 2) (main 100 sample_settings (CParse [lit "w"; lit "b.md"] Pdf)).
Definition race_end := exec2 sample_race (sample_disk [] []) race_first race_second.

Lemma race_run : exec2 sample_race (sample_disk [] [])
  (start (sample_machine 1) (main 100 sample_settings (CParse [lit "w"; lit "a.md"] Pdf)))
  (start (sample_machine 2) (main 100 sample_settings (CParse [lit "w"; lit "b.md"] Pdf)))
  = (fst race_end, (fst (snd race_end), snd (snd race_end))).
Proof. unfold race_end, race_first, race_second. destruct (exec2 _ _ _ _) as [a [b c]]. reflexivity. Qed.
Lemma race_status : status (fst (snd race_end)) = Some 0.
Proof. vm_compute. reflexivity. Qed.
Lemma race_a : render 100 (lit "# A") = Ret (lit "<h1>A</h1>" ++ [10%N]).
Proof. vm_compute. reflexivity. Qed.
Lemma race_b : render 100 (lit "# B") = Ret (lit "<h1>B</h1>" ++ [10%N]).
Proof. vm_compute. reflexivity. Qed.
Lemma race_out : contents (fst race_end) [lit "w"; lit "a.pdf"] =
  Some (lit "%PDF" ++ encode (lit "<h1>B</h1>" ++ [10%N])).
Proof. vm_compute. reflexivity. Qed.
Lemma race_differs : Some (lit "%PDF" ++ encode (lit "<h1>B</h1>" ++ [10%N])) <>
  Some (lit "%PDF" ++ encode (lit "<h1>A</h1>" ++ [10%N])).
Proof. vm_compute. discriminate. Qed.
Lemma race_in1 : contents (sample_disk [] []) [lit "w"; lit "a.md"] = Some (lit "# A").
Proof. vm_compute. reflexivity. Qed.
Lemma race_in2 : contents (sample_disk [] []) [lit "w"; lit "b.md"] = Some (lit "# B").
Proof. vm_compute. reflexivity. Qed.

Lemma pdf_race : exists n st m1 m2 in1 in2 out1 f xs f' p1 p2 b2 s2 html2,
  pid m1 <> pid m2 /\ new_process m1 f /\ new_process m2 f /\ Forall (fun x => snd x = Ok) xs /\
  in1 <> in2 /\ replaced (lit "pdf") in1 out1 /\
  exec2 xs f (start m1 (main n st (CParse in1 Pdf))) (start m2 (main n st (CParse in2 Pdf)))
    = (f', (p1, p2)) /\
  status p1 = Some 0 /\ contents f in2 = Some b2 /\ decode b2 = Some s2 /\ renders s2 html2 /\
  contents f' out1 = Some (pdf_of m1 (encode html2)) /\
  (forall b1 s1 html1, contents f in1 = Some b1 -> decode b1 = Some s1 -> renders s1 html1 ->
     contents f' out1 <> Some (pdf_of m1 (encode html1))).
Proof.
  exists 100, sample_settings, (sample_machine 1), (sample_machine 2), [lit "w"; lit "a.md"],
    [lit "w"; lit "b.md"], [lit "w"; lit "a.pdf"], (sample_disk [] []), sample_race, (fst race_end),
    (fst (snd race_end)), (snd (snd race_end)), (lit "# B"), (lit "# B"), (lit "<h1>B</h1>" ++ [10%N]).
  split; [discriminate|]. split; [apply disk_new; reflexivity|]. split; [apply disk_new; reflexivity|].
  split; [repeat constructor|]. split; [discriminate|].
  split; [apply (replaced_ext (lit "pdf") [lit "w"] (lit "a") (lit "md")); vm_compute; intuition discriminate|].
  split; [exact race_run|].
  split; [exact race_status|]. split; [exact race_in2|]. split; [vm_compute; reflexivity|].
  split; [exists 100; exact race_b|]. split; [exact race_out|].
  intros b1 s1 html1 Hb Hd Hr. rewrite race_in1 in Hb. apply some_inj in Hb. subst b1.
  assert (D : decode (lit "# A") = Some (lit "# A")) by (vm_compute; reflexivity).
  rewrite D in Hd. apply some_inj in Hd. subst s1.
  assert (html1 = lit "<h1>A</h1>" ++ [10%N]) as ->
    by (apply (renders_unique (lit "# A")); [exact Hr|exists 100; exact race_a]).
  rewrite race_out. exact race_differs.
Qed.

(** ** C47 *)

Lemma init_written n st m f xs f' p' :
  new_process m f -> Forall no_short xs ->
  exec xs f (start m (main n st CInitialize)) = (f', p') -> status p' = Some 0 ->
  contents f' (config_path st) = Some (encode default_toml) /\
  (forall ys g q r,
     toml st default_toml = inl default_table ->
     (forall name v key, In (name, v) (environ st) -> ~ sets name key) ->
     exec ys f' (start m (load_config st)) = (g, q) -> code q = Done r ->
     r = inl default_config \/ exists t, r = inr (IoError t)).
Proof.
  intros N F E S0. pose proof (init_success n st m f xs f' p' N F E S0) as C.
  split; [exact C|]. intros ys g q r T V E' D.
  refine (load_initialized st m f' ys g q r C T _ E' D). intros name v I.
  unfold env_key. destruct (strip_prefix (lit "smd__") (to_lowercase name)) as [rest|] eqn:Sp; [|reflexivity].
  exfalso. apply (V name v (replace (lit "__") (lit ".") rest) I). exists rest.
  split; [apply strip_prefix_iff; exact Sp|reflexivity].
Qed.

(** One initialize is done between the check and the creation of another, which
    then dies. *)
Definition init_schedule : list (bool * choice) :=
  [(false, Ok)] ++ repeat (true, Ok) 6 ++ repeat (false, Ok) 3.
Definition init_end (more : list (bool * choice)) :=
  exec2 (init_schedule ++ more) (sample_disk [] []) (start (sample_machine 1) (main 0 sample_settings CInitialize))
    (start (sample_machine 2) (main 0 sample_settings CInitialize)).

Lemma init_end_eq more : exec2 (init_schedule ++ more) (sample_disk [] [])
    (start (sample_machine 1) (main 0 sample_settings CInitialize))
    (start (sample_machine 2) (main 0 sample_settings CInitialize)) =
  (fst (init_end more), (fst (snd (init_end more)), snd (snd (init_end more)))).
Proof. unfold init_end. destruct (exec2 _ _ _ _) as [a [b c]]. reflexivity. Qed.

Lemma init_race : exists n st m1 m2 f xs f' p1 p2,
  pid m1 <> pid m2 /\ new_process m1 f /\ new_process m2 f /\ Forall (fun x => snd x = Ok) xs /\
  exec2 xs f (start m1 (main n st CInitialize)) (start m2 (main n st CInitialize)) = (f', (p1, p2)) /\
  status p1 = Some 0 /\ status p2 = Some 0.
Proof.
  exists 0, sample_settings, (sample_machine 1), (sample_machine 2), (sample_disk [] []),
    (init_schedule ++ repeat (false, Ok) 2), (fst (init_end (repeat (false, Ok) 2))),
    (fst (snd (init_end (repeat (false, Ok) 2)))), (snd (snd (init_end (repeat (false, Ok) 2)))).
  split; [discriminate|]. split; [apply disk_new; reflexivity|]. split; [apply disk_new; reflexivity|].
  split; [repeat constructor|]. split; [apply init_end_eq|]. split; vm_compute; reflexivity.
Qed.

Lemma init_lost : exists n st m1 m2 f xs f' p1 p2,
  pid m1 <> pid m2 /\ new_process m1 f /\ new_process m2 f /\ Forall (fun x => snd x = Ok) xs /\
  exec2 xs f (start m1 (main n st CInitialize)) (start m2 (main n st CInitialize)) = (f', (p1, p2)) /\
  status p1 = Some 0 /\ contents f' (config_path st) = Some [].
Proof.
  exists 0, sample_settings, (sample_machine 1), (sample_machine 2), (sample_disk [] []),
    (init_schedule ++ []), (fst (init_end [])), (fst (snd (init_end []))), (snd (snd (init_end []))).
  split; [discriminate|]. split; [apply disk_new; reflexivity|]. split; [apply disk_new; reflexivity|].
  split; [repeat constructor|]. split; [apply init_end_eq|]. split; vm_compute; reflexivity.
Qed.

Definition own_config : list (path * node) :=
  [([lit "c"; lit "smd"], NDir); ([lit "c"; lit "smd"; lit "config.toml"], NFile (0, 3))].

Lemma init_clobbers : exists n st m f why xs f' p' old,
  new_process m f /\ contents f (config_path st) = Some old /\ old <> encode default_toml /\
  exec (Fail why :: xs) f (start m (main n st CInitialize)) = (f', p') /\ Forall (eq Ok) xs /\
  status p' = Some 0 /\ contents f' (config_path st) = Some (encode default_toml).
Proof.
  pose (f := sample_disk own_config [((0, 3), lit "mine")]).
  destruct (init_overwrites 0 sample_settings (sample_machine 1) f (lit "EACCES")) as (f' & p' & E & S0 & C).
  - apply disk_new. reflexivity.
  - exists [lit "c"; lit "smd"; lit "config.toml"]. split; [vm_compute; reflexivity|].
    left. eexists. vm_compute. reflexivity.
  - vm_compute. reflexivity.
  - reflexivity.
  - exists 0, sample_settings, (sample_machine 1), f, (lit "EACCES"), (oks 5), f', p', (lit "mine").
    split; [apply disk_new; reflexivity|]. split; [vm_compute; reflexivity|].
    split; [vm_compute; discriminate|]. split; [exact E|]. split; [repeat constructor|]. auto.
Qed.

(** ** C48 *)

Lemma unusable_html st m f input out b s html why :
  new_process m f ->
  contents f input = Some b -> decode b = Some s -> renders s html ->
  replaced (lit "html") input out -> creatable f out ->
  exists n xs f' p', exec (Fail why :: xs) f (start m (main n st (CParse input Html))) = (f', p') /\
    status p' = Some 0 /\ contents f' out = Some (encode html).
Proof.
  intros N Hb Hd Hr R C. apply replaced_functional in R. subst out.
  apply (unusable_ignored st m f input b s html why); assumption.
Qed.

(** ** C49 *)

Definition twice_set : list (str * str) :=
  [(lit "SMD__PARSE__KEEP_TEMP_FILES", lit "true"); (lit "smd__parse__keep_temp_files", lit "false")].

Lemma order_matters : exists tm e e' s c c', Permutation e e' /\ NoDup (map fst e) /\
  parse_from_str tm e s = inl c /\ parse_from_str tm e' s = inl c' /\ c <> c'.
Proof.
  exists small_toml, twice_set, (rev twice_set), default_toml. do 2 eexists.
  split; [apply Permutation_rev|].
  split; [constructor; [vm_compute; intuition discriminate|repeat constructor; intros []]|].
  split; [vm_compute; reflexivity|]. split; [vm_compute; reflexivity|]. discriminate.
Qed.

(** ** C51 *)

(** Whether an error was logged, and what follows from the outcome. *)
Definition is_log {B} (c : call B) : bool := match c with Log _ => true | _ => false end.
Definition is_error (r : record) : bool := match rec_level r with LError => true | _ => false end.

Inductive told {A} (Q : bool -> A -> Prop) : bool -> prog A -> Prop :=
| told_done e a : Q e a -> told Q e (Done a)
| told_stop e : told Q e Stop
| told_spin e : told Q e Spin
| told_log e r k : told Q (e || is_error r) (k tt) -> told Q e (Do (Log r) k)
| told_call e B (c : call B) k : is_log c = false -> (forall r, told Q e (k r)) -> told Q e (Do c k).

Lemma answer_logged {B} m (c : call B) x f l : is_log c = false ->
  logged (snd (snd (answer m c x f l))) = logged l.
Proof.
  destruct c; cbn [is_log answer]; try discriminate; intros _;
    destruct x; cbn [fst snd]; try reflexivity.
  all: try (destruct (contents f p); reflexivity).
  all: try (unfold do_create; destruct (resolve max_links f p) as [q|]; [|reflexivity];
            destruct (names f q) as [[i|t|]|]; try reflexivity;
            destruct (is_dir f (parent q)); reflexivity).
  all: try (destruct (names f p) as [[i|t|]|]; reflexivity).
  all: try (unfold load; destruct (contents f p); reflexivity).
  all: destruct (nth t (tabs l) TBlank); try reflexivity; unfold load; destruct (contents f p); reflexivity.
Qed.

Lemma told_bind {A B} (Q : bool -> A -> Prop) (R : bool -> B -> Prop) k m e :
  told Q e m -> (forall e a, Q e a -> told R e (k a)) -> told R e (pbind m k).
Proof. intros H K. induction H; cbn [pbind]; try (constructor; auto; fail). apply K. assumption. Qed.

Lemma told_exec {A} (Q : bool -> A -> Prop) xs : forall e f m l (p : prog A),
  existsb is_error (logged l) = e -> told Q e p ->
  let p' := snd (exec xs f {| mach := m; here := l; code := p |}) in
  told Q (existsb is_error (logged (here p'))) (code p').
Proof.
  induction xs as [|x xs IH]; intros e f m l p E T; cbn [exec snd here code]; [now rewrite E|].
  destruct T as [e a H|e|e|e r k T|e B c k Nl T]; unfold step; cbn [code fst snd mach here].
  - apply (IH e); [exact E|constructor; exact H].
  - apply (IH e); [exact E|constructor].
  - apply (IH e); [exact E|constructor].
  - apply (IH (e || is_error r)); [|exact T].
    cbn [answer fst snd logged]. rewrite existsb_app, E. cbn [existsb]. now rewrite orb_false_r.
  - apply (IH e); [|apply T]. rewrite answer_logged by exact Nl. exact E.
Qed.

Definition quiet_if_ok {A} (e : bool) (r : result A) : Prop := match r with inl _ => e = false | inr _ => True end.

Lemma told_try {A B} (m : prog (result A)) (k : A -> prog (result B)) e :
  told quiet_if_ok e m -> (forall a, told quiet_if_ok false (k a)) -> told quiet_if_ok e (try m k).
Proof.
  intros H K. apply (told_bind quiet_if_ok _ _ _ _ H). intros e' [a|x] Q; cbn in Q.
  - subst e'. apply K.
  - constructor. exact Logic.I.
Qed.

Lemma told_io {A B} (c : call (io A)) (k : A -> prog (result B)) : is_log c = false ->
  (forall a, told quiet_if_ok false (k a)) -> told quiet_if_ok false (try_io c k).
Proof. intros N K. apply told_call; [exact N|]. intros [a|x]; [apply K|constructor; exact Logic.I]. Qed.

Lemma told_browser {A B} msg (c : call (io A)) (k : A -> prog (result B)) : is_log c = false ->
  (forall a, told quiet_if_ok false (k a)) -> told quiet_if_ok false (try_browser msg c k).
Proof. intros N K. apply told_call; [exact N|]. intros [a|x]; [apply K|constructor; exact Logic.I]. Qed.

Lemma told_read p : told quiet_if_ok false (read_to_string p).
Proof.
  apply told_log. apply told_call; [reflexivity|]. intros [b|x].
  - destruct (decode b); apply told_log; constructor; [reflexivity|exact Logic.I].
  - apply told_log. constructor. exact Logic.I.
Qed.

Lemma told_cw p b t : told quiet_if_ok false (create_and_write p b t).
Proof.
  apply told_io; [reflexivity|]. intros h. apply told_call; [reflexivity|].
  intros [n|x]; apply told_log; constructor; [reflexivity|exact Logic.I].
Qed.

Lemma told_load st : told quiet_if_ok false (load_config st).
Proof.
  apply told_call; [reflexivity|]. intros [|]; [|constructor; reflexivity].
  apply told_try; [apply told_read|]. intros s.
  destruct (parse_from_str _ _ _); constructor; [reflexivity|exact Logic.I].
Qed.

Lemma told_run n st c : told quiet_if_ok false (run n st c).
Proof.
  destruct c as [input o|]; cbn [run].
  - apply told_try; [apply told_load|]. intros _. apply told_try; [apply told_read|].
    intros s. apply told_log. unfold rendering. destruct (render n s) as [html| |]; [|constructor|constructor].
    destruct o.
    + apply told_try; [|intros b; apply told_log, told_cw].
      apply told_browser; [reflexivity|]. intros _. apply told_io; [reflexivity|]. intros dir.
      apply told_try; [apply told_log, told_cw|]. intros _. apply told_try.
      * apply told_io; [reflexivity|]. intros _. apply told_browser; [reflexivity|]. intros t.
        destruct (visited _) as [q|]; [|constructor; exact Logic.I].
        apply told_browser; [reflexivity|]. intros _. apply told_browser; [reflexivity|]. intros _.
        constructor. reflexivity.
      * intros t. apply told_io; [reflexivity|]. intros _. apply told_browser; [reflexivity|]. intros b.
        constructor. reflexivity.
    + apply told_log, told_cw.
  - apply told_call; [reflexivity|]. intros [|]; [constructor; exact Logic.I|].
    apply told_io; [reflexivity|]. intros _. apply told_try; [apply told_log, told_cw|].
    intros _. constructor. reflexivity.
Qed.

Lemma safe_any {A} P m (p : prog A) : forall f l,
  safe P m (fun _ _ => True) (fun _ _ _ => True) p f l.
Proof. induction p as [a| | |B c k IH]; intros f l; cbn [safe]; auto. Qed.

Lemma exit_told n st c m f xs f' p' k :
  exec xs f (start m (main n st c)) = (f', p') -> status p' = Some k ->
  (k = 0 /\ forall r, In r (logged (here p')) -> rec_level r <> LError) \/
  (k = 1 /\ exists e pre, logged (here p') = pre ++ [error_record e]) \/
  k = 101.
Proof.
  intros E Sk.
  pose proof (told_exec (fun e k => k = 0 -> e = false) xs false f m no_tabs (main n st c) eq_refl) as T.
  assert (T0 : told (fun e k => k = 0 -> e = false) false (main n st c)).
  { apply (told_bind quiet_if_ok _ _ _ _ (told_run n st c)). intros e [a|x] Q.
    - constructor. intros _. exact Q.
    - apply told_log. constructor. discriminate. }
  specialize (T T0). fold (start m (main n st c)) in T. rewrite E in T. cbn [snd] in T.
  pose proof (main_exec (fun _ => True) m (fun _ _ => True) (fun _ _ => True) n st c f xs) as M.
  cbv zeta in M. rewrite E in M. cbn [fst snd] in M.
  destruct M as (_ & _ & M1 & M2).
  - auto.
  - apply safe_any.
  - rewrite Forall_forall. auto.
  - destruct (M2 k Sk) as [->|[->| ->]].
    + left. split; [reflexivity|]. unfold status in Sk. destruct (code p') as [a| | |] eqn:Cd; try discriminate.
      injection Sk as ->. inversion T as [e a H| | | |]. specialize (H eq_refl).
      intros r I L. assert (X : existsb is_error (logged (here p')) = true).
      { apply existsb_exists. exists r. split; [exact I|]. unfold is_error. now rewrite L. }
      congruence.
    + right. left. split; [reflexivity|]. destruct (M1 Sk) as (e & pre & _ & L). eauto.
    + right. right. reflexivity.
Qed.

(** ** Examples *)

Lemma sample_no_alias f p q i j : resolve max_links f p <> resolve max_links f q ->
  inode_of f p = i -> inode_of f q = j -> (forall k, i = Some k -> j <> Some k) -> ~ aliases f p q.
Proof.
  intros R Ei Ej D [X|(k & X & Y)]; [exact (R X)|]. apply (D k); congruence.
Qed.
