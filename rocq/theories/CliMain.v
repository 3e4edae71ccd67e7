(** * CliMain: whole runs of smd. *)
From Coq Require Import Ascii String.
From Verif Require Import Strings StringsFacts Token Iter Lexer Parser Utf8 System Config Cli
  SpecCli SystemFacts CliFacts.
Open Scope list_scope.

(** ** File names *)

Lemma app_last {A} (l : list A) x : rev (l ++ [x]) = x :: rev l.
Proof. rewrite rev_app_distr. reflexivity. Qed.

Lemma set_extension_at dir n ext :
  set_extension (dir ++ [n]) ext = dir ++ [file_stem n ++ lit "." ++ ext].
Proof.
  unfold set_extension, file_name. rewrite app_last, removelast_last. reflexivity.
Qed.

Lemma file_stem_ext stem e : stem <> [] -> ~ In c_dot e -> file_stem (stem ++ lit "." ++ e) = stem.
Proof.
  intros Ne Nd. unfold file_stem.
  destruct (rsplit_once c_dot (stem ++ lit "." ++ e)) as [[a b]|] eqn:E.
  - assert (K : a = stem).
    { unfold rsplit_once in E. change (lit "." ++ e) with (c_dot :: e) in E.
      rewrite rev_app_distr in E. cbn [rev] in E. rewrite <- app_assoc in E. cbn [app] in E.
      rewrite split_once_app in E by (rewrite <- in_rev; exact Nd). injection E as <- _.
      apply rev_involutive. }
    subst a. destruct stem; [congruence|reflexivity].
  - apply rsplit_once_none in E. destruct E. apply in_app_iff. right. left. reflexivity.
Qed.

Lemma file_stem_none n : ~ In c_dot n -> file_stem n = n.
Proof.
  intros Nd. unfold file_stem. destruct (rsplit_once c_dot n) as [[a b]|] eqn:E; [|reflexivity].
  rewrite (proj2 (rsplit_once_none c_dot n) Nd) in E. discriminate.
Qed.

Lemma file_stem_hidden n : ~ In c_dot n -> file_stem (lit "." ++ n) = lit "." ++ n.
Proof.
  intros Nd. unfold file_stem.
  destruct (rsplit_once c_dot (lit "." ++ n)) as [[a b]|] eqn:E; [|reflexivity].
  unfold rsplit_once in E. change (lit "." ++ n) with (c_dot :: n) in E. cbn [rev] in E.
  rewrite split_once_app in E by (rewrite <- in_rev; exact Nd). injection E as <- _. reflexivity.
Qed.

Lemma name_cases (n : str) :
  ~ In c_dot n \/ (exists stem e, n = stem ++ lit "." ++ e /\ ~ In c_dot e).
Proof.
  destruct (in_dec N.eq_dec c_dot n) as [I|I]; [|left; exact I]. right.
  destruct (rsplit_once c_dot n) as [[a b]|] eqn:E.
  - apply rsplit_once_some in E. destruct E as [E N]. exists a, b. split; [exact E|exact N].
  - apply rsplit_once_none in E. destruct (E I).
Qed.

Lemma set_extension_replaced p ext : replaced ext p (set_extension p ext).
Proof.
  destruct (rev p) as [|n d] eqn:R.
  - assert (p = []) as -> by (rewrite <- (rev_involutive p), R; reflexivity). constructor.
  - assert (E : p = rev d ++ [n]) by (rewrite <- (rev_involutive p), R; reflexivity).
    rewrite E, set_extension_at. destruct (name_cases n) as [Nd|(stem & e & -> & Nd)].
    + rewrite file_stem_none by exact Nd. apply replaced_none. exact Nd.
    + destruct stem as [|c stem].
      * cbn [app]. rewrite file_stem_hidden by exact Nd. rewrite <- app_assoc.
        apply replaced_hidden. exact Nd.
      * rewrite file_stem_ext by (discriminate || exact Nd).
        apply replaced_ext; [discriminate|exact Nd].
Qed.

Lemma replaced_functional ext p a : replaced ext p a -> a = set_extension p ext.
Proof.
  intros R. destruct R as [dir stem e Ne Nd|dir name Nd|dir name Nd|].
  - rewrite set_extension_at, file_stem_ext by assumption. reflexivity.
  - rewrite set_extension_at, file_stem_none by assumption. reflexivity.
  - rewrite set_extension_at, file_stem_hidden by assumption. rewrite <- app_assoc. reflexivity.
  - reflexivity.
Qed.

(** ** Runs *)

Lemma renders_of n s html : render n s = Ret html -> renders s html.
Proof. intros E. exists n. exact E. Qed.

Lemma logs_unused m f l r : unused m f l -> unused m f (logs l r).
Proof. intros U. exact U. Qed.

Definition anything (x : choice) : Prop := True.

Lemma anything_all xs : Forall anything xs.
Proof. apply Forall_forall. intros. exact Logic.I. Qed.

Lemma html_exec P m n st input f xs : new_process m f -> Forall P xs ->
  let f' := fst (exec xs f (start m (main n st (CParse input Html)))) in
  let p' := snd (exec xs f (start m (main n st (CParse input Html)))) in
  (html_stage n f input f' /\ unused m f' (here p')) /\
  (status p' = Some 0 -> html_result P n f input (inl tt) f') /\
  (status p' = Some 1 -> exists e pre, html_result P n f input (inr e) f' /\
     logged (here p') = pre ++ [error_record e]) /\
  (forall k, status p' = Some k -> k = 0 \/ k = 1 \/ k = 101).
Proof.
  intros N F. apply (main_exec P m (fun f' l' => html_stage n f input f' /\ unused m f' l')).
  - intros g l r H. exact H.
  - apply safe_html. apply unused_start. exact N.
  - exact F.
Qed.

Lemma pdf_exec P m n st input f xs : new_process m f -> Forall P xs ->
  let f' := fst (exec xs f (start m (main n st (CParse input Pdf)))) in
  let p' := snd (exec xs f (start m (main n st (CParse input Pdf)))) in
  (pdf_stage P m n f input f' /\ unused m f' (here p')) /\
  (status p' = Some 0 -> pdf_result P m n f input (inl tt) f') /\
  (status p' = Some 1 -> exists e pre, pdf_result P m n f input (inr e) f' /\
     logged (here p') = pre ++ [error_record e]) /\
  (forall k, status p' = Some k -> k = 0 \/ k = 1 \/ k = 101).
Proof.
  intros N F. apply (main_exec P m (fun f' l' => pdf_stage P m n f input f' /\ unused m f' l')).
  - intros g l r H. exact H.
  - apply safe_pdf. apply unused_start. exact N.
  - exact F.
Qed.

Lemma written_only f p w f' : written f p w f' -> only_changes f p f'.
Proof. intros W. split; [apply (wr_other _ _ _ _ W)|apply (wr_names _ _ _ _ W)]. Qed.

Lemma taken_all b w : taken no_short b w -> w = b.
Proof. intros [E|(n & [] & _)]. exact E. Qed.

(** C40, C41 *)
Lemma html_written n st m f xs input f' p' :
  new_process m f -> Forall no_short xs ->
  exec xs f (start m (main n st (CParse input Html))) = (f', p') -> status p' = Some 0 ->
  exists b s html out,
    contents f input = Some b /\ decode b = Some s /\ renders s html /\
    replaced (lit "html") input out /\
    contents f' out = Some (encode html) /\ only_changes f out f'.
Proof.
  intros N F E S0. destruct (html_exec no_short m n st input f xs N F) as (_ & R & _).
  rewrite E in R. cbn [fst snd] in R. destruct (R S0) as (s & html & w & ((b & Hb & Hd) & Hr) & T & W).
  apply taken_all in T. subst w. exists b, s, html, (out_path input Html).
  split; [exact Hb|]. split; [exact Hd|]. split; [exact (renders_of n s html Hr)|].
  split; [apply set_extension_replaced|]. split; [apply (wr_here _ _ _ _ W)|].
  apply (written_only _ _ _ _ W).
Qed.

(** C42 *)
Lemma html_crash n st m f xs input f' p' :
  new_process m f ->
  exec xs f (start m (main n st (CParse input Html))) = (f', p') ->
  exists out, replaced (lit "html") input out /\ only_changes f out f' /\
    (contents f' out = contents f out \/
     exists b s html w rest, contents f input = Some b /\ decode b = Some s /\ renders s html /\
       contents f' out = Some w /\ encode html = w ++ rest).
Proof.
  intros N E. destruct (html_exec anything m n st input f xs N (anything_all xs)) as ((St & _) & _).
  rewrite E in St. cbn [fst snd] in St. exists (out_path input Html).
  split; [apply set_extension_replaced|]. destruct St as [->|(s & html & w & ((b & Hb & Hd) & Hr) & Pw & W)].
  - split; [split; reflexivity|]. left. reflexivity.
  - split; [apply (written_only _ _ _ _ W)|]. right. destruct Pw as [rest Ew].
    exists b, s, html, w, rest. split; [exact Hb|]. split; [exact Hd|].
    split; [exact (renders_of n s html Hr)|]. split; [apply (wr_here _ _ _ _ W)|exact Ew].
Qed.

(** C43 *)
Lemma html_input n st m f xs input q f' p' :
  new_process m f ->
  exec xs f (start m (main n st (CParse input Html))) = (f', p') ->
  ~ aliases f (set_extension input (lit "html")) q -> contents f' q = contents f q.
Proof.
  intros N E A. destruct (html_crash n st m f xs input f' p' N E) as (out & R & [O _] & _).
  apply replaced_functional in R. subst out. apply O. exact A.
Qed.

(** Removing a name that is not aliased. *)
Lemma removed_contents f p f' q : removed f p f' -> resolve max_links f p = Some p ->
  resolve max_links f q <> Some p -> contents f' q = contents f q.
Proof.
  intros (-> & Np & Nd) R A.
  assert (NL : not_link (names f p)) by (apply (resolve_end _ _ _ _ R)).
  unfold contents, inode_of. rewrite resolve_set_name; [|exact NL|intros t; discriminate].
  destruct (resolve max_links f q) as [r|]; [|reflexivity]. cbn [names set_name].
  destruct (path_eqb r p) eqn:E; [|reflexivity]. apply path_eqb_eq in E. congruence.
Qed.

Lemma removed_resolve f p f' : removed f p f' -> resolve max_links f p = Some p ->
  forall n q, resolve n f' q = resolve n f q.
Proof.
  intros (-> & Np & Nd) R n q. apply resolve_set_name; [apply (resolve_end _ _ _ _ R)|].
  intros t; discriminate.
Qed.

Lemma removed_names f p f' q : removed f p f' -> q <> p -> names f' q = names f q.
Proof.
  intros (-> & _) Ne. cbn [names set_name]. destruct (path_eqb q p) eqn:E; [|reflexivity].
  apply path_eqb_eq in E. congruence.
Qed.

(** The name of the temporary file is no symbolic link. *)
Lemma resolve_self f p : not_link (names f p) -> resolve max_links f p = Some p.
Proof.
  intros N. unfold max_links. cbn [resolve]. destruct (names f p) as [[i|t|]|]; auto.
  destruct (N t eq_refl).
Qed.

Lemma written_aliases f p w f' a b : written f p w f' ->
  ~ aliases f p a -> ~ aliases f p b -> aliases f' a b -> aliases f a b.
Proof.
  intros W Na Nb [E|(i & E1 & E2)].
  - left. rewrite !(wr_resolve _ _ _ _ W) in E. exact E.
  - right. exists i. rewrite (wr_inode _ _ _ _ W) in E1 by exact Na.
    rewrite (wr_inode _ _ _ _ W) in E2 by exact Nb. auto.
Qed.

Lemma removed_inode f p f' q : removed f p f' -> resolve max_links f p = Some p ->
  resolve max_links f q <> Some p -> inode_of f' q = inode_of f q.
Proof.
  intros R Rp A. unfold inode_of. rewrite (removed_resolve f p f' R Rp).
  destruct R as (-> & _). destruct (resolve max_links f q) as [r|]; [|reflexivity].
  cbn [names set_name]. destruct (path_eqb r p) eqn:E; [|reflexivity].
  apply path_eqb_eq in E. congruence.
Qed.

Section Pdf.
Variables (P : choice -> Prop) (m : machine) (n : nat) (f : fs) (input : path).
Hypothesis tmp_name_ok : not_link (names f (tmp_path m)).
Hypothesis apart : ~ aliases f (tmp_path m) (out_path input Pdf).

Let tmp := tmp_path m.
Let out := out_path input Pdf.

Lemma tmp_self : resolve max_links f tmp = Some tmp.
Proof. apply resolve_self. exact tmp_name_ok. Qed.

Lemma not_tmp q : ~ aliases f tmp q -> resolve max_links f q <> Some tmp.
Proof. intros A E. apply A. left. rewrite tmp_self. symmetry. exact E. Qed.

(** After the temporary file is gone. *)
Lemma gone w f1 f2 : written f tmp w f1 -> removed f1 tmp f2 ->
  (forall k q, resolve k f2 q = resolve k f q) /\
  (forall q, ~ aliases f tmp q -> contents f2 q = contents f q /\ inode_of f2 q = inode_of f q) /\
  (forall q, q <> tmp -> names f2 q = names f q) /\
  names f2 tmp = None.
Proof.
  intros W R.
  assert (R1 : resolve max_links f1 tmp = Some tmp) by (rewrite (wr_resolve _ _ _ _ W); apply tmp_self).
  assert (Rn : forall q, ~ aliases f tmp q -> resolve max_links f1 q <> Some tmp).
  { intros q A. rewrite (wr_resolve _ _ _ _ W). apply not_tmp. exact A. }
  split; [|split; [|split]].
  - intros k q. rewrite (removed_resolve f1 tmp f2 R R1). apply (wr_resolve _ _ _ _ W).
  - intros q A. rewrite (removed_contents f1 tmp f2 q R R1 (Rn q A)).
    rewrite (removed_inode f1 tmp f2 q R R1 (Rn q A)).
    split; [apply (wr_other _ _ _ _ W q A)|apply (wr_inode _ _ _ _ W q A)].
  - intros q Ne. rewrite (removed_names f1 tmp f2 q R Ne).
    apply (wr_names _ _ _ _ W). rewrite tmp_self. congruence.
  - destruct R as (-> & _). cbn [names set_name]. rewrite path_eqb_refl. reflexivity.
Qed.

Lemma gone_aliases w f1 f2 a b : written f tmp w f1 -> removed f1 tmp f2 ->
  ~ aliases f tmp a -> ~ aliases f tmp b -> aliases f2 a b -> aliases f a b.
Proof.
  intros W R Na Nb. destruct (gone w f1 f2 W R) as (Rs & Cs & _).
  intros [E|(i & E1 & E2)].
  - left. rewrite !Rs in E. exact E.
  - right. exists i. destruct (Cs a Na) as [_ Ia]. destruct (Cs b Nb) as [_ Ib].
    rewrite Ia in E1. rewrite Ib in E2. auto.
Qed.

(** At every moment only the temporary file and the output differ. *)
Lemma pdf_touches f' q : pdf_stage P m n f input f' ->
  ~ aliases f tmp q -> ~ aliases f out q -> contents f' q = contents f q.
Proof.
  intros St Nt No. destruct St as [->|s html w Rd Pw W|s html w f1 Rd Tk W Rm|s html w f1 f2 b v Rd Tk W Rm Pg Pv Wv].
  - reflexivity.
  - apply (wr_other _ _ _ _ W). exact Nt.
  - destruct (gone w f1 f' W Rm) as (_ & C & _). apply C. exact Nt.
  - destruct (gone w f1 f2 W Rm) as (_ & C & _). destruct (C q Nt) as [<- _].
    apply (wr_other _ _ _ _ Wv). intros A. apply No.
    apply (gone_aliases w f1 f2 out q W Rm apart Nt A).
Qed.

(** On success the temporary file is gone and the output is the PDF. *)
Lemma pdf_success f' : pdf_result P m n f input (inl tt) f' ->
  names f' tmp = None /\
  (forall q, ~ aliases f tmp q -> ~ aliases f out q -> contents f' q = contents f q) /\
  (forall q, q <> tmp -> resolve max_links f out <> Some q -> names f' q = names f q) /\
  (forall k q, resolve k f' q = resolve k f q) /\
  exists s html w f1 b v, rendered n f input s html /\ taken P (encode html) w /\
    written f tmp w f1 /\ page m f1 b /\ taken P (pdf_of m b) v /\ contents f' out = Some v.
Proof.
  intros (s & html & w & f1 & f2 & b & v & Rd & Tk & W & Rm & Pg & Tv & Wv).
  destruct (gone w f1 f2 W Rm) as (Rs & C & Nm & Nt).
  assert (Nr : resolve max_links f out <> Some tmp) by (apply not_tmp; exact apart).
  split; [|split; [|split; [|split]]].
  - rewrite <- Nt. apply (wr_names _ _ _ _ Wv). rewrite Rs. exact Nr.
  - intros q A No. destruct (C q A) as [<- _]. apply (wr_other _ _ _ _ Wv).
    intros A2. apply No. apply (gone_aliases w f1 f2 out q W Rm apart A A2).
  - intros q Ne Nq. rewrite <- (Nm q Ne). apply (wr_names _ _ _ _ Wv). rewrite Rs. exact Nq.
  - intros k q. rewrite (wr_resolve _ _ _ _ Wv). apply Rs.
  - exists s, html, w, f1, b, v. split; [exact Rd|]. split; [exact Tk|]. split; [exact W|].
    split; [exact Pg|]. split; [exact Tv|]. apply (wr_here _ _ _ _ Wv).
Qed.
End Pdf.

(** ** Runs followed step by step *)

(** With exactly these choices the program ends with that result. *)
Inductive runs_to (m : machine) {A} : list choice -> fs -> local -> prog A -> fs -> local -> A -> Prop :=
| rt_done f l a : runs_to m [] f l (Done a) f l a
| rt_do {B} x xs f l (c : call B) k a f1 l1 f' l' r :
    answer m c x f l = (a, (f1, l1)) ->
    runs_to m xs f1 l1 (k a) f' l' r ->
    runs_to m (x :: xs) f l (Do c k) f' l' r.

Lemma exec_do {A B} x xs f m l (c : call B) (k : B -> prog A) :
  exec (x :: xs) f {| mach := m; here := l; code := Do c k |} =
  exec xs (fst (snd (answer m c x f l)))
    {| mach := m; here := snd (snd (answer m c x f l)); code := k (fst (answer m c x f l)) |}.
Proof. reflexivity. Qed.

Lemma runs_to_bind m {A B} xs ys f l (p : prog A) f1 l1 a (k : A -> prog B) f2 l2 b :
  runs_to m xs f l p f1 l1 a -> runs_to m ys f1 l1 (k a) f2 l2 b ->
  runs_to m (xs ++ ys) f l (pbind p k) f2 l2 b.
Proof.
  intros H K. induction H as [f l a|B' x xs f l c k' a f1 l1 f' l' r E H IH].
  - exact K.
  - cbn [app pbind]. apply (rt_do m x _ f l c _ a f1 l1); [exact E|apply IH; exact K].
Qed.

Lemma runs_to_exec m {A} xs f l (p : prog A) f' l' r :
  runs_to m xs f l p f' l' r ->
  exec xs f {| mach := m; here := l; code := p |} = (f', {| mach := m; here := l'; code := Done r |}).
Proof.
  intros H. induction H as [f l a|B' x xs f l c k' a f1 l1 f' l' r E H IH]; [reflexivity|].
  cbn [exec]. unfold step. cbn [code mach here]. rewrite E. exact IH.
Qed.

(** With exactly these choices the program gets there. *)
Inductive steps (m : machine) {A} : list choice -> fs -> local -> prog A -> fs -> local -> prog A -> Prop :=
| st_here f l p : steps m [] f l p f l p
| st_do {B} x xs f l (c : call B) k a f1 l1 f' l' r :
    answer m c x f l = (a, (f1, l1)) ->
    steps m xs f1 l1 (k a) f' l' r ->
    steps m (x :: xs) f l (Do c k) f' l' r.

Lemma steps_after m {A B} xs ys f l (p : prog A) f1 l1 a (k : A -> prog B) f2 l2 q :
  runs_to m xs f l p f1 l1 a -> steps m ys f1 l1 (k a) f2 l2 q ->
  steps m (xs ++ ys) f l (pbind p k) f2 l2 q.
Proof.
  intros H K. induction H as [f l a|B' x xs f l c k' a f1 l1 f' l' r E H IH].
  - exact K.
  - cbn [app pbind]. apply (st_do m x _ f l c _ a f1 l1); [exact E|apply IH; exact K].
Qed.

Lemma steps_within m {A B} xs f l (p : prog A) f' l' q (k : A -> prog B) :
  steps m xs f l p f' l' q -> steps m xs f l (pbind p k) f' l' (pbind q k).
Proof.
  intros H. induction H as [f l p|B' x xs f l c k' a f1 l1 f' l' r E H IH]; [constructor|].
  cbn [pbind]. apply (st_do m x _ f l c _ a f1 l1); [exact E|exact IH].
Qed.

Lemma steps_exec m {A} xs f l (p : prog A) f' l' q :
  steps m xs f l p f' l' q ->
  exec xs f {| mach := m; here := l; code := p |} = (f', {| mach := m; here := l'; code := q |}).
Proof.
  intros H. induction H as [f l a|B' x xs f l c k' a f1 l1 f' l' r E H IH]; [reflexivity|].
  cbn [exec]. unfold step. cbn [code mach here]. rewrite E. exact IH.
Qed.

Lemma runs_try m {A B} xs ys f l (p : prog (result A)) f1 l1 a (k : A -> prog (result B)) f2 l2 b :
  runs_to m xs f l p f1 l1 (inl a) -> runs_to m ys f1 l1 (k a) f2 l2 b ->
  runs_to m (xs ++ ys) f l (try p k) f2 l2 b.
Proof. intros H K. apply (runs_to_bind m xs ys f l p f1 l1 (inl a)); assumption. Qed.

Lemma runs_say m {A} xs f l lv t x (k : prog A) f' l' r :
  runs_to m xs f (logs l {| rec_level := lv; rec_target := t; rec_text := x |}) k f' l' r ->
  runs_to m (Ok :: xs) f l (say lv t x k) f' l' r.
Proof. intros H. unfold say. eapply rt_do; [reflexivity|exact H]. Qed.

(** [l'] differs from [l] in what was logged. *)
Definition logged_only (l l' : local) : Prop := fresh l' = fresh l /\ tabs l' = tabs l.

(** The configuration is not found: it is absent, or [exists] cannot tell. *)
Definition not_found (x : choice) (f : fs) (p : path) : Prop :=
  (x = Ok /\ present f p = false) \/ exists e, x = Fail e.

Lemma runs_load_absent m st f l x : not_found x f (config_path st) ->
  runs_to m [x] f l (load_config st) f l (inl default_config).
Proof.
  intros N. unfold load_config. eapply rt_do; [|].
  - destruct N as [[-> N]|[e ->]]; cbn [answer]; [rewrite N|]; reflexivity.
  - constructor.
Qed.

Lemma runs_read m p f l b s : contents f p = Some b -> decode b = Some s ->
  exists l', logged_only l l' /\ runs_to m [Ok; Ok; Ok] f l (read_to_string p) f l' (inl s).
Proof.
  intros C D. eexists. split; [|unfold read_to_string; apply runs_say;
    eapply rt_do; [cbn [answer]; rewrite C; reflexivity|]; cbv beta iota zeta; rewrite D; apply runs_say; constructor].
  split; reflexivity.
Qed.

Definition convert (input : path) (o : format) (html : str) : prog (result unit) :=
  match o with
  | Html => write_to_file (out_path input o) html
  | Pdf => try (from_html html) (fun b => write_bytes (out_path input o) b)
  end.

(** A conversion without configuration, up to the rendering. *)
Lemma runs_convert n st m f x input o b s html :
  not_found x f (config_path st) ->
  contents f input = Some b -> decode b = Some s -> render n s = Ret html ->
  exists l, logged_only no_tabs l /\
  forall xs f' l' r k, runs_to m xs f l (convert input o html) f' l' r ->
    (exists l2, runs_to m (match r with inl _ => [] | inr _ => [Ok] end) f' l' (finish r) f' l2 k) ->
    exists l2, exec (x :: Ok :: Ok :: Ok :: Ok :: xs ++ match r with inl _ => [] | inr _ => [Ok] end)
      f (start m (main n st (CParse input o))) =
      (f', {| mach := m; here := l2; code := Done k |}).
Proof.
  intros Np Hb Hd Hr.
  destruct (runs_read m input f no_tabs b s Hb Hd) as (l & Ll & R1).
  exists (logs l {| rec_level := LInfo; rec_target := t_smd; rec_text := lit "Transpiling markdown" |}).
  split; [exact Ll|]. intros xs f' l' r k R (l2 & R2). exists l2. apply runs_to_exec.
  change (x :: Ok :: Ok :: Ok :: Ok :: xs ++ match r with inl _ => [] | inr _ => [Ok] end)
    with (([x] ++ [Ok; Ok; Ok] ++ Ok :: xs) ++ match r with inl _ => [] | inr _ => [Ok] end).
  unfold main. apply (runs_to_bind m _ _ f no_tabs _ f' l' r); [|exact R2].
  cbn [run]. apply (runs_try m [x] _ f no_tabs _ f no_tabs default_config);
    [apply runs_load_absent; exact Np|].
  apply (runs_try m [Ok; Ok; Ok] _ f no_tabs _ f l s); [exact R1|].
  apply runs_say. unfold rendering. rewrite Hr. exact R.
Qed.

Lemma runs_finish_ok m f l r : exists l2, runs_to m [] f l (finish (inl r)) f l2 0.
Proof. exists l. constructor. Qed.
Lemma runs_finish_err m f l e : exists l2, runs_to m [Ok] f l (finish (inr e)) f l2 1.
Proof. eexists. cbn [finish]. apply runs_say. constructor. Qed.

Lemma creatable_create m p f l : creatable f p ->
  exists i f' l', do_create m p f l = (inl i, (f', l')).
Proof.
  intros (q & R & [(i & N)|(N & D)]); unfold do_create; rewrite R, N.
  - eauto.
  - unfold is_dir. rewrite D. eauto.
Qed.

Lemma present_config_absent st f : names f (config_path st) = None ->
  present f (config_path st) = false.
Proof.
  intros N. unfold present. rewrite resolve_self by (rewrite N; intros t; discriminate).
  rewrite N. reflexivity.
Qed.

(** What a write takes. *)
Definition took (x : choice) (b : bytes) : bytes :=
  match x with Short k => firstn k b | _ => b end.

Lemma runs_cw m f l p b told x : unused m f l -> creatable f p ->
  (x = Ok \/ exists k, x = Short k) ->
  exists f' l', written f p (took x b) f' /\ unused m f' l' /\ tabs l' = tabs l /\
  runs_to m [Ok; x; Ok] f l (create_and_write p b told) f' l' (inl tt).
Proof.
  intros U C Hx.
  destruct (creatable_create m p f l C) as (i & f1 & l1 & E).
  pose proof (create_spec m p f l i f1 l1 U E) as Cr.
  pose proof (created_wrote m p f l i f1 l1 (took x b) Cr) as W.
  eexists _, (logs l1 {| rec_level := LInfo; rec_target := t_fs; rec_text := told (length (took x b)) |}).
  split; [exact W|]. split; [|split].
  - apply (logs_unused m _ l1). apply unused_set_data. apply (cr_unused _ _ _ _ _ _ _ Cr).
  - apply (cr_tabs _ _ _ _ _ _ _ Cr).
  - unfold create_and_write, try_io. eapply rt_do; [cbn [answer]; exact E|].
    destruct Hx as [->|[k ->]]; (eapply rt_do; [reflexivity|]); cbv iota beta;
      apply runs_say; constructor.
Qed.

Lemma runs_write m f l p s x : unused m f l -> creatable f p ->
  (x = Ok \/ exists k, x = Short k) ->
  exists f' l', written f p (took x (encode s)) f' /\ unused m f' l' /\ tabs l' = tabs l /\
  runs_to m [Ok; Ok; x; Ok] f l (write_to_file p s) f' l' (inl tt).
Proof.
  intros U C Hx. unfold write_to_file.
  match goal with |- context [say LDebug t_fs ?a (create_and_write p ?b ?told)] =>
    destruct (runs_cw m f (logs l {| rec_level := LDebug; rec_target := t_fs; rec_text := a |})
                p b told x U C Hx) as (f' & l' & W & U' & T & R) end.
  exists f', l'. split; [exact W|]. split; [exact U'|]. split; [exact T|]. apply runs_say. exact R.
Qed.
