(** * CliFacts: what the programs of Cli.v do to files. *)
From Coq Require Import Ascii String.
From Verif Require Import Strings StringsFacts Token Iter Lexer Parser Utf8 System Config Cli
  SpecCli SystemFacts.
Open Scope list_scope.

Definition prefix (a b : bytes) : Prop := exists c, b = a ++ c.

Lemma prefix_refl a : prefix a a.
Proof. exists []. symmetry. apply app_nil_r. Qed.
Lemma prefix_nil a : prefix [] a.
Proof. exists a. reflexivity. Qed.
Lemma prefix_firstn n a : prefix (firstn n a) a.
Proof. exists (skipn n a). symmetry. apply firstn_skipn. Qed.

(** [f'] is [f] with the file named [p] holding [w]. *)
Record written (f : fs) (p : path) (w : bytes) (f' : fs) : Prop := {
  wr_here : contents f' p = Some w;
  wr_alias : forall q, aliases f p q -> contents f' q = Some w;
  wr_other : forall q, ~ aliases f p q -> contents f' q = contents f q;
  wr_inode : forall q, ~ aliases f p q -> inode_of f' q = inode_of f q;
  wr_names : forall q, resolve max_links f p <> Some q -> names f' q = names f q;
  wr_resolve : forall n q, resolve n f' q = resolve n f q;
  wr_file : exists q i, resolve max_links f p = Some q /\ names f' q = Some (NFile i)
}.

Lemma created_written m p f l i f' l' : created m p f l i f' l' -> written f p [] f'.
Proof.
  intros C. constructor.
  - apply (cr_empty _ _ _ _ _ _ _ C).
  - intros q A. pose proof (cr_alias _ _ _ _ _ _ _ C q A) as E.
    pose proof (cr_inode _ _ _ _ _ _ _ C) as E'. pose proof (cr_empty _ _ _ _ _ _ _ C) as Em.
    unfold contents in *. rewrite E. rewrite E' in Em. exact Em.
  - intros q N. apply (cr_other _ _ _ _ _ _ _ C q N).
  - intros q N. apply (cr_other _ _ _ _ _ _ _ C q N).
  - apply (cr_names _ _ _ _ _ _ _ C).
  - apply (cr_resolve _ _ _ _ _ _ _ C).
  - pose proof (cr_inode _ _ _ _ _ _ _ C) as E. unfold inode_of in E.
    rewrite (cr_resolve _ _ _ _ _ _ _ C) in E.
    destruct (resolve max_links f p) as [q|]; [|discriminate]. exists q.
    destruct (names f' q) as [[j|t|]|]; try discriminate. exists j. auto.
Qed.

Lemma created_wrote m p f l i f' l' w : created m p f l i f' l' ->
  written f p w (set_data f' i (write_at 0 w (data f' i))).
Proof.
  intros C. pose proof (created_written _ _ _ _ _ _ _ C) as W.
  assert (E : data f' i = []).
  { pose proof (cr_inode _ _ _ _ _ _ _ C) as E'. pose proof (cr_empty _ _ _ _ _ _ _ C) as Em.
    unfold contents in Em. rewrite E' in Em. cbn in Em. injection Em as ->. reflexivity. }
  rewrite E, write_at_0. constructor.
  - apply contents_set_data_eq. apply (cr_inode _ _ _ _ _ _ _ C).
  - intros q A. apply contents_set_data_eq. apply (cr_alias _ _ _ _ _ _ _ C q A).
  - intros q N. destruct (cr_other _ _ _ _ _ _ _ C q N) as (E1 & E2 & E3).
    rewrite contents_set_data_neq by exact E2. exact E3.
  - intros q N. rewrite inode_of_set_data. apply (cr_other _ _ _ _ _ _ _ C q N).
  - apply (cr_names _ _ _ _ _ _ _ C).
  - intros n q. rewrite resolve_set_data. apply (cr_resolve _ _ _ _ _ _ _ C).
  - destruct (wr_file _ _ _ _ W) as (q & j & R & N). exists q, j. auto.
Qed.

(** ** Rules *)

Section Rules.
Variable P : choice -> Prop.
Variable m : machine.
Variable I : fs -> local -> Prop.

Definition logs (l : local) (r : record) : local :=
  {| fresh := fresh l; tabs := tabs l; logged := logged l ++ [r] |}.

Lemma safe_say {A} (Q : A -> fs -> local -> Prop) lv t x k f l :
  I f l -> safe P m I Q k f (logs l {| rec_level := lv; rec_target := t; rec_text := x |}) ->
  safe P m I Q (say lv t x k) f l.
Proof. intros Hi H. split; [exact Hi|]. intros y _. exact H. Qed.

Lemma safe_try {A B} (Q : result A -> fs -> local -> Prop) (R : result B -> fs -> local -> Prop)
  (p : prog (result A)) k f l :
  safe P m I Q p f l ->
  (forall a f' l', I f' l' -> Q (inl a) f' l' -> safe P m I R (k a) f' l') ->
  (forall e f' l', I f' l' -> Q (inr e) f' l' -> R (inr e) f' l') ->
  safe P m I R (try p k) f l.
Proof.
  intros H K E. apply (safe_bind P m I Q R); [exact H|].
  intros [a|e] f' l' Hi Hq; [apply K; assumption|]. split; [exact Hi|]. apply E; assumption.
Qed.

(** Calls that leave the files alone and keep what the process may allocate. *)
Definition pure {A} (c : call A) : Prop :=
  forall x f l, fst (snd (answer m c x f l)) = f /\ fresh (snd (snd (answer m c x f l))) = fresh l.

Lemma load_pure t p f l :
  fst (snd (load t p f l)) = f /\ fresh (snd (snd (load t p f l))) = fresh l.
Proof. unfold load. destruct (contents f p); cbn; auto. Qed.

Lemma pure_read p : pure (Read p).
Proof. intros x f l. destruct x; cbn; try destruct (contents f p); cbn; auto. Qed.
Lemma pure_exists p : pure (Exists p).
Proof. intros x f l. destruct x; cbn; auto. Qed.
Lemma pure_cwd : pure Cwd.
Proof. intros x f l. destruct x; cbn; auto. Qed.
Lemma pure_log r : pure (Log r).
Proof. intros x f l. destruct x; cbn; auto. Qed.
Lemma pure_launch : pure Launch.
Proof. intros x f l. destruct x; cbn; auto. Qed.
Lemma pure_newtab : pure NewTab.
Proof. intros x f l. destruct x; cbn; auto. Qed.
Lemma pure_navigate t p : pure (Navigate t p).
Proof. intros x f l. destruct x; cbn; auto using load_pure. Qed.
Lemma pure_wait t : pure (WaitNav t).
Proof.
  intros x f l. destruct x; cbn; try (destruct (nth t (tabs l) TBlank); cbn; auto using load_pure); auto.
Qed.
Lemma pure_print t : pure (Print t).
Proof. intros x f l. destruct x; cbn; try destruct (nth t (tabs l) TBlank); cbn; auto. Qed.

Lemma unused_fresh f l l' : unused m f l -> fresh l' = fresh l -> unused m f l'.
Proof. intros U E p k L. apply U. rewrite <- E. exact L. Qed.

(** Files stay as they are while pure calls are made. *)
Lemma safe_pure {A B} (Q : B -> fs -> local -> Prop) (c : call A) k f l :
  pure c -> I f l ->
  (forall a l', fresh l' = fresh l -> safe P m I Q (k a) f l') ->
  safe P m I Q (Do c k) f l.
Proof.
  intros Pc Hi H. split; [exact Hi|]. intros x _. cbv zeta.
  destruct (Pc x f l) as [E1 E2]. rewrite E1. apply H. exact E2.
Qed.

Variable f : fs.

(** Reading changes nothing. *)
Lemma safe_read p (Q : result str -> fs -> local -> Prop) l :
  (forall l', fresh l' = fresh l -> I f l') ->
  (forall s l', fresh l' = fresh l -> (exists b, contents f p = Some b /\ decode b = Some s) ->
     Q (inl s) f l') ->
  (forall t l', fresh l' = fresh l -> Q (inr (IoError t)) f l') ->
  safe P m I Q (read_to_string p) f l.
Proof.
  intros Hi Hs He. unfold read_to_string. apply safe_say; [apply Hi; reflexivity|].
  split; [apply Hi; reflexivity|]. intros x _. cbv zeta.
  assert (E : exists l', fresh l' = fresh l /\ exists r, answer m (Read p) x f
     (logs l {| rec_level := LDebug; rec_target := t_fs;
                rec_text := lit "Attempting to read file: " ++ display p |}) = (r, (f, l')) /\
     match r with inl b => contents f p = Some b | inr _ => True end).
  { destruct x; cbn [answer]; destruct (contents f p) eqn:C; eexists;
      (split; [|eexists; split; [reflexivity|auto]]); reflexivity. }
  destruct E as (l' & Ef & r & -> & Hr). cbn [fst snd].
  destruct r as [b|e].
  - destruct (decode b) as [s|] eqn:D.
    + apply safe_say; [apply Hi; exact Ef|]. split; [apply Hi; exact Ef|].
      apply Hs; [exact Ef|]. exists b. auto.
    + apply safe_say; [apply Hi; exact Ef|]. split; [apply Hi; exact Ef|]. apply He. exact Ef.
  - apply safe_say; [apply Hi; exact Ef|]. split; [apply Hi; exact Ef|]. apply He. exact Ef.
Qed.

(** Writing a file. *)
Lemma safe_cw (Q : result unit -> fs -> local -> Prop) p b told l :
  unused m f l ->
  (forall l', unused m f l' -> tabs l' = tabs l -> I f l') ->
  (forall w f' l', prefix w b -> written f p w f' -> unused m f' l' -> tabs l' = tabs l -> I f' l') ->
  (forall w f' l', (w = b \/ exists n, P (Short n) /\ w = firstn n b) ->
     written f p w f' -> unused m f' l' -> tabs l' = tabs l -> Q (inl tt) f' l') ->
  (forall e f' l', (f' = f \/ written f p [] f') -> unused m f' l' -> tabs l' = tabs l ->
     Q (inr e) f' l') ->
  safe P m I Q (create_and_write p b told) f l.
Proof.
  intros U I0 I1 Qok Qerr. unfold create_and_write, try_io.
  split; [apply I0; auto|]. intros x Px. cbv zeta.
  assert (E : (exists e, answer m (Create p) x f l = (inr e, (f, l))) \/
              (exists i f1 l1, answer m (Create p) x f l = (inl i, (f1, l1)) /\
                created m p f l i f1 l1)).
  { assert (D : (exists e, do_create m p f l = (inr e, (f, l))) \/
              (exists i f1 l1, do_create m p f l = (inl i, (f1, l1)) /\ created m p f l i f1 l1)).
    { destruct (do_create m p f l) as [[i|e] [f1 l1]] eqn:D.
      - right. exists i, f1, l1. split; [reflexivity|]. apply create_spec; assumption.
      - left. apply create_fail in D as [-> ->]. exists e. reflexivity. }
    destruct x; cbn [answer]; try exact D. left. exists m0. reflexivity. }
  destruct E as [[e ->]|(i & f1 & l1 & -> & C)]; cbn [fst snd].
  { split; [apply I0; auto|]. apply Qerr; auto. }
  pose proof (created_written _ _ _ _ _ _ _ C) as W.
  pose proof (cr_unused _ _ _ _ _ _ _ C) as U1. pose proof (cr_tabs _ _ _ _ _ _ _ C) as T1.
  split; [apply (I1 [] f1 l1); auto using prefix_nil|]. intros y Py. cbv zeta.
  assert (E : (exists e, answer m (Write i 0 b) y f1 l1 = (inr e, (f1, l1))) \/
              (exists w, (w = b \/ exists n, P (Short n) /\ w = firstn n b) /\
                answer m (Write i 0 b) y f1 l1 =
                  (inl (length w), (set_data f1 i (write_at 0 w (data f1 i)), l1)))).
  { destruct y; cbn [answer]; eauto 10. }
  destruct E as [[e ->]|(w & Hw & ->)]; cbn [fst snd].
  - apply safe_say; [apply (I1 [] f1 l1); auto using prefix_nil|].
    split; [apply (I1 [] f1); auto using prefix_nil|].
    apply Qerr; auto.
  - pose proof (created_wrote _ _ _ _ _ _ _ w C) as W2.
    assert (Pw : prefix w b).
    { destruct Hw as [->|(n & _ & ->)]; [apply prefix_refl|apply prefix_firstn]. }
    apply safe_say; [apply (I1 w _ l1); auto|].
    split; [apply (I1 w); auto|]. apply (Qok w); auto.
Qed.

Lemma safe_write_to_file (Q : result unit -> fs -> local -> Prop) p s l :
  unused m f l ->
  (forall l', unused m f l' -> tabs l' = tabs l -> I f l') ->
  (forall w f' l', prefix w (encode s) -> written f p w f' -> unused m f' l' -> tabs l' = tabs l -> I f' l') ->
  (forall w f' l', (w = encode s \/ exists n, P (Short n) /\ w = firstn n (encode s)) ->
     written f p w f' -> unused m f' l' -> tabs l' = tabs l -> Q (inl tt) f' l') ->
  (forall e f' l', (f' = f \/ written f p [] f') -> unused m f' l' -> tabs l' = tabs l ->
     Q (inr e) f' l') ->
  safe P m I Q (write_to_file p s) f l.
Proof.
  intros U I0 I1 Qok Qerr. unfold write_to_file. apply safe_say; [apply I0; auto|].
  apply safe_cw; auto.
Qed.

Lemma safe_write_bytes (Q : result unit -> fs -> local -> Prop) p b l :
  unused m f l ->
  (forall l', unused m f l' -> tabs l' = tabs l -> I f l') ->
  (forall w f' l', prefix w b -> written f p w f' -> unused m f' l' -> tabs l' = tabs l -> I f' l') ->
  (forall w f' l', (w = b \/ exists n, P (Short n) /\ w = firstn n b) ->
     written f p w f' -> unused m f' l' -> tabs l' = tabs l -> Q (inl tt) f' l') ->
  (forall e f' l', (f' = f \/ written f p [] f') -> unused m f' l' -> tabs l' = tabs l ->
     Q (inr e) f' l') ->
  safe P m I Q (write_bytes p b) f l.
Proof.
  intros U I0 I1 Qok Qerr. unfold write_bytes. apply safe_say; [apply I0; auto|].
  apply safe_cw; auto.
Qed.

(** Loading the configuration changes nothing. *)
Lemma safe_load_config st (Q : result config -> fs -> local -> Prop) l :
  (forall l', fresh l' = fresh l -> I f l') ->
  (forall r l', fresh l' = fresh l -> Q r f l') ->
  safe P m I Q (load_config st) f l.
Proof.
  intros Hi Hq. unfold load_config. apply safe_pure; [apply pure_exists|apply Hi; reflexivity|].
  intros there l1 E1. destruct there.
  - apply (safe_try (fun r f' l' => f' = f /\ fresh l' = fresh l)).
    + apply safe_read; [intros; apply Hi; congruence| |]; intros; split; congruence.
    + intros content f' l' _ [-> E2].
      destruct (parse_from_str (toml st) (environ st) content); (split; [apply Hi; exact E2|apply Hq; exact E2]).
    + intros e f' l' _ [-> E2]. apply Hq. exact E2.
  - split; [apply Hi; exact E1|apply Hq; exact E1].
Qed.
End Rules.

(** ** smd parse -o html *)

(** What was read and what it renders to. *)
Definition rendered (n : nat) (f : fs) (input : path) (s html : str) : Prop :=
  (exists b, contents f input = Some b /\ decode b = Some s) /\ render n s = Ret html.

(** How much of [b] a write may have taken. *)
Definition taken (P : choice -> Prop) (b w : bytes) : Prop :=
  w = b \/ exists n, P (Short n) /\ w = firstn n b.

Lemma taken_prefix P b w : taken P b w -> prefix w b.
Proof. intros [->|(n & _ & ->)]; [apply prefix_refl|apply prefix_firstn]. Qed.

Definition html_stage (n : nat) (f : fs) (input : path) (f' : fs) : Prop :=
  f' = f \/
  exists s html w, rendered n f input s html /\ prefix w (encode html) /\
    written f (out_path input Html) w f'.

Definition html_result P (n : nat) (f : fs) (input : path) (r : result unit) (f' : fs) : Prop :=
  match r with
  | inl _ => exists s html w, rendered n f input s html /\ taken P (encode html) w /\
               written f (out_path input Html) w f'
  | inr _ => f' = f \/ exists s html, rendered n f input s html /\
               written f (out_path input Html) [] f'
  end.

Lemma safe_html P m n st input f l : unused m f l ->
  safe P m (fun f' l' => html_stage n f input f' /\ unused m f' l')
    (fun r f' _ => html_result P n f input r f')
    (run n st (CParse input Html)) f l.
Proof.
  intros U. cbn [run].
  assert (I0 : forall l', fresh l' = fresh l -> html_stage n f input f /\ unused m f l').
  { intros l' E. split; [left; reflexivity|]. apply (unused_fresh m f l); assumption. }
  apply (safe_try P m _ (fun _ f' l' => f' = f /\ fresh l' = fresh l)).
  - apply safe_load_config; [exact I0|]. auto.
  - intros _cfg f1 l1 _ [-> E1].
    apply (safe_try P m _ (fun r f' l' => f' = f /\ fresh l' = fresh l /\
             match r with
             | inl s => exists b, contents f input = Some b /\ decode b = Some s
             | inr _ => True
             end)).
    + apply safe_read; [intros; apply I0; congruence| |]; intros; repeat split; congruence || auto.
    + intros s f2 l2 _ (-> & E2 & B). apply safe_say; [apply I0; exact E2|].
      unfold rendering. destruct (render n s) as [html| |] eqn:R; [|apply I0; exact E2|apply I0; exact E2].
      assert (Rd : rendered n f input s html) by (split; assumption).
      assert (U2 : unused m f l2) by (apply (unused_fresh m f l); assumption).
      apply safe_write_to_file.
      * exact U2.
      * intros l' U' _. split; [left; reflexivity|exact U'].
      * intros w f' l' Pw W U' _. split; [right; exists s, html, w; auto|exact U'].
      * intros w f' l' Tk W U' _. exists s, html, w. auto.
      * intros e f' l' W U' _. destruct W as [->|W]; [left; reflexivity|right; exists s, html; auto].
    + intros e f2 l2 _ (-> & _). left. reflexivity.
  - intros e f1 l1 _ [-> _]. left. reflexivity.
Qed.

(** ** main *)

Definition error_record (e : error) : record :=
  {| rec_level := LError; rec_target := t_smd; rec_text := display_error e |}.

(** What main does with the result. *)
Definition finish (r : result unit) : prog nat :=
  match r with
  | inl _ => Done 0
  | inr e => say LError t_smd (display_error e) (Done 1)
  end.

Lemma finish_exec P m (I : fs -> local -> Prop) (Q : result unit -> fs -> Prop) r f l xs :
  (forall f l r, I f l -> I f (logs l r)) ->
  safe P m I (fun r f' _ => Q r f') r f l ->
  Forall P xs ->
  let f' := fst (exec xs f {| mach := m; here := l; code := pbind r finish |}) in
  let p' := snd (exec xs f {| mach := m; here := l; code := pbind r finish |}) in
  I f' (here p') /\
  (status p' = Some 0 -> Q (inl tt) f') /\
  (status p' = Some 1 -> exists e pre, Q (inr e) f' /\ logged (here p') = pre ++ [error_record e]) /\
  (forall k, status p' = Some k -> k = 0 \/ k = 1 \/ k = 101).
Proof.
  intros Hl H F f' p'.
  pose (R := fun (k : nat) (g : fs) (l : local) =>
    match k with
    | 0 => Q (inl tt) g
    | 1 => exists e pre, Q (inr e) g /\ logged l = pre ++ [error_record e]
    | _ => False
    end).
  assert (Sm : safe P m I R (pbind r finish) f l).
  { apply (safe_bind P m I (fun r f' _ => Q r f') R); [exact H|].
    intros [[]|e] g l' Hi Hq; cbn [finish].
    - split; [exact Hi|exact Hq].
    - apply safe_say; [exact Hi|]. split; [apply Hl; exact Hi|].
      exists e, (logged l'). split; [exact Hq|reflexivity]. }
  destruct (safe_exec P m I R xs f {| mach := m; here := l; code := pbind r finish |} eq_refl F Sm)
    as [_ S'].
  fold f' p' in S'. split; [apply (safe_inv P m I R _ _ _ S')|].
  unfold status. destruct (code p') as [k| | |B c' k'] eqn:E; cbn [safe] in S'.
  - destruct S' as [_ S']. split; [intros K; injection K as ->; exact S'|].
    split; [intros K; injection K as ->; exact S'|].
    intros k0 K. injection K as <-. destruct k as [|[|k]]; auto. destruct S'.
  - repeat split; try discriminate. intros k K. injection K as <-. auto.
  - repeat split; discriminate.
  - repeat split; discriminate.
Qed.

Lemma main_exec P m (I : fs -> local -> Prop) (Q : result unit -> fs -> Prop) n st c f xs :
  (forall f l r, I f l -> I f (logs l r)) ->
  safe P m I (fun r f' _ => Q r f') (run n st c) f no_tabs ->
  Forall P xs ->
  let f' := fst (exec xs f (start m (main n st c))) in
  let p' := snd (exec xs f (start m (main n st c))) in
  I f' (here p') /\
  (status p' = Some 0 -> Q (inl tt) f') /\
  (status p' = Some 1 -> exists e pre, Q (inr e) f' /\ logged (here p') = pre ++ [error_record e]) /\
  (forall k, status p' = Some k -> k = 0 \/ k = 1 \/ k = 101).
Proof. intros Hl H F. apply (finish_exec P m I Q (run n st c) f no_tabs xs Hl H F). Qed.

(** ** smd parse -o pdf *)

(** [f'] is [f] without the name [p]. *)
Definition removed (f : fs) (p : path) (f' : fs) : Prop :=
  f' = set_name f p None /\ names f p <> None /\ names f p <> Some NDir.

Lemma safe_remove P m (I : fs -> local -> Prop) (Q : result bytes -> fs -> local -> Prop) p k f l :
  I f l ->
  (forall l', fresh l' = fresh l -> tabs l' = tabs l -> forall f', removed f p f' ->
     safe P m I Q (k tt) f' l') ->
  (forall e, Q (inr e) f l) ->
  safe P m I Q (try_io (Remove p) k) f l.
Proof.
  intros Hi Hk He. split; [exact Hi|]. intros x _. cbv zeta.
  assert (E : (exists e, answer m (Remove p) x f l = (inr e, (f, l))) \/
              (exists f', answer m (Remove p) x f l = (inl tt, (f', l)) /\ removed f p f')).
  { unfold removed. destruct x; cbn [answer]; try (left; eexists; reflexivity);
      (destruct (names f p) as [[j|t|]|]; [right|right|left|left]);
      try (eexists; reflexivity); (eexists; split; [reflexivity|]); repeat split; discriminate. }
  destruct E as [[e ->]|(f' & -> & R)]; cbn [fst snd].
  - split; [exact Hi|apply He].
  - apply Hk; auto.
Qed.

Lemma removed_unused m f p f' l : removed f p f' -> unused m f l -> unused m f' l.
Proof.
  intros (-> & _) U q k L. cbn [names set_name]. destruct (path_eqb q p); [discriminate|].
  apply U. exact L.
Qed.

Lemma nth_set_tab l t x : t <= length (tabs l) -> nth t (tabs (set_tab l t x)) TBlank = x.
Proof.
  intros L. unfold set_tab. cbn [tabs]. rewrite app_nth2; rewrite firstn_length; [|lia].
  replace (t - Nat.min t (length (tabs l))) with 0 by lia. reflexivity.
Qed.

Lemma load_spec t p f l :
  (exists b, contents f p = Some b /\ load t p f l = (inl tt, (f, set_tab l t (TLoaded b)))) \/
  (exists e, load t p f l = (inr e, (f, l))).
Proof.
  unfold load. destruct (contents f p) as [b|] eqn:C; [left; exists b; auto|right; eauto].
Qed.

Definition tab_holds (f : fs) (p : path) (t : nat) (l : local) : Prop :=
  exists b, contents f p = Some b /\ nth t (tabs l) TBlank = TLoaded b.

Lemma safe_open_file P m (I : fs -> local -> Prop) (Q : result nat -> fs -> local -> Prop) p f l :
  (forall l', fresh l' = fresh l -> I f l') ->
  (forall t l', fresh l' = fresh l -> (exists q, visited p = Some q /\ tab_holds f q t l') -> Q (inl t) f l') ->
  (forall e l', fresh l' = fresh l -> Q (inr e) f l') ->
  safe P m I Q (open_file p) f l.
Proof.
  intros Hi Hq He. unfold open_file, try_io, try_browser.
  apply safe_pure; [apply pure_cwd|apply Hi; reflexivity|].
  intros [d|e] l1 E1; [|split; [apply Hi; exact E1|apply He; exact E1]].
  split; [apply Hi; exact E1|]. intros x _. cbv zeta.
  assert (E : (exists e, answer m NewTab x f l1 = (inr e, (f, l1))) \/
    answer m NewTab x f l1 =
      (inl (length (tabs l1)),
       (f, {| fresh := fresh l1; tabs := tabs l1 ++ [TBlank]; logged := logged l1 |}))).
  { destruct x; cbn [answer]; eauto. }
  destruct E as [[e ->]| ->]; cbn [fst snd]; [split; [apply Hi; exact E1|apply He; exact E1]|].
  set (l2 := {| fresh := fresh l1; tabs := tabs l1 ++ [TBlank]; logged := logged l1 |}).
  assert (E2 : fresh l2 = fresh l) by exact E1.
  assert (L2 : length (tabs l1) <= length (tabs l2)) by (cbn; rewrite app_length; lia).
  set (t := length (tabs l1)) in *. destruct (visited p) as [q|] eqn:Op; [|split; [apply Hi; exact E2|apply He; exact E2]].
  split; [apply Hi; exact E2|]. intros y _. cbv zeta.
  assert (E : (exists e, answer m (Navigate t q) y f l2 = (inr e, (f, l2))) \/
    answer m (Navigate t q) y f l2 = (inl tt, (f, set_tab l2 t (TLoading q))) \/
    (exists b, contents f q = Some b /\
       answer m (Navigate t q) y f l2 = (inl tt, (f, set_tab l2 t (TLoaded b))))).
  { destruct (load_spec t q f l2) as [(b & C & K)|[e K]];
      destruct y; cbn [answer]; rewrite ?K; eauto 10. }
  destruct E as [[e ->]|[-> |(b & C & ->)]]; cbn [fst snd].
  - split; [apply Hi; exact E2|apply He; exact E2].
  - split; [apply Hi; exact E2|]. intros z _. cbv zeta.
    set (l3 := set_tab l2 t (TLoading q)).
    assert (L3 : t <= length (tabs l3)).
    { cbn. rewrite !app_length, firstn_length. cbn [length]. cbn in L2. lia. }
    assert (E : (exists e, answer m (WaitNav t) z f l3 = (inr e, (f, l3))) \/
      (exists b, contents f q = Some b /\
         answer m (WaitNav t) z f l3 = (inl tt, (f, set_tab l3 t (TLoaded b))))).
    { assert (Nt : nth t (tabs l3) TBlank = TLoading q) by (apply nth_set_tab; exact L2).
      destruct (load_spec t q f l3) as [(b & C & K)|[e K]];
        destruct z; cbn [answer]; rewrite ?Nt, ?K; eauto 10. }
    destruct E as [[e ->]|(b & C & ->)]; cbn [fst snd].
    + split; [apply Hi; exact E2|apply He; exact E2].
    + split; [apply Hi; exact E2|]. apply Hq; [exact E2|]. exists q. split; [reflexivity|]. exists b. split; [exact C|].
      apply nth_set_tab. exact L3.
  - split; [apply Hi; exact E2|]. intros z _. cbv zeta.
    set (l3 := set_tab l2 t (TLoaded b)).
    assert (E : (exists e, answer m (WaitNav t) z f l3 = (inr e, (f, l3))) \/
                answer m (WaitNav t) z f l3 = (inl tt, (f, l3))).
    { assert (Nt : nth t (tabs l3) TBlank = TLoaded b) by (apply nth_set_tab; exact L2).
      destruct z; cbn [answer]; rewrite ?Nt; eauto 10. }
    destruct E as [[e ->]| ->]; cbn [fst snd].
    + split; [apply Hi; exact E2|apply He; exact E2].
    + split; [apply Hi; exact E2|]. apply Hq; [exact E2|]. exists q. split; [reflexivity|]. exists b. split; [exact C|].
      apply nth_set_tab. exact L2.
Qed.

Definition tmp_path (m : machine) : path := cwd m ++ [tmp_name].

(** What the browser shows. *)
Definition page (m : machine) (f : fs) (b : bytes) : Prop :=
  exists q, visited (tmp_path m) = Some q /\ contents f q = Some b.

(** The stages of a conversion to PDF: nothing done; the temporary file being
    written; removed; the output being written. *)

Inductive pdf_stage P m (n : nat) (f : fs) (input : path) (f' : fs) : Prop :=
| PS0 : f' = f -> pdf_stage P m n f input f'
| PS1 s html w : rendered n f input s html -> prefix w (encode html) ->
    written f (tmp_path m) w f' -> pdf_stage P m n f input f'
| PS2 s html w f1 : rendered n f input s html -> taken P (encode html) w ->
    written f (tmp_path m) w f1 -> removed f1 (tmp_path m) f' -> pdf_stage P m n f input f'
| PS3 s html w f1 f2 b v : rendered n f input s html -> taken P (encode html) w ->
    written f (tmp_path m) w f1 -> removed f1 (tmp_path m) f2 ->
    page m f1 b -> prefix v (pdf_of m b) -> written f2 (out_path input Pdf) v f' -> pdf_stage P m n f input f'.

Definition pdf_result P m (n : nat) (f : fs) (input : path) (r : result unit) (f' : fs) : Prop :=
  match r with
  | inl _ => exists s html w f1 f2 b v, rendered n f input s html /\ taken P (encode html) w /\
      written f (tmp_path m) w f1 /\ removed f1 (tmp_path m) f2 /\
      page m f1 b /\ taken P (pdf_of m b) v /\ written f2 (out_path input Pdf) v f'
  | inr _ => pdf_stage P m n f input f'
  end.

Lemma safe_from_html P m (I : fs -> local -> Prop) (Q : result bytes -> fs -> local -> Prop) html f l :
  unused m f l ->
  (forall l', unused m f l' -> I f l') ->
  (forall w f' l', prefix w (encode html) -> written f (tmp_path m) w f' -> unused m f' l' -> I f' l') ->
  (forall w f1 f' l', taken P (encode html) w -> written f (tmp_path m) w f1 ->
     removed f1 (tmp_path m) f' -> unused m f' l' -> I f' l') ->
  (forall w f1 b f' l', taken P (encode html) w -> written f (tmp_path m) w f1 ->
     removed f1 (tmp_path m) f' -> page m f1 b -> unused m f' l' -> Q (inl (pdf_of m b)) f' l') ->
  (forall e f' l', unused m f' l' ->
     (f' = f \/ (exists w, prefix w (encode html) /\ written f (tmp_path m) w f') \/
      (exists w f1, taken P (encode html) w /\ written f (tmp_path m) w f1 /\
                    removed f1 (tmp_path m) f')) -> Q (inr e) f' l') ->
  safe P m I Q (from_html html) f l.
Proof.
  intros U I0 I1 I2 Hq He. unfold from_html, try_browser at 1.
  apply safe_pure; [apply pure_launch|apply I0; exact U|].
  intros [[]|e] l1 E1; (assert (U1 : unused m f l1) by (apply (unused_fresh m f l); assumption));
    [|split; [apply I0; exact U1|apply He; auto]].
  unfold try_io at 1. split; [apply I0; exact U1|]. intros x _. cbv zeta.
  assert (E : (exists e, answer m Cwd x f l1 = (inr e, (f, l1))) \/
              answer m Cwd x f l1 = (inl (cwd m), (f, l1))) by (destruct x; cbn [answer]; eauto).
  destruct E as [[e ->]| ->]; cbn [fst snd]; [split; [apply I0; exact U1|apply He; auto]|].
  change (cwd m ++ [tmp_name]) with (tmp_path m).
  apply (safe_try P m I (fun r f' l' => unused m f' l' /\
    match r with
    | inl _ => exists w, taken P (encode html) w /\ written f (tmp_path m) w f'
    | inr _ => f' = f \/ written f (tmp_path m) [] f'
    end)).
  - apply safe_write_to_file; auto.
    + intros w f' l' Pw W U' _. apply (I1 w); assumption.
    + intros w f' l' Tk W U' _. split; [exact U'|]. exists w. auto.
  - intros [] f1 l2 _ (U2 & w & Tk & W).
    assert (I1' : forall l', fresh l' = fresh l2 -> I f1 l').
    { intros l' E. apply (I1 w); [apply (taken_prefix P); exact Tk|exact W|].
      apply (unused_fresh m f1 l2); assumption. }
    apply (safe_try P m I (fun r f' l' => f' = f1 /\ fresh l' = fresh l2 /\
      match r with inl t => exists q, visited (tmp_path m) = Some q /\ tab_holds f1 q t l' | inr _ => True end)).
    + apply safe_open_file; [exact I1'| |]; auto.
    + intros t f' l3 _ (-> & E3 & T). apply safe_remove.
      * apply I1'. exact E3.
      * intros l4 E4 T4 f2 R.
        assert (U4 : unused m f2 l4).
        { apply (removed_unused m f1 (tmp_path m)); [exact R|].
          apply (unused_fresh m f1 l2); [exact U2|congruence]. }
        unfold try_browser. split; [apply (I2 w f1); assumption|]. intros y _. cbv zeta.
        destruct T as (q & Op & b & C & Nt). rewrite <- T4 in Nt.
        assert (E : (exists e, answer m (Print t) y f2 l4 = (inr e, (f2, l4))) \/
                    answer m (Print t) y f2 l4 = (inl (pdf_of m b), (f2, l4))).
        { destruct y; cbn [answer]; rewrite ?Nt; eauto. }
        destruct E as [[e ->]| ->]; cbn [fst snd]; (split; [apply (I2 w f1); assumption|]).
        -- apply He; [exact U4|]. right. right. exists w, f1. auto.
        -- apply (Hq w f1 b); try assumption. exists q. auto.
      * intros e. apply He; [apply (unused_fresh m f1 l2); assumption|]. right. left.
        exists w. split; [apply (taken_prefix P); exact Tk|exact W].
    + intros e f' l3 _ (-> & E3 & _). apply He; [apply (unused_fresh m f1 l2); assumption|]. right. left.
      exists w. split; [apply (taken_prefix P); exact Tk|exact W].
  - intros e f' l2 _ (U2 & [->|W]); apply He; auto. right. left. exists []. auto using prefix_nil.
Qed.

Lemma safe_pdf P m n st input f l : unused m f l ->
  safe P m (fun f' l' => pdf_stage P m n f input f' /\ unused m f' l')
    (fun r f' _ => pdf_result P m n f input r f')
    (run n st (CParse input Pdf)) f l.
Proof.
  intros U. cbn [run].
  assert (I0 : forall l', fresh l' = fresh l -> pdf_stage P m n f input f /\ unused m f l').
  { intros l' E. split; [apply PS0; reflexivity|]. apply (unused_fresh m f l); assumption. }
  apply (safe_try P m _ (fun _ f' l' => f' = f /\ fresh l' = fresh l)).
  - apply safe_load_config; [exact I0|]. auto.
  - intros _cfg f1 l1 _ [-> E1].
    apply (safe_try P m _ (fun r f' l' => f' = f /\ fresh l' = fresh l /\
             match r with
             | inl s => exists b, contents f input = Some b /\ decode b = Some s
             | inr _ => True
             end)).
    + apply safe_read; [intros; apply I0; congruence| |]; intros; repeat split; congruence || auto.
    + intros s f2 l2 _ (-> & E2 & B). apply safe_say; [apply I0; exact E2|].
      unfold rendering. destruct (render n s) as [html| |] eqn:R; [|apply I0; exact E2|apply I0; exact E2].
      assert (Rd : rendered n f input s html) by (split; assumption).
      apply (safe_try P m _ (fun r f' l' => unused m f' l' /\
        match r with
        | inl v => exists w f1 b, taken P (encode html) w /\ written f (tmp_path m) w f1 /\
                     removed f1 (tmp_path m) f' /\ page m f1 b /\ v = pdf_of m b
        | inr _ => pdf_stage P m n f input f'
        end)).
      * apply safe_from_html.
        -- apply (unused_fresh m f l); assumption.
        -- intros l' U'. split; [apply PS0; reflexivity|exact U'].
        -- intros w f' l' Pw W U'. split; [apply (PS1 P m n f input f' s html w); assumption|exact U'].
        -- intros w g f' l' Tk W Rm U'. split; [apply (PS2 P m n f input f' s html w g); assumption|exact U'].
        -- intros w g b f' l' Tk W Rm Pg U'. split; [exact U'|]. exists w, g, b. auto.
        -- intros e f' l' U' [->|[(w & Pw & W)|(w & g & Tk & W & Rm)]].
           ++ split; [exact U'|apply PS0; reflexivity].
           ++ split; [exact U'|apply (PS1 P m n f input f' s html w); assumption].
           ++ split; [exact U'|apply (PS2 P m n f input f' s html w g); assumption].
      * intros v0 f3 l3 [_ U3] (_ & w & g & b & Tk & W & Rm & Pg & ->).
        apply safe_write_bytes.
        -- exact U3.
        -- intros l' U' _. split; [apply (PS2 P m n f input f3 s html w g); assumption|exact U'].
        -- intros v f' l' Pv W' U' _.
           split; [apply (PS3 P m n f input f' s html w g f3 b v); assumption|exact U'].
        -- intros v f' l' Tv W' U' _. exists s, html, w, g, f3, b, v. auto 12.
        -- intros e f' l' [->|W'] U' _.
           ++ apply (PS2 P m n f input f3 s html w g); assumption.
           ++ apply (PS3 P m n f input f' s html w g f3 b []); auto using prefix_nil.
      * intros e f' l' _ [_ St]. exact St.
    + intros e f2 l2 _ (-> & _). apply PS0. reflexivity.
  - intros e f1 l1 _ [-> _]. apply PS0. reflexivity.
Qed.
