(** * Concurrent: two conversions at the same time.

    A process whose files are apart from those another process writes runs as if
    it were alone. *)
From Coq Require Import Ascii String.
From Verif Require Import Strings StringsFacts Token Iter Lexer Parser Utf8 System Config Cli
  SpecCli SystemFacts CliFacts CliMain CliRuns.
Open Scope list_scope.

(** ** What a program touches *)

Section Fits.
Variable m : machine.
Variables R W X : path -> Prop.   (* names it reads, writes, removes *)

Definition call_ok (H : handle -> Prop) {A} (c : call A) : Prop :=
  match c with
  | Read p | Exists p | Navigate _ p => R p
  | Create p => W p
  | Write h _ _ => H h
  | Remove p => X p
  | Mkdirs _ => False
  | _ => True
  end.

Definition opened (H : handle -> Prop) {A} (c : call A) : A -> handle -> Prop :=
  match c in call B return B -> handle -> Prop with
  | Create _ => fun a h => H h \/ a = inl h
  | _ => fun _ => H
  end.

Definition possible {A} (c : call A) : A -> Prop :=
  match c in call B return B -> Prop with
  | Cwd => fun a => a = inl (cwd m) \/ exists e, a = inr e
  | _ => fun _ => True
  end.

Fixpoint fits (H : handle -> Prop) {A} (p : prog A) : Prop :=
  match p with
  | Do c k => call_ok H c /\ forall a, possible c a -> fits (opened H c a) (k a)
  | _ => True
  end.

Lemma fits_mono {A} (p : prog A) : forall H H' : handle -> Prop,
  (forall h, H h -> H' h) -> fits H p -> fits H' p.
Proof.
  induction p as [a| | |B c k IH]; intros H H' S F; cbn [fits] in *; auto.
  destruct F as [O F]. split.
  - destruct c; cbn [call_ok] in *; auto.
  - intros a Pa. apply (IH a (opened H c a)); [|apply F; exact Pa].
    destruct c; cbn [opened]; auto. intros h [K|K]; auto.
Qed.

Lemma fits_bind {A B} (p : prog A) (k : A -> prog B) : forall H,
  fits H p -> (forall a, fits (fun _ => False) (k a)) -> fits H (pbind p k).
Proof.
  induction p as [a| | |C c q IH]; intros H F K; cbn [fits pbind] in *; auto.
  - apply (fits_mono (k a) (fun _ => False)); [tauto|apply K].
  - destruct F as [O F]. split; [exact O|]. intros a Pa. apply IH; [apply F; exact Pa|exact K].
Qed.

Lemma fits_say {A} H lv t x (k : prog A) : fits H k -> fits H (say lv t x k).
Proof. intros F. split; [exact Logic.I|]. intros a _. exact F. Qed.

Lemma fits_try {A B} (p : prog (result A)) (k : A -> prog (result B)) H :
  fits H p -> (forall a, fits (fun _ => False) (k a)) -> fits H (try p k).
Proof. intros F K. apply fits_bind; [exact F|]. intros [a|e]; [apply K|exact Logic.I]. Qed.

Lemma fits_read H p : R p -> fits H (read_to_string p).
Proof.
  intros Rp. apply fits_say. split; [exact Rp|]. intros r _. cbv zeta.
  destruct r as [b|e]; [destruct (decode b)|]; apply fits_say; exact Logic.I.
Qed.

Lemma fits_cw H p b told : W p -> fits H (create_and_write p b told).
Proof.
  intros Wp. split; [exact Wp|]. intros [h|e] _; [|exact Logic.I].
  split; [right; reflexivity|]. intros [n|e] _; apply fits_say; exact Logic.I.
Qed.

Lemma fits_write H p s : W p -> fits H (write_to_file p s).
Proof. intros Wp. apply fits_say, fits_cw. exact Wp. Qed.
Lemma fits_write_bytes H p s : W p -> fits H (write_bytes p s).
Proof. intros Wp. apply fits_say, fits_cw. exact Wp. Qed.

Lemma fits_load H st : R (config_path st) -> fits H (load_config st).
Proof.
  intros Rp. split; [exact Rp|]. intros [|] _; [|exact Logic.I].
  apply fits_try; [apply fits_read; exact Rp|]. intros s.
  destruct (parse_from_str (toml st) (environ st) s); exact Logic.I.
Qed.

Lemma fits_from_html H html : (forall q, visited (tmp_path m) = Some q -> R q) -> W (tmp_path m) -> X (tmp_path m) ->
  fits H (from_html html).
Proof.
  intros Rt Wt Xt. unfold from_html, try_browser at 1. split; [exact Logic.I|].
  intros [[]|e] _; [|exact Logic.I]. unfold try_io at 1. split; [exact Logic.I|].
  intros a [->|[e ->]]; [|exact Logic.I]. cbv zeta. fold (tmp_path m).
  apply fits_try; [apply fits_write; exact Wt|]. intros [].
  apply fits_try.
  - unfold open_file, try_io. split; [exact Logic.I|]. intros [d|e] _; [|exact Logic.I].
    split; [exact Logic.I|]. intros [t|e] _; [|exact Logic.I].
    destruct (visited (tmp_path m)) as [q|]; [|exact Logic.I].
    split; [apply Rt; reflexivity|]. intros [[]|e] _; [|exact Logic.I].
    split; [exact Logic.I|]. intros [[]|e] _; exact Logic.I.
  - intros t. unfold try_io. split; [exact Xt|]. intros [[]|e] _; [|exact Logic.I].
    split; [exact Logic.I|]. intros [b|e] _; exact Logic.I.
Qed.

Lemma fits_parse n st input o :
  R (config_path st) -> R input -> (forall q, visited (tmp_path m) = Some q -> R q) -> W (tmp_path m) -> X (tmp_path m) ->
  W (out_path input o) -> fits (fun _ => False) (main n st (CParse input o)).
Proof.
  intros Rc Ri Rt Wt Xt Wo. unfold main. apply fits_bind.
  - cbn [run]. apply fits_try; [apply fits_load; exact Rc|]. intros _.
    apply fits_try; [apply fits_read; exact Ri|]. intros s. apply fits_say.
    unfold rendering. destruct (render n s) as [html| |]; [|exact Logic.I|exact Logic.I].
    destruct o.
    + apply fits_try; [apply fits_from_html; assumption|]. intros b. apply fits_write_bytes. exact Wo.
    + apply fits_write. exact Wo.
  - intros [u|e]; [exact Logic.I|]. apply fits_say. exact Logic.I.
Qed.
End Fits.

(** ** Changes of names *)

Lemma inode_of_set_name f q o p : not_link (names f q) -> not_link o ->
  inode_of (set_name f q o) p =
  match resolve max_links f p with
  | Some r => if path_eqb r q then match o with Some (NFile i) => Some i | _ => None end
              else match names f r with Some (NFile i) => Some i | _ => None end
  | None => None
  end.
Proof.
  intros N1 N2. unfold inode_of. rewrite resolve_set_name by assumption.
  destruct (resolve max_links f p) as [r|]; [|reflexivity]. cbn [names set_name].
  destruct (path_eqb r q); reflexivity.
Qed.

(** ** The invariant *)

Section Frame.
Variable f0 : fs.
Variables mA mB : machine.
Variables RA WA XA RB WB XB : path -> Prop.
Hypothesis pids : pid mA <> pid mB.
Hypothesis write_read : forall p, WA p -> RA p.
Hypothesis remove_write : forall p, XA p -> WA p.
Hypothesis remove_writeB : forall p, XB p -> WB p.
Hypothesis plainA : forall p, XA p -> not_link (names f0 p).
Hypothesis plainB : forall p, XB p -> not_link (names f0 p).
Hypothesis apart : forall p q, RA p -> WB q -> ~ aliases f0 p q.

(** An inode that is not one the process will allocate. *)
Definition old (m : machine) (l : local) (i : inode) : Prop :=
  forall k, fresh l <= k -> i <> (pid m, k).

Definition uses (f : fs) (H : handle -> Prop) (i : inode) : Prop :=
  (exists p, RA p /\ inode_of f p = Some i) \/ H i.
Definition touches (f : fs) (H : handle -> Prop) (i : inode) : Prop :=
  (exists p, WB p /\ inode_of f p = Some i) \/ H i.

Lemma uses_set_data f h b H i : uses (set_data f h b) H i -> uses f H i.
Proof.
  intros [(p & Rp & E)|Hi]; [left; exists p; rewrite inode_of_set_data in E; auto|right; exact Hi].
Qed.
Lemma touches_set_data f h b H i : touches (set_data f h b) H i -> touches f H i.
Proof.
  intros [(p & Rp & E)|Hi]; [left; exists p; rewrite inode_of_set_data in E; auto|right; exact Hi].
Qed.

Record inv (f g : fs) (lA lB : local) (HA HB : handle -> Prop) : Prop := {
  iv_resf : forall k q, resolve k f q = resolve k f0 q;
  iv_resg : forall k q, resolve k g q = resolve k f0 q;
  iv_dir : forall q, is_dir f q = is_dir g q;
  iv_names : forall p q, RA p -> resolve max_links f0 p = Some q -> names f q = names g q;
  iv_data : forall i, uses f HA i -> data f i = data g i;
  iv_apart : forall i, uses f HA i -> touches f HB i -> False;
  iv_oldf : forall q i, names f q = Some (NFile i) -> old mA lA i /\ old mB lB i;
  iv_oldH : forall h, HA h \/ HB h -> old mA lA h /\ old mB lB h;
  iv_tabs : forall p, In (TLoading p) (tabs lA) -> RA p
}.

Section Step.
Variables (f g : fs) (lA lB : local) (HA HB : handle -> Prop).
Hypothesis I : inv f g lA lB HA HB.

Lemma same_inode p : RA p -> inode_of f p = inode_of g p.
Proof.
  intros Rp. unfold inode_of. rewrite (iv_resf _ _ _ _ _ _ I), (iv_resg _ _ _ _ _ _ I).
  destruct (resolve max_links f0 p) as [q|] eqn:E; [|reflexivity].
  rewrite (iv_names _ _ _ _ _ _ I p q Rp E). reflexivity.
Qed.

Lemma same_contents p : RA p -> contents f p = contents g p.
Proof.
  intros Rp. unfold contents. rewrite <- (same_inode p Rp).
  destruct (inode_of f p) as [i|] eqn:E; [|reflexivity]. cbn. f_equal.
  apply (iv_data _ _ _ _ _ _ I). left. exists p. auto.
Qed.

Lemma same_present p : RA p -> present f p = present g p.
Proof.
  intros Rp. unfold present. rewrite (iv_resf _ _ _ _ _ _ I), (iv_resg _ _ _ _ _ _ I).
  destruct (resolve max_links f0 p) as [q|] eqn:E; [|reflexivity].
  rewrite (iv_names _ _ _ _ _ _ I p q Rp E). reflexivity.
Qed.

Lemma inode_named h p : inode_of h p <> None -> exists q i, names h q = Some (NFile i) /\ inode_of h p = Some i.
Proof.
  unfold inode_of. destruct (resolve max_links h p) as [q|]; [|congruence].
  destruct (names h q) as [[i|t|]|] eqn:E; try congruence. intros _. exists q, i. auto.
Qed.

Lemma inode_old p i : inode_of f p = Some i -> old mA lA i /\ old mB lB i.
Proof.
  intros E. destruct (inode_named f p) as (q & j & N & E'); [congruence|].
  rewrite E in E'. injection E' as <-. apply (iv_oldf _ _ _ _ _ _ I q i N).
Qed.

Lemma apart_names p p' q : RA p -> WB p' ->
  resolve max_links f0 p = Some q -> resolve max_links f0 p' = Some q -> False.
Proof. intros Rp Wp E E'. apply (apart p p' Rp Wp). left. congruence. Qed.

(** Only the log or the tabs of a process change. *)
Lemma inv_localA l' : fresh l' = fresh lA -> (forall p, In (TLoading p) (tabs l') -> RA p) ->
  inv f g l' lB HA HB.
Proof.
  intros E T. destruct I as [rf rg dr nm dt ap of oh tb].
  constructor; [exact rf|exact rg|exact dr|exact nm|exact dt|exact ap| | |exact T];
    unfold old in *; rewrite E; assumption.
Qed.

Lemma inv_localB l' : fresh l' = fresh lB -> inv f g lA l' HA HB.
Proof.
  intros E. destruct I as [rf rg dr nm dt ap of oh tb].
  constructor; [exact rf|exact rg|exact dr|exact nm|exact dt|exact ap| | |exact tb];
    unfold old in *; rewrite E; assumption.
Qed.

(** Writing data. *)
Lemma inv_dataA h b : uses f HA h -> inv (set_data f h b) (set_data g h b) lA lB HA HB.
Proof.
  intros U. destruct I as [rf rg dr nm dt ap of oh tb].
  constructor; [| |exact dr|exact nm| | |exact of|exact oh|exact tb].
  - intros k q. rewrite resolve_set_data. apply rf.
  - intros k q. rewrite resolve_set_data. apply rg.
  - intros i Ui. cbn [data set_data]. apply uses_set_data in Ui.
    destruct (ino_eqb i h); [reflexivity|]. apply dt. exact Ui.
  - intros i Ui T. apply uses_set_data in Ui. apply touches_set_data in T. apply (ap i Ui T).
Qed.

Lemma inv_dataB h b : touches f HB h -> inv (set_data f h b) g lA lB HA HB.
Proof.
  intros T. destruct I as [rf rg dr nm dt ap of oh tb].
  constructor; [|exact rg|exact dr|exact nm| | |exact of|exact oh|exact tb].
  - intros k q. rewrite resolve_set_data. apply rf.
  - intros i Ui. apply uses_set_data in Ui. cbn [data set_data].
    destruct (ino_eqb i h) eqn:E; [|apply dt; exact Ui].
    apply ino_eqb_eq in E. subst i. destruct (ap h Ui T).
  - intros i Ui T'. apply uses_set_data in Ui. apply touches_set_data in T'. apply (ap i Ui T').
Qed.

(** A new handle. *)
Lemma inv_openA h : uses f HA h -> inv f g lA lB (fun x => HA x \/ @inl handle str h = inl x) HB.
Proof.
  intros U. destruct I as [rf rg dr nm dt ap of oh tb].
  assert (Us : forall i, uses f (fun x => HA x \/ @inl handle str h = inl x) i -> uses f HA i).
  { intros i [Ui|[Ui|Ui]]; [left; exact Ui|right; exact Ui|injection Ui as <-; exact U]. }
  constructor; [exact rf|exact rg|exact dr|exact nm| | |exact of| |exact tb].
  - intros i Ui. apply dt. apply Us. exact Ui.
  - intros i Ui T. apply (ap i); [apply Us; exact Ui|exact T].
  - intros x [[Hx|Hx]|Hx]; [apply oh; auto| |apply oh; auto]. injection Hx as <-.
    destruct U as [(p & Rp & E)|Hh]; [apply (inode_old p h E)|apply oh; auto].
Qed.

Lemma inv_openB h : touches f HB h -> inv f g lA lB HA (fun x => HB x \/ @inl handle str h = inl x).
Proof.
  intros U. destruct I as [rf rg dr nm dt ap of oh tb].
  constructor; [exact rf|exact rg|exact dr|exact nm|exact dt| |exact of| |exact tb].
  - intros i Ui [T|[T|T]]; [apply (ap i Ui); left; exact T|apply (ap i Ui); right; exact T|].
    injection T as <-. apply (ap h Ui U).
  - intros x [Hx|[Hx|Hx]]; [apply oh; auto|apply oh; auto|]. injection Hx as <-.
    destruct U as [(p & Rp & E)|Hh]; [apply (inode_old p h E)|apply oh; auto].
Qed.

(** Removing a name. *)
Lemma plain_self p : not_link (names f0 p) -> resolve max_links f0 p = Some p.
Proof. apply resolve_self. Qed.

Lemma plain_f p : not_link (names f0 p) -> not_link (names f p).
Proof.
  intros N. apply (resolve_end max_links f p p). rewrite (iv_resf _ _ _ _ _ _ I). apply plain_self. exact N.
Qed.
Lemma plain_g p : not_link (names f0 p) -> not_link (names g p).
Proof.
  intros N. apply (resolve_end max_links g p p). rewrite (iv_resg _ _ _ _ _ _ I). apply plain_self. exact N.
Qed.

Lemma no_link_none : not_link None.
Proof. intros t. discriminate. Qed.

Lemma inode_removed p q i : not_link (names f p) ->
  inode_of (set_name f p None) q = Some i -> inode_of f q = Some i.
Proof.
  intros N. rewrite inode_of_set_name; [|exact N|apply no_link_none]. unfold inode_of.
  destruct (resolve max_links f q) as [r|]; [|discriminate].
  destruct (path_eqb r p); [discriminate|auto].
Qed.

Lemma inv_removeA p : XA p -> is_dir f p = false ->
  inv (set_name f p None) (set_name g p None) lA lB HA HB.
Proof.
  intros Xp Nd. pose proof (plain_f p (plainA p Xp)) as Nf. pose proof (plain_g p (plainA p Xp)) as Ng.
  pose proof (fun q i => inode_removed p q i Nf) as Ir.
  destruct I as [rf rg dr nm dt ap of oh tb].
  assert (Us : forall i, uses (set_name f p None) HA i -> uses f HA i).
  { intros i [(q & Rq & E)|Hi]; [left; exists q; split; [exact Rq|apply (Ir q i E)]|right; exact Hi]. }
  constructor; [| | | | | | |exact oh|exact tb].
  - intros k q. rewrite resolve_set_name; [apply rf|exact Nf|apply no_link_none].
  - intros k q. rewrite resolve_set_name; [apply rg|exact Ng|apply no_link_none].
  - intros q. unfold is_dir. cbn [names set_name]. destruct (path_eqb q p); [reflexivity|]. apply dr.
  - intros p' q Rp E. cbn [names set_name]. destruct (path_eqb q p); [reflexivity|]. apply (nm p' q Rp E).
  - intros i Ui. cbn [data set_name]. apply dt. apply Us. exact Ui.
  - intros i Ui T. apply (ap i); [apply Us; exact Ui|].
    destruct T as [(q & Wq & E)|Hi]; [left; exists q; split; [exact Wq|apply (Ir q i E)]|right; exact Hi].
  - intros q i. cbn [names set_name]. destruct (path_eqb q p); [discriminate|]. apply of.
Qed.

Lemma inv_removeB p : XB p -> is_dir f p = false -> inv (set_name f p None) g lA lB HA HB.
Proof.
  intros Xp Nd. pose proof (plain_f p (plainB p Xp)) as Nf.
  pose proof (fun q i => inode_removed p q i Nf) as Ir.
  pose proof (plain_self p (plainB p Xp)) as Rp.
  destruct I as [rf rg dr nm dt ap of oh tb].
  assert (Us : forall i, uses (set_name f p None) HA i -> uses f HA i).
  { intros i [(q & Rq & E)|Hi]; [left; exists q; split; [exact Rq|apply (Ir q i E)]|right; exact Hi]. }
  constructor; [|exact rg| | | | | |exact oh|exact tb].
  - intros k q. rewrite resolve_set_name; [apply rf|exact Nf|apply no_link_none].
  - intros q. unfold is_dir at 1. cbn [names set_name]. destruct (path_eqb q p) eqn:E; [|apply dr].
    apply path_eqb_eq in E. subst q. rewrite <- dr. symmetry. exact Nd.
  - intros p' q Rp' E. cbn [names set_name]. destruct (path_eqb q p) eqn:Q; [|apply (nm p' q Rp' E)].
    apply path_eqb_eq in Q. subst q.
    destruct (apart_names p' p p Rp' (remove_writeB p Xp) E Rp).
  - intros i Ui. cbn [data set_name]. apply dt. apply Us. exact Ui.
  - intros i Ui T. apply (ap i); [apply Us; exact Ui|].
    destruct T as [(q & Wq & E)|Hi]; [left; exists q; split; [exact Wq|apply (Ir q i E)]|right; exact Hi].
  - intros q i. cbn [names set_name]. destruct (path_eqb q p); [discriminate|]. apply of.
Qed.

(** Creating a name. *)
Lemma file_no_link i : not_link (Some (NFile i)).
Proof. intros t. discriminate. Qed.

Definition bump (l : local) : local :=
  {| fresh := S (fresh l); tabs := tabs l; logged := logged l |}.

Lemma old_bump m l i : old m l i -> old m (bump l) i.
Proof. intros O k K. apply O. cbn [fresh bump] in K. lia. Qed.

Lemma old_new m l : old m (bump l) (pid m, fresh l).
Proof. intros k K E. cbn [fresh bump] in K. injection E as E. lia. Qed.

Lemma inode_created q i p' j : not_link (names f q) ->
  inode_of (set_data (set_name f q (Some (NFile i))) i []) p' = Some j ->
  (resolve max_links f0 p' = Some q /\ j = i) \/ inode_of f p' = Some j.
Proof.
  intros N. rewrite inode_of_set_data, inode_of_set_name; [|exact N|apply file_no_link].
  rewrite (iv_resf _ _ _ _ _ _ I). unfold inode_of. rewrite (iv_resf _ _ _ _ _ _ I).
  destruct (resolve max_links f0 p') as [r|]; [|discriminate].
  destruct (path_eqb r q) eqn:E; [|auto]. apply path_eqb_eq in E. subst r.
  intros K. injection K as <-. auto.
Qed.

Lemma inv_createA p q : WA p -> resolve max_links f0 p = Some q -> names f q = None ->
  let i := (pid mA, fresh lA) in
  inv (set_data (set_name f q (Some (NFile i))) i []) (set_data (set_name g q (Some (NFile i))) i [])
    (bump lA) lB HA HB.
Proof.
  intros Wp Rq Nq i.
  assert (Ngq : names g q = None).
  { rewrite <- (iv_names _ _ _ _ _ _ I p q (write_read p Wp) Rq). exact Nq. }
  assert (Nf : not_link (names f q)) by (rewrite Nq; apply no_link_none).
  assert (Ng : not_link (names g q)) by (rewrite Ngq; apply no_link_none).
  pose proof (fun p' j => inode_created q i p' j Nf) as Ic.
  pose proof inode_old as Io. destruct I as [rf rg dr nm dt ap of oh tb].
  assert (Us : forall j, uses (set_data (set_name f q (Some (NFile i))) i []) HA j -> j = i \/ uses f HA j).
  { intros j [(p' & Rp & E)|Hj]; [|right; right; exact Hj].
    destruct (Ic p' j E) as [[_ ->]|E']; [auto|right; left; exists p'; auto]. }
  constructor.
  - intros k r. rewrite resolve_set_data, resolve_set_name; [apply rf|exact Nf|apply file_no_link].
  - intros k r. rewrite resolve_set_data, resolve_set_name; [apply rg|exact Ng|apply file_no_link].
  - intros r. unfold is_dir. cbn [names set_name set_data]. destruct (path_eqb r q); [reflexivity|]. apply dr.
  - intros p' r Rp E. cbn [names set_name set_data]. destruct (path_eqb r q); [reflexivity|]. apply (nm p' r Rp E).
  - intros j Uj. cbn [data set_name set_data]. destruct (ino_eqb j i) eqn:E; [reflexivity|].
    destruct (Us j Uj) as [->|U]; [rewrite ino_eqb_refl in E; discriminate|]. apply dt. exact U.
  - intros j Uj T.
    assert (T' : touches f HB j).
    { destruct T as [(p' & Wp' & E)|Hj]; [|right; exact Hj]. destruct (Ic p' j E) as [[E' _]|E'].
      - destruct (apart_names p p' q (write_read p Wp) Wp' Rq E').
      - left. exists p'. auto. }
    destruct (Us j Uj) as [->|U]; [|apply (ap j U T')].
    assert (O : old mA lA i).
    { destruct T' as [(p' & _ & E)|Hj]; [apply (Io p' i E)|apply oh; auto]. }
    apply (O (fresh lA) (Nat.le_refl _)). reflexivity.
  - intros r j. cbn [names set_name set_data]. destruct (path_eqb r q).
    + intros K. injection K as <-. split; [apply old_new|]. intros k _ K. injection K as K _. auto.
    + intros K. destruct (of r j K). split; [apply old_bump; assumption|assumption].
  - intros h Hh. destruct (oh h Hh). split; [apply old_bump; assumption|assumption].
  - exact tb.
Qed.

Lemma inv_createB p q : WB p -> resolve max_links f0 p = Some q -> names f q = None ->
  let i := (pid mB, fresh lB) in
  inv (set_data (set_name f q (Some (NFile i))) i []) g lA (bump lB) HA HB.
Proof.
  intros Wp Rq Nq i.
  assert (Nf : not_link (names f q)) by (rewrite Nq; apply no_link_none).
  pose proof (fun p' j => inode_created q i p' j Nf) as Ic.
  pose proof inode_old as Io. destruct I as [rf rg dr nm dt ap of oh tb].
  assert (Us : forall j, uses (set_data (set_name f q (Some (NFile i))) i []) HA j -> uses f HA j /\ j <> i).
  { assert (K : forall j, uses f HA j -> j <> i).
    { intros j U ->. assert (O : old mB lB i).
      { destruct U as [(p' & _ & E)|Hj]; [apply (Io p' i E)|apply oh; auto]. }
      apply (O (fresh lB) (Nat.le_refl _)). reflexivity. }
    intros j [(p' & Rp & E)|Hj].
    - destruct (Ic p' j E) as [[E' _]|E'].
      + destruct (apart_names p' p q Rp Wp E' Rq).
      + assert (U : uses f HA j) by (left; exists p'; auto). auto.
    - assert (U : uses f HA j) by (right; exact Hj). auto. }
  constructor.
  - intros k r. rewrite resolve_set_data, resolve_set_name; [apply rf|exact Nf|apply file_no_link].
  - exact rg.
  - intros r. unfold is_dir at 1. cbn [names set_name set_data]. destruct (path_eqb r q) eqn:E; [|apply dr].
    apply path_eqb_eq in E. subst r. rewrite <- dr. unfold is_dir. rewrite Nq. reflexivity.
  - intros p' r Rp E. cbn [names set_name set_data]. destruct (path_eqb r q) eqn:Q; [|apply (nm p' r Rp E)].
    apply path_eqb_eq in Q. subst r. destruct (apart_names p' p q Rp Wp E Rq).
  - intros j Uj. destruct (Us j Uj) as [U Ne]. cbn [data set_name set_data].
    apply ino_eqb_neq in Ne. rewrite Ne. apply dt. exact U.
  - intros j Uj T. destruct (Us j Uj) as [U Ne]. apply (ap j U).
    destruct T as [(p' & Wp' & E)|Hj]; [|right; exact Hj]. destruct (Ic p' j E) as [[_ K]|E'].
    + destruct (Ne K).
    + left. exists p'. auto.
  - intros r j. cbn [names set_name set_data]. destruct (path_eqb r q).
    + intros K. injection K as <-. split; [|apply old_new]. intros k _ K. injection K as K _. auto.
    + intros K. destruct (of r j K). split; [assumption|apply old_bump; assumption].
  - intros h Hh. destruct (oh h Hh). split; [assumption|apply old_bump; assumption].
  - exact tb.
Qed.
End Step.

(** ** Steps *)

Lemma in_set_tab l t x y : In y (tabs (set_tab l t x)) -> y = x \/ In y (tabs l).
Proof.
  cbn [tabs set_tab]. rewrite !in_app_iff. cbn [In]. intros [H|[[H|[]]|H]]; auto.
  - right. rewrite <- (firstn_skipn t (tabs l)). apply in_app_iff. auto.
  - right. rewrite <- (firstn_skipn (S t) (tabs l)). apply in_app_iff. auto.
Qed.

Lemma load_tab t p f l u f' l' : load t p f l = (u, (f', l')) ->
  f' = f /\ fresh l' = fresh l /\ forall q, In (TLoading q) (tabs l') -> In (TLoading q) (tabs l).
Proof.
  unfold load. destruct (contents f p) as [b|]; intros E; injection E as _ <- <-; [|auto].
  split; [reflexivity|]. split; [reflexivity|]. intros q I. apply in_set_tab in I.
  destruct I as [I|I]; [discriminate|exact I].
Qed.

Definition tabs_ok (l : local) : Prop := forall p, In (TLoading p) (tabs l) -> RA p.

(** A call that leaves the files alone. *)
Lemma quietA {T} (c : call T) a f g lA lB HA HB x l' :
  inv f g lA lB HA HB ->
  answer mA c x f lA = (a, (f, l')) -> answer mA c x g lA = (a, (g, l')) -> possible mA c a ->
  fresh l' = fresh lA -> tabs_ok l' -> opened HA c a = HA ->
  exists a f' g' l', answer mA c x f lA = (a, (f', l')) /\ answer mA c x g lA = (a, (g', l')) /\
    possible mA c a /\ inv f' g' l' lB (opened HA c a) HB.
Proof.
  intros I Ef Eg Pa Fr Tb Eh. exists a, f, g, l'. rewrite Eh.
  split; [exact Ef|]. split; [exact Eg|]. split; [exact Pa|].
  apply (inv_localA f g lA lB HA HB I l' Fr Tb).
Qed.

Lemma loadA t p f g lA lB HA HB : inv f g lA lB HA HB -> RA p ->
  exists u l', load t p f lA = (u, (f, l')) /\ load t p g lA = (u, (g, l')) /\
    fresh l' = fresh lA /\ tabs_ok l'.
Proof.
  intros I Rp. unfold load. rewrite <- (same_contents f g lA lB HA HB I p Rp).
  destruct (contents f p) as [b|].
  - exists (inl tt), (set_tab lA t (TLoaded b)). split; [reflexivity|]. split; [reflexivity|].
    split; [reflexivity|]. intros q Iq. apply in_set_tab in Iq.
    destruct Iq as [Iq|Iq]; [discriminate|]. apply (iv_tabs _ _ _ _ _ _ I q Iq).
  - exists (inr no_page), lA. split; [reflexivity|]. split; [reflexivity|]. split; [reflexivity|].
    exact (iv_tabs _ _ _ _ _ _ I).
Qed.

Lemma createA p f g lA lB HA HB : inv f g lA lB HA HB -> WA p ->
  exists a f' g' l', do_create mA p f lA = (a, (f', l')) /\ do_create mA p g lA = (a, (g', l')) /\
    inv f' g' l' lB (fun h => HA h \/ a = inl h) HB.
Proof.
  intros I Wp. pose proof (write_read p Wp) as Rp. unfold do_create.
  rewrite (iv_resf _ _ _ _ _ _ I), (iv_resg _ _ _ _ _ _ I).
  assert (Err : forall e : str, inv f g lA lB (fun h => HA h \/ @inr handle str e = inl h) HB).
  { intros e. destruct I as [rf rg dr nm dt ap of oh tb].
    assert (Us : forall i, uses f (fun h => HA h \/ @inr handle str e = inl h) i -> uses f HA i).
    { intros i [U|[U|U]]; [left; exact U|right; exact U|discriminate]. }
    constructor; [exact rf|exact rg|exact dr|exact nm| | |exact of| |exact tb].
    - intros i U. apply dt. apply Us. exact U.
    - intros i U. apply ap. apply Us. exact U.
    - intros h [[H|H]|H]; [apply oh; left; exact H|discriminate|apply oh; right; exact H]. }
  destruct (resolve max_links f0 p) as [q|] eqn:E;
    [|exists (inr eloop), f, g, lA; split; [reflexivity|]; split; [reflexivity|apply Err]].
  rewrite <- (iv_names _ _ _ _ _ _ I p q Rp E), <- (iv_dir _ _ _ _ _ _ I).
  destruct (names f q) as [[i|t|]|] eqn:N.
  - assert (U : uses f HA i).
    { left. exists p. split; [exact Rp|]. unfold inode_of. rewrite (iv_resf _ _ _ _ _ _ I), E, N. reflexivity. }
    exists (inl i), (set_data f i []), (set_data g i []), lA. split; [reflexivity|]. split; [reflexivity|].
    pose proof (inv_dataA f g lA lB HA HB I i [] U) as I1.
    apply (inv_openA _ _ lA lB HA HB I1). destruct U as [(p' & Rp' & E')|H]; [|right; exact H].
    left. exists p'. rewrite inode_of_set_data. auto.
  - exists (inr eisdir), f, g, lA. split; [reflexivity|]. split; [reflexivity|apply Err].
  - exists (inr eisdir), f, g, lA. split; [reflexivity|]. split; [reflexivity|apply Err].
  - destruct (is_dir f (parent q)).
    + pose proof (inv_createA f g lA lB HA HB I p q Wp E N) as I1. cbv zeta in I1.
      eexists _, _, _, _. split; [reflexivity|]. split; [reflexivity|].
      apply (inv_openA _ _ _ lB HA HB I1). left. exists p. split; [exact Rp|].
      rewrite inode_of_set_data, inode_of_set_name;
        [|rewrite N; apply no_link_none|apply file_no_link].
      rewrite (iv_resf _ _ _ _ _ _ I), E, path_eqb_refl. reflexivity.
    + exists (inr enoent), f, g, lA. split; [reflexivity|]. split; [reflexivity|apply Err].
Qed.

Lemma stepA {T} (c : call T) x f g lA lB HA HB :
  inv f g lA lB HA HB -> call_ok RA WA XA HA c ->
  exists a f' g' l', answer mA c x f lA = (a, (f', l')) /\ answer mA c x g lA = (a, (g', l')) /\
    possible mA c a /\ inv f' g' l' lB (opened HA c a) HB.
Proof.
  intros I O. pose proof (iv_tabs _ _ _ _ _ _ I) as Tb. fold (tabs_ok lA) in Tb.
  destruct c; cbn [call_ok] in O.
  - (* Read *)
    assert (E : exists a, answer mA (Read p) x f lA = (a, (f, lA)) /\
                          answer mA (Read p) x g lA = (a, (g, lA))).
    { cbn [answer]. rewrite <- (same_contents f g lA lB HA HB I p O).
      destruct x; try destruct (contents f p); eexists; split; reflexivity. }
    destruct E as (a & E1 & E2). apply (quietA (Read p) a f g lA lB HA HB x lA); auto; exact Logic.I.
  - (* Exists *)
    assert (E : exists a, answer mA (Exists p) x f lA = (a, (f, lA)) /\
                          answer mA (Exists p) x g lA = (a, (g, lA))).
    { cbn [answer]. rewrite <- (same_present f g lA lB HA HB I p O).
      destruct x; eexists; split; reflexivity. }
    destruct E as (a & E1 & E2). apply (quietA (Exists p) a f g lA lB HA HB x lA); auto; exact Logic.I.
  - (* Create *)
    destruct (createA p f g lA lB HA HB I O) as (a & f' & g' & l' & Ef & Eg & I').
    destruct x as [|e|n|].
    + exists a, f', g', l'. cbn [answer possible opened]. auto.
    + exists (inr e), f, g, lA. cbn [answer possible opened]. split; [reflexivity|]. split; [reflexivity|].
      split; [exact Logic.I|]. destruct I as [rf rg dr nm dt ap of oh tb].
      assert (Us : forall i, uses f (fun h => HA h \/ @inr handle str e = inl h) i -> uses f HA i).
      { intros i [U|[U|U]]; [left; exact U|right; exact U|discriminate]. }
      constructor; [exact rf|exact rg|exact dr|exact nm| | |exact of| |exact tb].
      * intros i U. apply dt. apply Us. exact U.
      * intros i U. apply ap. apply Us. exact U.
      * intros h [[H|H]|H]; [apply oh; left; exact H|discriminate|apply oh; right; exact H].
    + exists a, f', g', l'. cbn [answer possible opened]. auto.
    + exists a, f', g', l'. cbn [answer possible opened]. auto.
  - (* Write *)
    assert (U : uses f HA h) by (right; exact O).
    assert (Ed : data f h = data g h) by (apply (iv_data _ _ _ _ _ _ I); exact U).
    destruct x as [|e|n|]; cbn [answer possible opened]; rewrite <- ?Ed; eexists _, _, _, _;
      (split; [reflexivity|]); (split; [reflexivity|]); (split; [exact Logic.I|]).
    + apply inv_dataA; assumption.
    + exact I.
    + apply inv_dataA; assumption.
    + apply inv_dataA; assumption.
  - (* Remove *)
    assert (Rp : RA p) by (apply write_read, remove_write; exact O).
    assert (En : names f p = names g p).
    { apply (iv_names _ _ _ _ _ _ I p p Rp). apply plain_self. apply plainA. exact O. }
    assert (E : (exists e, answer mA (Remove p) x f lA = (inr e, (f, lA)) /\
                           answer mA (Remove p) x g lA = (inr e, (g, lA))) \/
                (is_dir f p = false /\
                 answer mA (Remove p) x f lA = (inl tt, (set_name f p None, lA)) /\
                 answer mA (Remove p) x g lA = (inl tt, (set_name g p None, lA)))).
    { unfold is_dir. cbn [answer]. rewrite <- En.
      destruct x; [|left; eexists; split; reflexivity| |];
        destruct (names f p) as [[i|t|]|]; (left; eexists; split; reflexivity) || (right; auto). }
    destruct E as [(e & E1 & E2)|(Nd & E1 & E2)].
    + exists (inr e), f, g, lA. split; [exact E1|]. split; [exact E2|]. split; [exact Logic.I|exact I].
    + exists (inl tt), (set_name f p None), (set_name g p None), lA.
      split; [exact E1|]. split; [exact E2|]. split; [exact Logic.I|].
      apply (inv_removeA f g lA lB HA HB I p O Nd).
  - destruct O.
  - (* Cwd *)
    assert (E : exists a, answer mA Cwd x f lA = (a, (f, lA)) /\
                          answer mA Cwd x g lA = (a, (g, lA)) /\ possible mA Cwd a).
    { destruct x; cbn [answer possible]; eexists; (split; [reflexivity|]); (split; [reflexivity|]); eauto. }
    destruct E as (a & E1 & E2 & Pa). apply (quietA Cwd a f g lA lB HA HB x lA); auto.
  - (* Log *)
    eapply (quietA (Log r) tt f g lA lB HA HB x); [exact I|reflexivity|reflexivity|exact Logic.I
      |reflexivity|exact Tb|reflexivity].
  - (* Launch *)
    assert (E : exists a, answer mA Launch x f lA = (a, (f, lA)) /\ answer mA Launch x g lA = (a, (g, lA)))
      by (destruct x; cbn [answer]; eexists; split; reflexivity).
    destruct E as (a & E1 & E2). apply (quietA Launch a f g lA lB HA HB x lA); auto; exact Logic.I.
  - (* NewTab *)
    assert (E : exists a l', answer mA NewTab x f lA = (a, (f, l')) /\ answer mA NewTab x g lA = (a, (g, l')) /\
              fresh l' = fresh lA /\ tabs_ok l').
    { destruct x; cbn [answer]; eexists _, _; (split; [reflexivity|]); (split; [reflexivity|]);
        (split; [reflexivity|]); try exact Tb;
        (intros q Iq; cbn [tabs] in Iq; apply in_app_iff in Iq; destruct Iq as [Iq|[Iq|[]]];
         [apply Tb; exact Iq|discriminate]). }
    destruct E as (a & l' & E1 & E2 & Fr & Tb').
    apply (quietA NewTab a f g lA lB HA HB x l'); auto; exact Logic.I.
  - (* Navigate *)
    assert (E : exists a l', answer mA (Navigate t p) x f lA = (a, (f, l')) /\
              answer mA (Navigate t p) x g lA = (a, (g, l')) /\ fresh l' = fresh lA /\ tabs_ok l').
    { destruct (loadA t p f g lA lB HA HB I O) as (u & l' & L).
      destruct x; cbn [answer].
      - exists u, l'. exact L.
      - exists (inr m), lA. auto.
      - exists u, l'. exact L.
      - exists (inl tt), (set_tab lA t (TLoading p)). split; [reflexivity|]. split; [reflexivity|].
        split; [reflexivity|]. intros q Iq. apply in_set_tab in Iq. destruct Iq as [Iq|Iq].
        + injection Iq as ->. exact O.
        + apply Tb. exact Iq. }
    destruct E as (a & l' & E1 & E2 & Fr & Tb').
    apply (quietA (Navigate t p) a f g lA lB HA HB x l'); auto; exact Logic.I.
  - (* WaitNav *)
    assert (E : exists a l', answer mA (WaitNav t) x f lA = (a, (f, l')) /\
              answer mA (WaitNav t) x g lA = (a, (g, l')) /\ fresh l' = fresh lA /\ tabs_ok l').
    { assert (E : exists a l', match nth t (tabs lA) TBlank with
                               | TLoading p => load t p f lA | _ => (inl tt, (f, lA)) end = (a, (f, l')) /\
                               match nth t (tabs lA) TBlank with
                               | TLoading p => load t p g lA | _ => (inl tt, (g, lA)) end = (a, (g, l')) /\
                               fresh l' = fresh lA /\ tabs_ok l').
      { destruct (nth t (tabs lA) TBlank) as [|p|b] eqn:N.
        - exists (inl tt), lA. auto.
        - apply (loadA t p f g lA lB HA HB I). apply Tb.
          destruct (nth_in_or_default t (tabs lA) TBlank) as [Iq|Iq]; rewrite N in Iq; [exact Iq|discriminate].
        - exists (inl tt), lA. auto. }
      destruct x; cbn [answer]; try exact E. exists (inr m), lA. auto. }
    destruct E as (a & l' & E1 & E2 & Fr & Tb').
    apply (quietA (WaitNav t) a f g lA lB HA HB x l'); auto; exact Logic.I.
  - (* Print *)
    assert (E : exists a, answer mA (Print t) x f lA = (a, (f, lA)) /\ answer mA (Print t) x g lA = (a, (g, lA))).
    { destruct x; cbn [answer]; try destruct (nth t (tabs lA) TBlank); eexists; split; reflexivity. }
    destruct E as (a & E1 & E2). apply (quietA (Print t) a f g lA lB HA HB x lA); auto; exact Logic.I.
Qed.

(** A step of the other process. *)
Lemma stepB {T} (c : call T) x f g lA lB HA HB :
  inv f g lA lB HA HB -> call_ok RB WB XB HB c ->
  exists a f' l', answer mB c x f lB = (a, (f', l')) /\
    possible mB c a /\ inv f' g lA l' HA (opened HB c a).
Proof.
  intros I O.
  assert (Quiet : forall a l', answer mB c x f lB = (a, (f, l')) -> possible mB c a ->
    fresh l' = fresh lB -> opened HB c a = HB ->
    exists a f' l', answer mB c x f lB = (a, (f', l')) /\ possible mB c a /\
      inv f' g lA l' HA (opened HB c a)).
  { intros a l' E Pa Fr Eh. exists a, f, l'. rewrite Eh. split; [exact E|]. split; [exact Pa|].
    apply (inv_localB f g lA lB HA HB I l' Fr). }
  assert (Pure : pure mB c -> (forall a, possible mB c a) -> (forall a, opened HB c a = HB) ->
    exists a f' l', answer mB c x f lB = (a, (f', l')) /\ possible mB c a /\
      inv f' g lA l' HA (opened HB c a)).
  { intros Pc Pa Eh. destruct (Pc x f lB) as [E1 E2].
    apply (Quiet (fst (answer mB c x f lB)) (snd (snd (answer mB c x f lB)))); auto.
    rewrite (surjective_pairing (answer mB c x f lB)) at 1. f_equal.
    rewrite (surjective_pairing (snd (answer mB c x f lB))) at 1. f_equal. exact E1. }
  assert (Err : forall e : str, inv f g lA lB HA (fun h => HB h \/ @inr handle str e = inl h)).
  { intros e. destruct I as [rf rg dr nm dt ap of oh tb].
    constructor; [exact rf|exact rg|exact dr|exact nm|exact dt| |exact of| |exact tb].
    - intros i U [T'|[T'|T']]; [apply (ap i U); left; exact T'|apply (ap i U); right; exact T'|discriminate].
    - intros h [H|[H|H]]; [apply oh; left; exact H|apply oh; right; exact H|discriminate]. }
  destruct c; cbn [call_ok] in O.
  - apply Pure; [apply pure_read|intros; exact Logic.I|reflexivity].
  - apply Pure; [apply pure_exists|intros; exact Logic.I|reflexivity].
  - (* Create *)
    assert (Cr : exists a f' l', do_create mB p f lB = (a, (f', l')) /\
              inv f' g lA l' HA (fun h => HB h \/ a = inl h)).
    { unfold do_create. rewrite (iv_resf _ _ _ _ _ _ I).
      destruct (resolve max_links f0 p) as [q|] eqn:E;
        [|exists (inr eloop), f, lB; split; [reflexivity|apply Err]].
      destruct (names f q) as [[i|t|]|] eqn:N.
      - assert (U : touches f HB i).
        { left. exists p. split; [exact O|]. unfold inode_of. rewrite (iv_resf _ _ _ _ _ _ I), E, N. reflexivity. }
        exists (inl i), (set_data f i []), lB. split; [reflexivity|].
        pose proof (inv_dataB f g lA lB HA HB I i [] U) as I1.
        apply (inv_openB _ _ lA lB HA HB I1). destruct U as [(p' & Rp' & E')|H]; [|right; exact H].
        left. exists p'. rewrite inode_of_set_data. auto.
      - exists (inr eisdir), f, lB. split; [reflexivity|apply Err].
      - exists (inr eisdir), f, lB. split; [reflexivity|apply Err].
      - destruct (is_dir f (parent q)).
        + pose proof (inv_createB f g lA lB HA HB I p q O E N) as I1. cbv zeta in I1.
          eexists _, _, _. split; [reflexivity|].
          apply (inv_openB _ _ lA _ HA HB I1). left. exists p. split; [exact O|].
          rewrite inode_of_set_data, inode_of_set_name;
            [|rewrite N; apply no_link_none|apply file_no_link].
          rewrite (iv_resf _ _ _ _ _ _ I), E, path_eqb_refl. reflexivity.
        + exists (inr enoent), f, lB. split; [reflexivity|apply Err]. }
    destruct Cr as (a & f' & l' & Ef & I'). destruct x as [|e|n|]; cbn [answer possible opened].
    + exists a, f', l'. auto.
    + exists (inr e), f, lB. auto.
    + exists a, f', l'. auto.
    + exists a, f', l'. auto.
  - (* Write *)
    assert (U : touches f HB h) by (right; exact O).
    destruct x as [|e|n|]; cbn [answer possible opened]; eexists _, _, _;
      (split; [reflexivity|]); (split; [exact Logic.I|]).
    + apply inv_dataB; assumption.
    + exact I.
    + apply inv_dataB; assumption.
    + apply inv_dataB; assumption.
  - (* Remove *)
    assert (E : (exists e, answer mB (Remove p) x f lB = (inr e, (f, lB))) \/
                (is_dir f p = false /\ answer mB (Remove p) x f lB = (inl tt, (set_name f p None, lB)))).
    { unfold is_dir. cbn [answer].
      destruct x; [|left; eexists; reflexivity| |];
        destruct (names f p) as [[i|t|]|]; (left; eexists; reflexivity) || (right; auto). }
    destruct E as [(e & E1)|(Nd & E1)].
    + exists (inr e), f, lB. split; [exact E1|]. split; [exact Logic.I|exact I].
    + exists (inl tt), (set_name f p None), lB. split; [exact E1|]. split; [exact Logic.I|].
      apply (inv_removeB f g lA lB HA HB I p O Nd).
  - destruct O.
  - (* Cwd *)
    assert (E : exists a, answer mB Cwd x f lB = (a, (f, lB)) /\ possible mB Cwd a).
    { destruct x; cbn [answer possible]; eexists; (split; [reflexivity|]); eauto. }
    destruct E as (a & E1 & Pa). apply (Quiet a lB); auto.
  - apply Pure; [apply pure_log|intros; exact Logic.I|reflexivity].
  - apply Pure; [apply pure_launch|intros; exact Logic.I|reflexivity].
  - apply Pure; [apply pure_newtab|intros; exact Logic.I|reflexivity].
  - apply Pure; [apply pure_navigate|intros; exact Logic.I|reflexivity].
  - apply Pure; [apply pure_wait|intros; exact Logic.I|reflexivity].
  - apply Pure; [apply pure_print|intros; exact Logic.I|reflexivity].
Qed.

(** ** Runs *)

Definition mine (xs : list (bool * choice)) : list choice :=
  map snd (filter fst xs).

Lemma exec2_solo {S T} xs : forall f g (pA : proc S) (pB : proc T) HA HB f' pA' pB',
  mach pA = mA -> mach pB = mB ->
  inv f g (here pA) (here pB) HA HB ->
  fits mA RA WA XA HA (code pA) -> fits mB RB WB XB HB (code pB) ->
  exec2 xs f pA pB = (f', (pA', pB')) ->
  exists g' HA' HB', exec (mine xs) g pA = (g', pA') /\
    inv f' g' (here pA') (here pB') HA' HB'.
Proof.
  induction xs as [|[[|] x] xs IH]; intros f g pA pB HA HB f' pA' pB' MA MB I FA FB E.
  - cbn [exec2] in E. injection E as <- <- <-. exists g, HA, HB. split; [reflexivity|exact I].
  - cbn [exec2] in E. change (mine ((true, x) :: xs)) with (x :: mine xs). cbn [exec].
    unfold step in *. destruct (code pA) as [a| | |B c k] eqn:Ec; cbn [fst snd] in E |- *;
      try (apply (IH f g pA pB HA HB f' pA' pB' MA MB I); [rewrite Ec; exact FA|exact FB|exact E]).
    rewrite MA in *. cbn [fits] in FA. destruct FA as [Oc Fk].
    destruct (stepA c x f g (here pA) (here pB) HA HB I Oc) as (a & f1 & g1 & l1 & Ef & Eg & Pa & I1).
    rewrite Ef in E. rewrite Eg. cbn [fst snd] in E |- *.
    apply (IH f1 g1 {| mach := mA; here := l1; code := k a |} pB (opened HA c a) HB f' pA' pB' eq_refl MB I1 (Fk a Pa) FB E).
  - cbn [exec2] in E. change (mine ((false, x) :: xs)) with (mine xs).
    unfold step in E. destruct (code pB) as [a| | |B c k] eqn:Ec; cbn [fst snd] in E;
      try (apply (IH f g pA pB HA HB f' pA' pB' MA MB I FA); [rewrite Ec; exact FB|exact E]).
    rewrite MB in *. cbn [fits] in FB. destruct FB as [Oc Fk].
    destruct (stepB c x f g (here pA) (here pB) HA HB I Oc) as (a & f1 & l1 & Ef & Pa & I1).
    rewrite Ef in E. cbn [fst snd] in E.
    apply (IH f1 g pA {| mach := mB; here := l1; code := k a |} HA (opened HB c a) f' pA' pB' MA eq_refl I1 FA (Fk a Pa) E).
Qed.

Lemma inv_start : new_process mA f0 -> new_process mB f0 ->
  inv f0 f0 no_tabs no_tabs (fun _ => False) (fun _ => False).
Proof.
  intros NA NB. constructor; try reflexivity.
  - intros i [(p & Rp & E)|[]] [(q & Wq & E')|[]]. apply (apart p q Rp Wq). right. exists i. auto.
  - intros q i N. split; intros k _ ->; [apply (NA q k N)|apply (NB q k N)].
  - intros h [[]|[]].
  - intros p [].
Qed.

(** The first process ends as it would alone, with the same files. *)
Theorem as_if_alone {S T} xs (pA : prog S) (pB : prog T) f' pA' pB' :
  new_process mA f0 -> new_process mB f0 ->
  fits mA RA WA XA (fun _ => False) pA -> fits mB RB WB XB (fun _ => False) pB ->
  exec2 xs f0 (start mA pA) (start mB pB) = (f', (pA', pB')) ->
  exists g', exec (mine xs) f0 (start mA pA) = (g', pA') /\
    forall p, RA p -> contents f' p = contents g' p.
Proof.
  intros NA NB FA FB E.
  destruct (exec2_solo xs f0 f0 (start mA pA) (start mB pB) (fun _ => False) (fun _ => False) f' pA' pB'
    eq_refl eq_refl (inv_start NA NB) FA FB E) as (g' & HA' & HB' & Eg & I).
  exists g'. split; [exact Eg|]. intros p Rp. apply (same_contents _ _ _ _ _ _ I p Rp).
Qed.
End Frame.

(** ** Two conversions *)

(** The names a conversion reads and writes. *)
Definition conv_reads (m : machine) (st : settings) (input : path) (o : format) (p : path) : Prop :=
  p = config_path st \/ p = input \/ p = tmp_path m \/ p = out_path input o \/
  visited (tmp_path m) = Some p.
Definition conv_writes (m : machine) (input : path) (o : format) (p : path) : Prop :=
  p = tmp_path m \/ p = out_path input o.

Lemma conv_fits n st m input o :
  fits m (conv_reads m st input o) (conv_writes m input o) (fun p => p = tmp_path m)
    (fun _ => False) (main n st (CParse input o)).
Proof. apply fits_parse; unfold conv_reads, conv_writes; auto 10. Qed.

Lemma pdf_beside n1 st1 m1 in1 n2 st2 m2 in2 o2 f xs f' p1 p2 :
  pid m1 <> pid m2 -> new_process m1 f -> new_process m2 f -> web_dir (cwd m1) ->
  not_link (names f (tmp_path m1)) -> not_link (names f (tmp_path m2)) ->
  ~ aliases f (tmp_path m1) (out_path in1 Pdf) ->
  (forall p q, conv_reads m1 st1 in1 Pdf p -> conv_writes m2 in2 o2 q -> ~ aliases f p q) ->
  Forall no_short (map snd xs) ->
  exec2 xs f (start m1 (main n1 st1 (CParse in1 Pdf))) (start m2 (main n2 st2 (CParse in2 o2)))
    = (f', (p1, p2)) ->
  status p1 = Some 0 ->
  exists b s html, contents f in1 = Some b /\ decode b = Some s /\ renders s html /\
    contents f' (out_path in1 Pdf) = Some (pdf_of m1 (encode html)).
Proof.
  intros Np N1 N2 Wd L1 L2 Ao Ap Ns E S0.
  destruct (as_if_alone f m1 m2 (conv_reads m1 st1 in1 Pdf) (conv_writes m1 in1 Pdf)
    (fun p => p = tmp_path m1) (conv_reads m2 st2 in2 o2) (conv_writes m2 in2 o2)
    (fun p => p = tmp_path m2)) with (xs := xs)
    (pA := main n1 st1 (CParse in1 Pdf)) (pB := main n2 st2 (CParse in2 o2))
    (f' := f') (pA' := p1) (pB' := p2) as (g & Eg & C); try assumption.
  - unfold conv_reads, conv_writes. tauto.
  - intros p ->. left. reflexivity.
  - intros p ->. left. reflexivity.
  - intros p ->. exact L1.
  - intros p ->. exact L2.
  - apply conv_fits.
  - apply conv_fits.
  - destruct (pdf_written n1 st1 m1 f (mine xs) in1 g p1) as (b & s & html & Hb & Hd & Hr & Co); auto.
    + unfold mine. apply Forall_forall. intros x I. apply in_map_iff in I. destruct I as (y & <- & I).
      apply filter_In in I. rewrite Forall_forall in Ns. apply Ns. apply in_map. apply I.
    + exists b, s, html. split; [exact Hb|]. split; [exact Hd|]. split; [exact Hr|].
      rewrite C by (unfold conv_reads; auto). exact Co.
Qed.

Lemma exec2_swap {S T} xs : forall f (p : proc S) (q : proc T) f' p' q',
  exec2 xs f p q = (f', (p', q')) ->
  exec2 (map (fun x => (negb (fst x), snd x)) xs) f q p = (f', (q', p')).
Proof.
  induction xs as [|[[|] x] xs IH]; intros f p q f' p' q' E; cbn [exec2 map negb fst snd] in *.
  - injection E as <- <- <-. reflexivity.
  - apply IH. exact E.
  - apply IH. exact E.
Qed.
