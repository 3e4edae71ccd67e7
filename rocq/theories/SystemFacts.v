(** * SystemFacts: reasoning about programs of System.v. *)
From Verif Require Import Strings StringsFacts Utf8 System SpecCli.
Open Scope list_scope.

(** ** Programs

    [safe P m I Q p f l]: started with [f] and [l], if the outside world only
    makes choices allowed by [P], then [I] holds at every moment and [Q] of the
    result. *)
Section Safe.
Variable P : choice -> Prop.
Variable m : machine.
Variable I : fs -> local -> Prop.

Fixpoint safe {A} (Q : A -> fs -> local -> Prop) (p : prog A) (f : fs) (l : local) : Prop :=
  match p with
  | Done a => I f l /\ Q a f l
  | Stop => I f l
  | Spin => I f l
  | Do c k =>
      I f l /\
      forall x, P x ->
        let r := answer m c x f l in safe Q (k (fst r)) (fst (snd r)) (snd (snd r))
  end.

Lemma safe_inv {A} (Q : A -> fs -> local -> Prop) p f l : safe Q p f l -> I f l.
Proof. destruct p; cbn; tauto. Qed.

Lemma safe_step {A} (Q : A -> fs -> local -> Prop) x f p :
  mach p = m -> P x -> safe Q (code p) f (here p) ->
  mach (snd (step x f p)) = m /\
  safe Q (code (snd (step x f p))) (fst (step x f p)) (here (snd (step x f p))).
Proof.
  intros M Px. unfold step. destruct (code p) as [a| | |B c k] eqn:E; cbn [safe fst snd].
  - intros H. rewrite E. split; [exact M|exact H].
  - intros H. rewrite E. split; [exact M|exact H].
  - intros H. rewrite E. split; [exact M|exact H].
  - intros [_ H]. cbn [mach here code]. rewrite M. split; [reflexivity|].
    apply (H x Px).
Qed.

Lemma safe_exec {A} (Q : A -> fs -> local -> Prop) xs f p :
  mach p = m -> Forall P xs -> safe Q (code p) f (here p) ->
  mach (snd (exec xs f p)) = m /\
  safe Q (code (snd (exec xs f p))) (fst (exec xs f p)) (here (snd (exec xs f p))).
Proof.
  revert f p. induction xs as [|x xs IH]; intros f p M F H; [cbn; auto|].
  inversion F as [|x' xs' Px Pxs]; subst x' xs'. cbn [exec].
  destruct (safe_step Q x f p M Px H) as [M' H']. apply IH; assumption.
Qed.

Lemma safe_bind {A B} (Q : A -> fs -> local -> Prop) (R : B -> fs -> local -> Prop) p k f l :
  safe Q p f l ->
  (forall a f' l', I f' l' -> Q a f' l' -> safe R (k a) f' l') ->
  safe R (pbind p k) f l.
Proof.
  intros H K. revert f l H. induction p as [a| | |C c p IH]; cbn [pbind safe]; intros f l H.
  - apply K; tauto.
  - exact H.
  - exact H.
  - destruct H as [Hi H]. split; [exact Hi|]. intros x Px. apply IH. exact (H x Px).
Qed.

Lemma safe_weaken {A} (Q R : A -> fs -> local -> Prop) p f l :
  safe Q p f l -> (forall a f' l', I f' l' -> Q a f' l' -> R a f' l') -> safe R p f l.
Proof.
  intros H K. revert f l H. induction p as [a| | |C c p IH]; cbn [safe]; intros f l H.
  - destruct H. auto.
  - exact H.
  - exact H.
  - destruct H as [Hi H]. split; [exact Hi|]. intros x Px. apply IH. exact (H x Px).
Qed.
End Safe.

Lemma exec_done {A} xs f (p : proc A) a : code p = Done a -> exec xs f p = (f, p).
Proof.
  intros E. revert f. induction xs as [|x xs IH]; intros f; [reflexivity|].
  cbn [exec]. unfold step. rewrite E. apply IH.
Qed.

Lemma exec_app {A} xs ys f (p : proc A) :
  exec (xs ++ ys) f p = exec ys (fst (exec xs f p)) (snd (exec xs f p)).
Proof.
  revert f p. induction xs as [|x xs IH]; intros f p; [reflexivity|]. cbn [app exec]. apply IH.
Qed.

(** ** Files *)

Lemma path_eqb_eq a b : path_eqb a b = true <-> a = b.
Proof.
  revert b; induction a as [|x a IH]; intros [|y b]; cbn; try easy.
  rewrite andb_true_iff, str_eqb_eq, IH. split; [intros [-> ->]; auto | now injection 1].
Qed.
Lemma path_eqb_refl a : path_eqb a a = true.
Proof. now apply path_eqb_eq. Qed.
Lemma path_eqb_neq a b : path_eqb a b = false <-> a <> b.
Proof. rewrite <- path_eqb_eq. destruct (path_eqb a b); split; congruence. Qed.

Lemma ino_eqb_eq a b : ino_eqb a b = true <-> a = b.
Proof.
  unfold ino_eqb. rewrite andb_true_iff, !Nat.eqb_eq. destruct a, b. cbn.
  split; [intros [-> ->]; auto | now injection 1].
Qed.
Lemma ino_eqb_refl a : ino_eqb a a = true.
Proof. now apply ino_eqb_eq. Qed.
Lemma ino_eqb_neq a b : ino_eqb a b = false <-> a <> b.
Proof. rewrite <- ino_eqb_eq. destruct (ino_eqb a b); split; congruence. Qed.

Lemma resolve_set_data n f i b p : resolve n (set_data f i b) p = resolve n f p.
Proof.
  revert p. induction n as [|n IH]; intros p; [reflexivity|]. cbn [resolve set_data names].
  destruct (names f p) as [[j|t|]|]; auto.
Qed.

Lemma inode_of_set_data f i b p : inode_of (set_data f i b) p = inode_of f p.
Proof. unfold inode_of. rewrite resolve_set_data. reflexivity. Qed.

Lemma present_set_data f i b p : present (set_data f i b) p = present f p.
Proof. unfold present. rewrite resolve_set_data. reflexivity. Qed.

Lemma contents_set_data_eq f i b p : inode_of f p = Some i ->
  contents (set_data f i b) p = Some b.
Proof.
  intros E. unfold contents. rewrite inode_of_set_data, E. cbn. rewrite ino_eqb_refl. reflexivity.
Qed.

Lemma contents_set_data_neq f i b p : inode_of f p <> Some i ->
  contents (set_data f i b) p = contents f p.
Proof.
  intros E. unfold contents. rewrite inode_of_set_data. destruct (inode_of f p) as [j|]; [|reflexivity].
  cbn. destruct (ino_eqb j i) eqn:K; [|reflexivity]. apply ino_eqb_eq in K. congruence.
Qed.

(** A name that is no symbolic link, before and after. *)
Definition not_link (o : option node) : Prop := forall t, o <> Some (NLink t).

Lemma resolve_set_name n f q o p : not_link (names f q) -> not_link o ->
  resolve n (set_name f q o) p = resolve n f p.
Proof.
  intros N1 N2. revert p. induction n as [|n IH]; intros p; [reflexivity|].
  cbn [resolve set_name names]. destruct (path_eqb p q) eqn:E.
  - apply path_eqb_eq in E. subst p.
    destruct o as [[j|t|]|]; [|destruct (N2 t eq_refl)| |];
      (destruct (names f q) as [[j'|t'|]|]; [|destruct (N1 t' eq_refl)| |]); reflexivity.
  - destruct (names f p) as [[j|t|]|]; auto.
Qed.

Lemma resolve_end n f p q : resolve n f p = Some q -> not_link (names f q).
Proof.
  revert p. induction n as [|n IH]; intros p; [discriminate|]. cbn [resolve].
  destruct (names f p) as [[j|t|]|] eqn:E.
  - intros K. injection K as <-. intros t. rewrite E. discriminate.
  - apply IH.
  - intros K. injection K as <-. intros t. rewrite E. discriminate.
  - intros K. injection K as <-. intros t. rewrite E. discriminate.
Qed.

(** No name carries an inode the process may still allocate. *)
Definition unused (m : machine) (f : fs) (l : local) : Prop :=
  forall p k, fresh l <= k -> names f p <> Some (NFile (pid m, k)).

Lemma unused_start m f : new_process m f -> unused m f no_tabs.
Proof. intros H p k _. apply H. Qed.

Lemma unused_set_data m f l i b : unused m f l -> unused m (set_data f i b) l.
Proof. intros H. exact H. Qed.

(** What a successful open for writing does. *)
Record created (m : machine) (p : path) (f : fs) (l : local) (i : handle) (f' : fs) (l' : local)
  : Prop := {
  cr_inode : inode_of f' p = Some i;
  cr_empty : contents f' p = Some [];
  cr_other : forall q, ~ aliases f p q -> inode_of f' q = inode_of f q /\ inode_of f' q <> Some i /\
                       contents f' q = contents f q;
  cr_names : forall q, resolve max_links f p <> Some q -> names f' q = names f q;
  cr_resolve : forall n q, resolve n f' q = resolve n f q;
  cr_alias : forall q, aliases f p q -> inode_of f' q = Some i;
  cr_unused : unused m f' l';
  cr_logged : logged l' = logged l;
  cr_tabs : tabs l' = tabs l
}.

Lemma create_spec m p f l i f' l' : unused m f l ->
  do_create m p f l = (inl i, (f', l')) -> created m p f l i f' l'.
Proof.
  intros U. unfold do_create. destruct (resolve max_links f p) as [q|] eqn:R; [|discriminate].
  destruct (names f q) as [[j|t|]|] eqn:N; try discriminate.
  - intros K. injection K as <- <- <-.
    assert (Ip : inode_of f p = Some j) by (unfold inode_of; rewrite R, N; reflexivity).
    constructor.
    + rewrite inode_of_set_data. exact Ip.
    + apply contents_set_data_eq. exact Ip.
    + intros q' NA. assert (Nq : inode_of f q' <> Some j).
      { intros E. apply NA. right. exists j. auto. }
      rewrite inode_of_set_data. split; [reflexivity|]. split; [exact Nq|].
      apply contents_set_data_neq. exact Nq.
    + reflexivity.
    + intros; apply resolve_set_data.
    + intros q' A. rewrite inode_of_set_data. destruct A as [E|[k [E1 E2]]].
      * unfold inode_of. rewrite <- E, R, N. reflexivity.
      * rewrite E2, <- E1; exact Ip.
    + exact U.
    + reflexivity.
    + reflexivity.
  - destruct (is_dir f (parent q)) eqn:D; [|discriminate].
    intros K. injection K as <- <- <-.
    assert (NL1 : not_link (names f q)) by (intros t; rewrite N; discriminate).
    assert (NL2 : not_link (Some (NFile (pid m, fresh l)))) by (intros t; discriminate).
    assert (Rs : forall n q', resolve n (set_data (set_name f q (Some (NFile (pid m, fresh l))))
                                (pid m, fresh l) []) q' = resolve n f q').
    { intros. rewrite resolve_set_data. apply resolve_set_name; assumption. }
    assert (Is : forall q', inode_of (set_data (set_name f q (Some (NFile (pid m, fresh l))))
                   (pid m, fresh l) []) q' =
                 match resolve max_links f q' with
                 | Some r => if path_eqb r q then Some (pid m, fresh l)
                             else match names f r with Some (NFile k) => Some k | _ => None end
                 | None => None
                 end).
    { intros q'. unfold inode_of. rewrite Rs. destruct (resolve max_links f q') as [r|]; [|reflexivity].
      cbn [names set_data set_name]. destruct (path_eqb r q); reflexivity. }
    assert (Io : forall q', resolve max_links f q' <> Some q ->
                 inode_of (set_data (set_name f q (Some (NFile (pid m, fresh l))))
                   (pid m, fresh l) []) q' = inode_of f q').
    { intros q' Ne. rewrite Is. unfold inode_of. destruct (resolve max_links f q') as [r|]; [|reflexivity].
      destruct (path_eqb r q) eqn:E; [apply path_eqb_eq in E; congruence|reflexivity]. }
    assert (Fr : forall q', inode_of f q' <> Some (pid m, fresh l)).
    { intros q' E. unfold inode_of in E. destruct (resolve max_links f q') as [r|]; [|discriminate].
      destruct (names f r) as [[k|t|]|] eqn:Nr; try discriminate. injection E as ->.
      apply (U r (fresh l)); [lia|exact Nr]. }
    constructor.
    + rewrite Is, R, path_eqb_refl. reflexivity.
    + unfold contents. rewrite Is, R, path_eqb_refl. cbn. unfold ino_eqb. cbn. rewrite !Nat.eqb_refl.
      reflexivity.
    + intros q' NA.
      assert (Ne : resolve max_links f q' <> Some q) by (intros E; apply NA; left; congruence).
      rewrite (Io q' Ne). split; [reflexivity|]. split; [apply Fr|].
      unfold contents. rewrite (Io q' Ne). destruct (inode_of f q') as [k|] eqn:E; [|reflexivity].
      cbn. destruct (ino_eqb k (pid m, fresh l)) eqn:Ek; [|reflexivity].
      apply ino_eqb_eq in Ek. subst k. destruct (Fr q' E).
    + intros q' Ne. cbn [names set_data set_name]. destruct (path_eqb q' q) eqn:E; [|reflexivity].
      apply path_eqb_eq in E. congruence.
    + exact Rs.
    + intros q' A. rewrite Is. destruct A as [E|[k [E1 _]]].
      * rewrite <- E, R, path_eqb_refl. reflexivity.
      * unfold inode_of in E1. rewrite R, N in E1. discriminate.
    + intros q' k Lk. cbn [names set_data set_name fresh]. destruct (path_eqb q' q).
      * intros K. injection K as K. subst k. cbn in Lk. lia.
      * apply U. cbn in Lk. lia.
    + reflexivity.
    + reflexivity.
Qed.

Lemma create_fail m p f l e f' l' : do_create m p f l = (inr e, (f', l')) -> f' = f /\ l' = l.
Proof.
  unfold do_create. destruct (resolve max_links f p) as [q|];
    [|intros K; injection K as _ <- <-; auto].
  destruct (names f q) as [[j|t|]|]; try discriminate; try (intros K; injection K as _ <- <-; auto).
  destruct (is_dir f (parent q)); [discriminate|intros K; injection K as _ <- <-; auto].
Qed.

Lemma write_at_0 b : write_at 0 b [] = b.
Proof. unfold write_at. cbn. rewrite skipn_nil. apply app_nil_r. Qed.
