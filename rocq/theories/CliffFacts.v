(** * CliffFacts: how the changelog reads back. *)
From Coq Require Import Ascii String Permutation Sorted.
From Verif Require Import Strings StringsFacts Cliff SpecCliff.
Open Scope list_scope.

(** ** Commits *)
Lemma not_mem c l : ~ In c l -> mem_char c l = false.
Proof.
  intros H. unfold mem_char. destruct (existsb (ceq c) l) eqn:E; [|reflexivity].
  apply existsb_exists in E as (d & D & E). apply N.eqb_eq in E. subst d. contradiction.
Qed.

Lemma kind_chars k : kind_text k -> forallb kind_char k = true.
Proof.
  intros [_ H]. apply forallb_forall. intros c Hc. destruct (H c Hc) as [A B].
  unfold kind_char. now rewrite A, (not_mem _ _ B).
Qed.

Definition meant (n : note) : commit :=
  Commit (n_hash n) (wrote n) (n_kind n) (n_scope n) (n_breaking n) (n_text n).

Lemma read_rest (b : bool) (x : str) :
  read_mark ((if b then lit "!" else []) ++ lit ": " ++ x) = (b, lit ": " ++ x).
Proof. destruct b; reflexivity. Qed.

Lemma read_wrote n : proper n -> read_commit (n_hash n) (wrote n) = Some (meant n).
Proof.
  intros (_ & K & Sc & _ & (c & t & T & C1 & C2)).
  pose proof (kind_chars _ K) as KC. unfold read_commit, wrote.
  set (rest := (match n_scope n with Some s => _ | None => [] end) ++ _).
  assert (R : exists d r, rest = d :: r /\ kind_char d = false).
  { subst rest. destruct (n_scope n), (n_breaking n); eexists _, _; split; reflexivity. }
  destruct R as (d & r & R & D).
  assert (E1 : take_while kind_char (n_kind n ++ rest) = n_kind n)
    by now rewrite take_while_app, R, take_while_stop, app_nil_r by assumption.
  assert (E2 : drop_while kind_char (n_kind n ++ rest) = rest)
    by now rewrite drop_while_app, R, drop_while_stop by assumption.
  rewrite E1, E2. destruct K as [K0 _]. destruct (n_kind n) as [|k0 k] eqn:EK; [congruence|].
  cbn [is_empty]. rewrite <- EK in *.
  assert (E3 : read_scope rest = Some (n_scope n, (if n_breaking n then lit "!" else []) ++ lit ": " ++ n_text n)).
  { subst rest. destruct (n_scope n) as [s|].
    - destruct (Sc s eq_refl) as (S0 & _ & S1).
      assert (F : forallb scope_char s = true).
      { apply forallb_forall. intros x X. unfold scope_char. now rewrite (not_mem _ _ (S1 x X)). }
      set (z := (if n_breaking n then lit "!" else []) ++ lit ": " ++ n_text n).
      replace ((lit "(" ++ s ++ lit ")") ++ z) with (c_lpar :: s ++ c_rpar :: z)
        by now rewrite <- !app_assoc.
      unfold read_scope. change (ceq c_lpar c_lpar) with true. cbv iota.
      rewrite take_while_app, drop_while_app by exact F.
      rewrite take_while_stop, drop_while_stop, app_nil_r by reflexivity.
      destruct s; [congruence|]. reflexivity.
    - destruct (n_breaking n); reflexivity. }
  rewrite E3, read_rest. change (lit ": " ++ n_text n) with (c_colon :: c_sp :: n_text n).
  cbv iota. unfold trim_start_by. cbn [drop_while]. change (blank c_sp) with true. cbv iota.
  rewrite T. rewrite drop_while_stop.
  - change (ceq c_colon c_colon) with true. cbn [is_empty negb andb].
    unfold meant, wrote. subst rest. rewrite T. reflexivity.
  - unfold blank. apply orb_false_iff. split; apply N.eqb_neq; assumption.
Qed.

Definition written (ns : list note) : list (str * str) := map (fun n => (n_hash n, wrote n)) ns.

Lemma commits_written ns : Forall proper ns -> commits (written ns) = map meant ns.
Proof.
  induction 1 as [|n ns P _ IH]; [reflexivity|]. cbn [written map commits].
  now rewrite (read_wrote _ P), <- IH.
Qed.

Lemma commits_app a b : commits (a ++ b) = commits a ++ commits b.
Proof.
  induction a as [|[h m] a IH]; [reflexivity|]. cbn [app commits]. rewrite IH.
  now destruct (read_commit h m).
Qed.

(** ** Messages without a colon *)
Lemma scope_suffix r s r1 : read_scope r = Some (s, r1) -> exists x, r = x ++ r1.
Proof.
  destruct r as [|c r]; [discriminate|]. cbn [read_scope]. destruct (ceq c c_lpar).
  - destruct (take_while scope_char r) eqn:E1; [destruct (drop_while scope_char r); discriminate|].
    destruct (drop_while scope_char r) as [|d r2] eqn:E2; [discriminate|].
    destruct (ceq d c_rpar); [|discriminate]. intros [= _ <-].
    exists (c :: take_while scope_char r ++ [d]). cbn [app]. rewrite <- app_assoc. cbn [app].
    rewrite <- E2. f_equal. clear. induction r as [|a r IH]; [reflexivity|].
    cbn [take_while drop_while]. destruct (scope_char a); [cbn [app]; now f_equal|reflexivity].
  - intros [= _ <-]. now exists [].
Qed.

Lemma drop_in f (s : str) c : In c (drop_while f s) -> In c s.
Proof.
  induction s as [|a s IH]; [easy|]. cbn [drop_while]. destruct (f a); intros H; [right; auto|exact H].
Qed.

Lemma no_colon h m : ~ In c_colon m -> read_commit h m = None.
Proof.
  intros H. unfold read_commit. destruct (is_empty _); [reflexivity|].
  destruct (read_scope _) as [[s r1]|] eqn:E; [|reflexivity].
  destruct (scope_suffix _ _ _ E) as [x X].
  assert (H1 : ~ In c_colon r1).
  { intros K. apply H. apply (drop_in kind_char). rewrite X. apply in_or_app. now right. }
  destruct (read_mark r1) as [b r2] eqn:M.
  assert (H2 : ~ In c_colon r2).
  { unfold read_mark in M. destruct r1 as [|a r1]; [now injection M as _ <-|].
    destruct (ceq a c_bang); injection M as _ <-; [|exact H1]. intros K. apply H1. now right. }
  destruct r2 as [|c r3]; [reflexivity|].
  assert (C : ceq c c_colon = false) by (apply N.eqb_neq; intros ->; apply H2; now left).
  now rewrite C.
Qed.

(** ** Groups *)
Lemma before_spec a b : before a b = true <-> lex_lt a b.
Proof.
  revert b. induction a as [|x a IH]; intros [|y b]; cbn [before].
  - split; [discriminate|]. inversion 1.
  - split; [constructor|reflexivity].
  - split; [discriminate|]. inversion 1.
  - destruct (N.ltb x y) eqn:E.
    + apply N.ltb_lt in E. split; [now constructor|reflexivity].
    + apply N.ltb_ge in E. rewrite andb_true_iff. split.
      * intros [A B]. apply N.eqb_eq in A. subst y. apply Lex_eq, IH, B.
      * intros H. inversion H; subst.
        -- exfalso. lia.
        -- split; [apply N.eqb_refl | now apply IH].
Qed.

Lemma lex_total a b : a <> b -> lex_lt a b \/ lex_lt b a.
Proof.
  revert b. induction a as [|x a IH]; intros [|y b] H.
  - congruence.
  - left; constructor.
  - right; constructor.
  - destruct (N.lt_trichotomy x y) as [L|[->|L]].
    + left; now constructor.
    + destruct (IH b) as [K|K]; [congruence| |]; [left|right]; now constructor.
    + right; now constructor.
Qed.

Lemma lex_trans a b c : lex_lt a b -> lex_lt b c -> lex_lt a c.
Proof.
  intros H. revert c. induction H; intros z K; inversion K; subst;
    first [apply Lex_nil | apply Lex_lt; lia | apply Lex_eq; auto].
Qed.

Lemma lex_irrefl a : ~ lex_lt a a.
Proof. induction a; intros H; inversion H; subst; [lia|auto]. Qed.

Lemma insert_in k l x : In x (insert k l) <-> x = k \/ In x l.
Proof.
  induction l as [|y l IH]; cbn [insert].
  - cbn. intuition.
  - destruct (str_eqb k y) eqn:E.
    + apply str_eqb_eq in E. subst y. cbn. intuition.
    + destruct (before k y); cbn; [intuition|]. rewrite IH. intuition.
Qed.

Lemma insert_sorted k l : StronglySorted lex_lt l -> StronglySorted lex_lt (insert k l).
Proof.
  induction 1 as [|y l Hs IH F]; cbn [insert].
  - repeat constructor.
  - destruct (str_eqb k y) eqn:E; [now constructor|].
    destruct (before k y) eqn:B.
    + apply before_spec in B. constructor; [now constructor|]. constructor; [exact B|].
      rewrite Forall_forall in F |- *. intros z Z. apply (lex_trans _ y); auto.
    + constructor; [exact IH|]. rewrite Forall_forall in F |- *. intros z Z.
      apply insert_in in Z as [->|Z]; [|auto].
      destruct (lex_total k y) as [L|L]; [intros ->; now rewrite str_eqb_refl in E| |exact L].
      apply before_spec in L. congruence.
Qed.

Lemma groups_in cs g : In g (groups cs) <-> exists c, In c cs /\ group c = g.
Proof.
  unfold groups. induction cs as [|c cs IH]; cbn [map fold_right].
  - split; [easy|]. now intros (c & [] & _).
  - rewrite insert_in, IH. split.
    + intros [->|(d & D & E)]; eauto using in_eq, in_cons.
    + intros (d & [<-|D] & E); [now left|]. right. eauto.
Qed.

Lemma groups_sorted cs : StronglySorted lex_lt (groups cs).
Proof.
  unfold groups. induction (map group cs) as [|g gs IH]; cbn [fold_right].
  - constructor.
  - now apply insert_sorted.
Qed.

(** ** Headings *)
Lemma begins_spec p s : starts_with p s = true <-> begins p s.
Proof.
  revert s. induction p as [|c p IH]; intros s.
  - split; [exists s; reflexivity|]. now destruct s.
  - destruct s as [|d s]; cbn [starts_with].
    + split; [discriminate|]. intros [r R]. discriminate.
    + rewrite andb_true_iff, IH. split.
      * intros [E [r ->]]. apply N.eqb_eq in E. subst d. now exists r.
      * intros [r R]. injection R as -> ->. split; [apply N.eqb_refl|now exists r].
Qed.

Lemma begins_stop w k d r : ~ In d w -> begins w (k ++ d :: r) -> begins w k.
Proof.
  revert k. induction w as [|c w IH]; intros k N [x X]; [now exists k|].
  destruct k as [|a k]; cbn [app] in X; injection X as X1 X2.
  - subst d. exfalso. apply N. now left.
  - subst a. destruct (IH k) as [y Y]; [intros K; apply N; now right|now exists x|].
    exists y. cbn [app]. now rewrite Y.
Qed.

Lemma parsers_words : parsers = words.
Proof. reflexivity. Qed.

Lemma find_none {A} (f : A -> bool) l : (forall x, In x l -> f x = false) -> find f l = None.
Proof.
  induction l as [|a l IH]; intros H; [reflexivity|]. cbn [find]. rewrite H by now left.
  apply IH. intros x X. apply H. now right.
Qed.

Lemma not_word k : ~ In k (map fst words) -> find (fun w => str_eqb (fst w) k) words = None.
Proof.
  intros H. apply find_none. intros w W. destruct (str_eqb (fst w) k) eqn:E; [|reflexivity].
  apply str_eqb_eq in E. subst k. exfalso. apply H. now apply in_map.
Qed.

Lemma clear_not_word k : (forall w, In w (map fst words) -> ~ begins w k) -> ~ In k (map fst words).
Proof. intros H K. apply (H k K). exists []. now rewrite app_nil_r. Qed.

Lemma rest_head n : exists d r, wrote n = n_kind n ++ d :: r /\ In d (lit "(!:").
Proof.
  unfold wrote. destruct (n_scope n), (n_breaking n); eexists _, _; (split; [reflexivity|]); cbn; auto.
Qed.

Lemma group_meant n : clear_kind (n_kind n) -> group (meant n) = sort_key (n_kind n).
Proof.
  intros C. unfold group, meant. cbn [message kind].
  destruct (rest_head n) as (d & r & -> & D). destruct C as [W|(_ & _ & W)].
  - unfold sort_key. cbn in W. repeat destruct W as [<-|W]; try reflexivity. destruct W.
  - unfold sort_key. rewrite not_word by now apply clear_not_word.
    rewrite find_none; [reflexivity|]. intros w Hw. destruct (starts_with _ _) eqn:E; [|reflexivity].
    apply begins_spec, begins_stop in E.
    + exfalso. apply (W (fst w)); [|exact E]. rewrite <- parsers_words. now apply in_map.
    + intros K. cbn in Hw, D.
      repeat (destruct Hw as [<-|Hw];
        [repeat (destruct D as [<-|D]; [cbn in K; intuition congruence|]); destruct D|]). destruct Hw.
Qed.

Lemma clear_key k k' : clear_kind k -> clear_kind k' -> sort_key k = sort_key k' -> k = k'.
Proof.
  assert (H : forall k, clear_kind k ->
    (In k (map fst words) /\ In (sort_key k) (map snd words)) \/ (sort_key k = k /\ ~ In k (map snd words))).
  { intros x [W|(_ & S & W)].
    - left. split; [exact W|]. cbn in W. repeat destruct W as [<-|W]; [cbn; tauto..|destruct W].
    - right. unfold sort_key. rewrite not_word by now apply clear_not_word. now split. }
  intros A B E. destruct (H _ A) as [[A1 A2]|[A1 A2]], (H _ B) as [[B1 B2]|[B1 B2]].
  - clear A A2 B B2 H. cbn in A1, B1.
    repeat (destruct A1 as [<-|A1];
      [repeat (destruct B1 as [<-|B1]; [first [reflexivity | exfalso; vm_compute in E; discriminate]|]); destruct B1|]).
    destruct A1.
  - exfalso. apply B2. rewrite <- B1, <- E. exact A2.
  - exfalso. apply A2. rewrite <- A1, E. exact B2.
  - congruence.
Qed.

Lemma striptags_plain s : ~ In c_lt s -> striptags s = s.
Proof.
  unfold striptags. induction s as [|c s IH]; intros H; [reflexivity|].
  cbn [length striptags_go].
  assert (C : ceq c c_lt = false) by (apply N.eqb_neq; intros ->; apply H; now left).
  assert (D : starts_with (lit "<!--") (c :: s) = false).
  { change (lit "<!--") with (c_lt :: lit "!--"). cbn [starts_with].
    replace (ceq c_lt c) with false; [reflexivity|]. symmetry. unfold ceq in *. now rewrite N.eqb_sym. }
  rewrite D, C. f_equal. apply IH. intros K. apply H. now right.
Qed.

Lemma trim_kind k : kind_text k -> trim k = k.
Proof.
  intros [_ H]. assert (A : forall s : str, (forall c, In c s -> is_whitespace c = false) -> drop_while is_whitespace s = s).
  { intros [|c s] K; [reflexivity|]. apply drop_while_stop, K. now left. }
  unfold trim, trim_end, trim_end_by, trim_start_by. rewrite (A k) by apply H.
  rewrite (A (rev k)); [apply rev_involutive|]. intros c C. apply H. now apply in_rev.
Qed.

Section Tera.
Variable upper : char -> str.
Hypothesis Hnl : forall c, c <> c_nl -> one_line (upper c).
Hypothesis Hsym : forall w, In w (map snd words) -> capital upper w = w.

Lemma capital_first s : upper_first upper s = capital upper s.
Proof. reflexivity. Qed.

Lemma title_headline k : kind_text k -> clear_kind k -> title upper (sort_key k) = headline upper k.
Proof.
  intros K [W|(L & S & W)].
  - unfold title, headline. rewrite capital_first.
    assert (E : trim (striptags (sort_key k)) = sort_key k)
      by (cbn in W; repeat destruct W as [<-|W]; try reflexivity; destruct W).
    rewrite E. unfold sort_key.
    assert (F : exists w, find (fun w => str_eqb (fst w) k) words = Some w /\ In (snd w) (map snd words)).
    { cbn in W. repeat destruct W as [<-|W]; [eexists; split; [reflexivity|cbn; tauto]..|destruct W]. }
    destruct F as (w & -> & F). now apply Hsym.
  - unfold sort_key, headline. rewrite not_word by now apply clear_not_word.
    unfold title. now rewrite striptags_plain, trim_kind.
Qed.

(** ** Lines *)
Definition lay (ls : list str) : str := flat_map (fun l => l ++ [c_nl]) ls.

Lemma lines_cons l s : one_line l -> lines_of (l ++ c_nl :: s) = l :: lines_of s.
Proof.
  induction l as [|c l IH]; intros H; [reflexivity|]. cbn [app lines_of].
  assert (C : ceq c c_nl = false) by (apply N.eqb_neq; intros ->; apply H; now left).
  rewrite C, IH; [reflexivity|]. intros K. apply H. now right.
Qed.

Lemma lines_lay ls s : Forall one_line ls -> lines_of (lay ls ++ s) = ls ++ lines_of s.
Proof.
  induction 1 as [|l ls H _ IH]; [reflexivity|]. unfold lay. cbn [flat_map].
  rewrite <- !app_assoc. cbn [app]. rewrite lines_cons by exact H. now rewrite <- IH.
Qed.

Lemma lay_app a b : lay (a ++ b) = lay a ++ lay b.
Proof. unfold lay. apply flat_map_app. Qed.

Lemma shift_nl {A} (f : A -> str) l :
  flat_map (fun x => c_nl :: f x) l ++ [c_nl] = c_nl :: lay (map f l).
Proof.
  induction l as [|x l IH]; [reflexivity|]. cbn [flat_map map lay]. cbn [app]. f_equal.
  rewrite <- !app_assoc, IH. reflexivity.
Qed.

Definition section_lines (cs : list commit) (g : str) : list str :=
  [[]; lit "### " ++ title upper g; []] ++ map (entry upper) (filter (fun c => str_eqb (group c) g) cs).

Lemma section_lay cs g : section upper cs g = lay (section_lines cs g).
Proof.
  unfold section, section_lines. rewrite lay_app, shift_nl.
  unfold lay. cbn [flat_map app]. rewrite <- ?app_assoc. cbn [app]. rewrite <- ?app_assoc. reflexivity.
Qed.

Definition release_title (r : release) : str :=
  match version r with
  | Some v =>
      lit "[" ++ trim_start_by (ceq 118%N) v ++ lit "]"
      ++ match previous r with
         | Some p => lit "(" ++ remote_url ++ lit "/compare/" ++ p ++ lit ".." ++ v ++ lit ")"
         | None => []
         end ++ lit " - " ++ date r
  | None => lit "[Unreleased]"
  end.
Definition heading_lines (r : release) : list str :=
  match version r with
  | Some v => [[]; []; lit "## " ++ release_title r; []; []; []]
  | None => [[]; lit "## " ++ release_title r; []; []]
  end.

Lemma heading_lay r : heading r = lay (heading_lines r).
Proof.
  unfold heading, heading_lines, release_title. destruct (version r) as [v|]; [|reflexivity].
  unfold lay. cbn [flat_map]. rewrite <- ?app_assoc. cbn [app].
  change (lit "## [") with (lit "## " ++ lit "["). rewrite <- ?app_assoc. reflexivity.
Qed.

Definition body_lines (r : release) : list str :=
  let cs := commits (history r) in heading_lines r ++ flat_map (section_lines cs) (groups cs).

Lemma body_lay r : body upper r = lay (body_lines r).
Proof.
  unfold body, body_lines. rewrite lay_app, heading_lay. f_equal.
  induction (groups (commits (history r))) as [|g gs IH]; [reflexivity|].
  cbn [flat_map]. now rewrite lay_app, section_lay, IH.
Qed.

Lemma one_app a b : one_line a -> one_line b -> one_line (a ++ b).
Proof. intros A B K. apply in_app_or in K as [K|K]; auto. Qed.
Lemma one_lit a : forallb (fun c => negb (ceq c c_nl)) a = true -> one_line a.
Proof.
  intros H K. rewrite forallb_forall in H. apply H in K. discriminate.
Qed.
Lemma one_capital s : one_line s -> one_line (capital upper s).
Proof.
  destruct s as [|c s]; intros H; [exact H|]. cbn [capital]. apply one_app.
  - apply Hnl. intros ->. apply H. now left.
  - intros K. apply H. now right.
Qed.
Lemma one_firstn n s : one_line s -> one_line (firstn n s).
Proof.
  intros H K. apply H. rewrite <- (firstn_skipn n s). apply in_or_app. now left.
Qed.
Lemma one_kind k : kind_text k -> one_line k.
Proof. intros [_ H] K. destruct (H _ K) as [A _]. discriminate. Qed.

Lemma entry_bullet n : entry upper (meant n) = lit "- " ++ bullet upper (commit_url remote_url) n.
Proof.
  unfold entry, bullet, commit_url, meant. cbn [scope breaking description hash].
  rewrite <- ?app_assoc. reflexivity.
Qed.

Lemma one_bullet n : proper n -> one_line (bullet upper (commit_url remote_url) n).
Proof.
  intros (A & B & C & D & _). unfold bullet, commit_url.
  repeat apply one_app; auto using one_capital, one_firstn; try (now apply one_lit).
  - destruct (n_scope n) as [s|]; [|now apply one_lit].
    destruct (C s eq_refl) as (_ & X & _). repeat apply one_app; auto; now apply one_lit.
  - destruct (n_breaking n); now apply one_lit.
Qed.

Lemma one_headline k : kind_text k -> one_line (headline upper k).
Proof.
  intros K. unfold headline. destruct (find _ words) as [w|] eqn:E.
  - apply find_some in E as [E _]. cbn in E. repeat destruct E as [<-|E]; try (now apply one_lit).
  - now apply one_capital, one_kind.
Qed.

(** ** Reading *)
Lemma read_item e es ss rs : read_line (lit "- " ++ e) (es, ss, rs) = (e :: es, ss, rs).
Proof. reflexivity. Qed.
Lemma read_section t es ss rs : read_line (lit "### " ++ t) (es, ss, rs) = ([], (t, es) :: ss, rs).
Proof. reflexivity. Qed.
Lemma read_release t es ss rs : read_line (lit "## " ++ t) (es, ss, rs) = ([], [], (t, es, ss) :: rs).
Proof. reflexivity. Qed.
Lemma read_empty x : read_line [] x = x.
Proof. now destruct x as [[es ss] rs]. Qed.

Lemma read_items ls es ss rs :
  fold_right read_line (es, ss, rs) (map (fun e => lit "- " ++ e) ls) = (ls ++ es, ss, rs).
Proof.
  induction ls as [|l ls IH]; [reflexivity|]. cbn [map fold_right]. now rewrite IH, read_item.
Qed.

Lemma filter_meant ns k : Forall (fun n => clear_kind (n_kind n)) ns -> clear_kind k ->
  filter (fun c => str_eqb (group c) (sort_key k)) (map meant ns)
  = map meant (filter (fun n => str_eqb (n_kind n) k) ns).
Proof.
  intros H K. induction H as [|n ns C _ IH]; [reflexivity|]. cbn [map filter].
  rewrite IH, (group_meant _ C).
  replace (str_eqb (sort_key (n_kind n)) (sort_key k)) with (str_eqb (n_kind n) k).
  - now destruct (str_eqb (n_kind n) k).
  - apply eq_true_iff_eq. rewrite !str_eqb_eq. split; [now intros ->|now apply clear_key].
Qed.

Lemma section_read ns k ss rs : Forall proper ns -> Forall (fun n => clear_kind (n_kind n)) ns ->
  kind_text k -> clear_kind k ->
  fold_right read_line ([], ss, rs) (section_lines (map meant ns) (sort_key k))
  = ([], (headline upper k,
      map (bullet upper (commit_url remote_url)) (filter (fun n => str_eqb (n_kind n) k) ns)) :: ss, rs).
Proof.
  intros P C Kt K. unfold section_lines. rewrite fold_right_app, filter_meant by assumption.
  rewrite map_map, (map_ext _ (fun n => lit "- " ++ bullet upper (commit_url remote_url) n)) by apply entry_bullet.
  rewrite <- (map_map (bullet upper (commit_url remote_url)) (fun e => lit "- " ++ e)), read_items, app_nil_r.
  cbn [fold_right]. rewrite !read_empty, read_section. now rewrite (title_headline _ Kt K).
Qed.

Lemma keys_of (ns : list note) gs : Forall (fun n => clear_kind (n_kind n)) ns ->
  (forall g, In g gs -> exists n, In n ns /\ sort_key (n_kind n) = g) ->
  exists ks, gs = map sort_key ks /\ forall k, In k ks -> In k (map n_kind ns).
Proof.
  intros C. induction gs as [|g gs IH]; intros H.
  - exists []. split; [reflexivity|]. easy.
  - destruct IH as (ks & -> & K); [intros x X; apply H; now right|].
    destruct (H g) as (n & N1 & N2); [now left|].
    exists (n_kind n :: ks). split; [cbn [map]; now rewrite N2|].
    intros k [<-|X]; [now apply in_map | auto].
Qed.

Lemma sorted_nodup l : StronglySorted lex_lt l -> NoDup l.
Proof.
  induction 1 as [|x l _ IH F]; constructor; [|exact IH].
  intros K. rewrite Forall_forall in F. exact (lex_irrefl _ (F _ K)).
Qed.

Lemma nodup_map {A B} (f : A -> B) l : NoDup (map f l) -> NoDup l.
Proof.
  induction l as [|x l IH]; intros H; [constructor|]. inversion H; subst. constructor; [|auto].
  intros K. apply H2. now apply in_map.
Qed.

Definition made (i : issue) : release :=
  Release (option_map (app (lit "v")) (i_version i)) (i_previous i) (i_date i) (written (i_notes i)).

Lemma title_announced i : issue_ok i -> release_title (made i) = announced remote_url i.
Proof.
  intros (V & _). unfold release_title, announced, made. cbn [version previous date].
  destruct (i_version i) as [v|]; [|reflexivity]. cbn [option_map].
  destruct (V v eq_refl) as [_ B].
  assert (E : trim_start_by (ceq 118%N) (lit "v" ++ v) = v).
  { unfold trim_start_by. change (lit "v" ++ v) with (118%N :: v). cbn [drop_while].
    change (ceq 118%N 118%N) with true. cbv iota. destruct v as [|c v]; [reflexivity|].
    apply drop_while_stop. apply N.eqb_neq. intros <-. apply B. now exists v. }
  rewrite E. destruct (i_previous i); [|reflexivity].
  change (lit "..v") with (lit ".." ++ lit "v"). now rewrite <- ?app_assoc.
Qed.

Lemma one_announced i : issue_ok i -> one_line (announced remote_url i).
Proof.
  intros (V & P & D & _). unfold announced. destruct (i_version i) as [v|]; [|now apply one_lit].
  destruct (V v eq_refl) as [V1 _].
  repeat apply one_app; auto; try (now apply one_lit).
  destruct (i_previous i) as [p|]; [|now apply one_lit].
  specialize (P p eq_refl). repeat apply one_app; auto; now apply one_lit.
Qed.

Lemma body_reads i rs : issue_ok i ->
  Forall one_line (body_lines (made i)) /\
  exists ss, lists upper remote_url (i_notes i) ss /\
    fold_right read_line ([], [], rs) (body_lines (made i)) = ([], [], (announced remote_url i, [], ss) :: rs).
Proof.
  intros O. pose proof O as (_ & _ & _ & P & C). unfold body_lines.
  assert (E : commits (history (made i)) = map meant (i_notes i)) by now apply commits_written.
  rewrite E. set (ns := i_notes i) in *.
  destruct (keys_of ns (groups (map meant ns)) C) as (ks & Eg & K).
  { intros g G. apply groups_in in G as (c & Hc & G). apply in_map_iff in Hc as (n & <- & Hn).
    exists n. split; [exact Hn|]. rewrite Forall_forall in C. rewrite <- G. symmetry. now apply group_meant, C. }
  assert (Kc : forall k, In k ks -> clear_kind k /\ kind_text k).
  { intros k Hk. apply K, in_map_iff in Hk as (n & <- & Hn).
    rewrite Forall_forall in C, P. split; [now apply C|]. now destruct (P _ Hn) as (_ & ? & _). }
  pose proof (groups_sorted (map meant ns)) as Hs. rewrite Eg in Hs.
  set (f := fun k => (headline upper k, map (bullet upper (commit_url remote_url)) (filter (fun n => str_eqb (n_kind n) k) ns))).
  assert (R : forall l, (forall k, In k l -> In k ks) ->
    fold_right read_line ([], [], rs) (flat_map (section_lines (map meant ns)) (map sort_key l)) = ([], map f l, rs)).
  { induction l as [|k l IH]; intros Hl; [reflexivity|]. cbn [map flat_map].
    rewrite fold_right_app, IH by (intros; apply Hl; now right).
    destruct (Kc k) as [K1 K2]; [apply Hl; now left|].
    now rewrite section_read by assumption. }
  split.
  - apply Forall_app. split.
    + unfold heading_lines. rewrite (title_announced _ O). pose proof (one_announced _ O) as A.
      assert (B : one_line (lit "## " ++ announced remote_url i)) by (apply one_app; [now apply one_lit|exact A]).
      destruct (version (made i)); repeat constructor; auto; now apply one_lit.
    + rewrite Eg. apply Forall_forall. intros l Hl. apply in_flat_map in Hl as (g & G & Hl).
      apply in_map_iff in G as (k & <- & G). destruct (Kc k G) as [K1 K2].
      unfold section_lines in Hl. rewrite filter_meant in Hl by assumption.
      rewrite (title_headline _ K2 K1) in Hl.
      apply in_app_or in Hl as [[<-|[<-|[<-|[]]]]|Hl].
      * now apply one_lit.
      * apply one_app; [now apply one_lit|now apply one_headline].
      * now apply one_lit.
      * apply in_map_iff in Hl as (c & <- & Hc). apply in_map_iff in Hc as (n & <- & Hn).
        rewrite entry_bullet. apply one_app; [now apply one_lit|]. apply one_bullet.
        apply filter_In in Hn as [Hn _]. rewrite Forall_forall in P. auto.
  - exists (map f ks). split.
    + exists ks. split; [|split; [|split]].
      * apply (nodup_map sort_key), sorted_nodup, Hs.
      * intros k. split; [apply K|]. intros Hk. apply in_map_iff in Hk as (n & <- & Hn).
        rewrite Forall_forall in C.
        assert (G : In (sort_key (n_kind n)) (groups (map meant ns))).
        { apply groups_in. exists (meant n). split; [now apply in_map|]. now apply group_meant, C. }
        rewrite Eg in G. apply in_map_iff in G as (k & G1 & G2).
        apply clear_key in G1; [now subst k | now apply Kc | now apply C].
      * exact Hs.
      * reflexivity.
    + rewrite fold_right_app, Eg, R by auto. unfold heading_lines. rewrite (title_announced _ O).
      destruct (version (made i)); cbn [fold_right]; now rewrite ?read_empty, read_release, ?read_empty.
Qed.

Lemma changelog_lay rs : changelog upper rs
  = lay (lit "# Changelog" :: flat_map body_lines rs ++ [lit "<!-- generated by git-cliff -->"]).
Proof.
  unfold changelog. unfold lay at 1. cbn [flat_map]. fold lay.
  change (flat_map (fun l => l ++ [c_nl]) (flat_map body_lines rs ++ [lit "<!-- generated by git-cliff -->"]))
    with (lay (flat_map body_lines rs ++ [lit "<!-- generated by git-cliff -->"])).
  rewrite lay_app, <- app_assoc. f_equal. cbn [app]. f_equal.
  replace (flat_map (body upper) rs) with (lay (flat_map body_lines rs)); [reflexivity|].
  induction rs as [|r rs IH]; [reflexivity|]. cbn [flat_map]. now rewrite lay_app, IH, body_lay.
Qed.

Theorem changelog_reads is_ : Forall issue_ok is_ ->
  exists rs, read (changelog upper (map made is_)) = ([], [], rs)
    /\ Forall2 (fun i x => exists ss, x = (announced remote_url i, [], ss) /\ lists upper remote_url (i_notes i) ss) is_ rs.
Proof.
  intros H. set (foot := lit "<!-- generated by git-cliff -->").
  assert (A : Forall one_line (flat_map body_lines (map made is_)) /\
    exists rs, fold_right read_line ([], [], []) (flat_map body_lines (map made is_)) = ([], [], rs)
    /\ Forall2 (fun i x => exists ss, x = (announced remote_url i, [], ss) /\ lists upper remote_url (i_notes i) ss) is_ rs).
  { induction H as [|i is_ O _ IH].
    - split; [constructor|]. exists []. split; [reflexivity|constructor].
    - destruct IH as (L & rs & R & F). destruct (body_reads i rs O) as (L' & ss & Hs & R').
      cbn [map flat_map]. split; [apply Forall_app; now split|].
      exists ((announced remote_url i, [], ss) :: rs). split; [now rewrite fold_right_app, R|].
      constructor; [now exists ss|exact F]. }
  destruct A as (L & rs & R & F). exists rs. split; [|exact F].
  unfold read. rewrite changelog_lay, <- (app_nil_r (lay _)), lines_lay.
  - cbn [lines_of]. fold foot. change (lit "# Changelog" :: ?x) with ([lit "# Changelog"] ++ x).
    rewrite <- ?app_assoc, !fold_right_app. change (fold_right read_line ([], [], []) [[]]) with (@nil str, @nil (str * items), @nil (str * items * sections)).
    change (fold_right read_line ([], [], []) [foot]) with (@nil str, @nil (str * items), @nil (str * items * sections)).
    rewrite R. reflexivity.
  - constructor; [now apply one_lit|]. apply Forall_app. split; [exact L|]. constructor; [now apply one_lit|constructor].
Qed.

(** ** Every commit once *)
Lemma filter_or {A} (p q : A -> bool) l : (forall x, p x = true -> q x = true -> False) ->
  Permutation (filter p l ++ filter q l) (filter (fun x => p x || q x) l).
Proof.
  intros H. induction l as [|x l IH]; [constructor|]. cbn [filter].
  destruct (p x) eqn:P, (q x) eqn:Q; cbn [orb].
  - destruct (H x P Q).
  - cbn [app]. now constructor.
  - symmetry. apply Permutation_cons_app. now symmetry.
  - exact IH.
Qed.

Lemma filter_all {A} (p : A -> bool) l : (forall x, In x l -> p x = true) -> filter p l = l.
Proof.
  induction l as [|x l IH]; intros H; [reflexivity|]. cbn [filter]. rewrite H by now left.
  f_equal. apply IH. intros y Y. apply H. now right.
Qed.

Lemma lists_once ns ss : lists upper remote_url ns ss ->
  Permutation (flat_map (fun s => map (pair (fst s)) (snd s)) ss)
    (map (fun n => (headline upper (n_kind n), bullet upper (commit_url remote_url) n)) ns).
Proof.
  intros (ks & D & K & _ & ->). set (b := bullet upper (commit_url remote_url)).
  set (f := fun n => (headline upper (n_kind n), b n)).
  assert (A : forall ks, NoDup ks ->
    Permutation (flat_map (fun k => filter (fun n => str_eqb (n_kind n) k) ns) ks)
      (filter (fun n => existsb (str_eqb (n_kind n)) ks) ns)).
  { clear. induction ks as [|k ks IH]; intros D.
    - cbn [flat_map existsb]. induction ns; [constructor|assumption].
    - inversion D; subst. cbn [flat_map existsb]. rewrite IH by assumption. apply filter_or.
      intros n X Y. apply str_eqb_eq in X. apply existsb_exists in Y as (k' & Y1 & Y2).
      apply str_eqb_eq in Y2. congruence. }
  assert (B : flat_map (fun s => map (pair (fst s)) (snd s))
      (map (fun k => (headline upper k, map b (filter (fun n => str_eqb (n_kind n) k) ns))) ks)
    = map f (flat_map (fun k => filter (fun n => str_eqb (n_kind n) k) ns) ks)).
  { clear. induction ks as [|k ks IH]; [reflexivity|]. cbn [map flat_map fst snd]. rewrite IH, map_app. f_equal.
    rewrite map_map. apply map_ext_in. intros n N. apply filter_In in N as [_ N]. apply str_eqb_eq in N.
    unfold f. now rewrite N. }
  rewrite B, (A _ D). apply Permutation_map.
  rewrite filter_all; [reflexivity|].
  intros n N. apply existsb_exists. exists (n_kind n). split; [|apply str_eqb_refl].
  apply K. now apply in_map.
Qed.

(** ** Kinds that begin with a word of the list *)
Lemma group_begins n w : In w words -> begins (fst w) (n_kind n) -> group (meant n) = snd w.
Proof.
  intros W [x X]. unfold group, meant. cbn [message kind].
  destruct (rest_head n) as (d & r & -> & _). rewrite X. cbn in W.
  repeat (destruct W as [<-|W]; [reflexivity|]). destruct W.
Qed.

Lemma prefix_wins v p d n w : issue_ok (Issue v p d []) -> proper n -> In w words -> begins (fst w) (n_kind n) ->
  read (changelog upper [made (Issue v p d [n])])
  = ([], [], [(announced remote_url (Issue v p d [n]), [], [(snd w, [bullet upper (commit_url remote_url) n])])]).
Proof.
  intros O P W B. unfold read. rewrite changelog_lay. cbn [map flat_map]. rewrite app_nil_r.
  rewrite <- (app_nil_r (lay _)).
  assert (E : commits (history (made (Issue v p d [n]))) = [meant n]).
  { apply (commits_written [n]). constructor; [exact P|constructor]. }
  assert (G : groups [meant n] = [snd w]) by (unfold groups; cbn; now rewrite (group_begins n w W B)).
  assert (T : title upper (snd w) = snd w).
  { unfold title. replace (trim (striptags (snd w))) with (snd w); [|].
    - rewrite capital_first. apply Hsym. now apply in_map.
    - cbn in W. repeat (destruct W as [<-|W]; [reflexivity|]). destruct W. }
  assert (O' : release_title (made (Issue v p d [n])) = announced remote_url (Issue v p d [n])).
  { apply (title_announced (Issue v p d [])), O. }
  assert (L : body_lines (made (Issue v p d [n]))
    = heading_lines (made (Issue v p d [n]))
      ++ [[]; lit "### " ++ snd w; []; lit "- " ++ bullet upper (commit_url remote_url) n]).
  { unfold body_lines. rewrite E, G. cbn [flat_map]. rewrite app_nil_r. unfold section_lines.
    cbn [filter]. rewrite (group_begins n w W B), str_eqb_refl, T. cbn [map app]. now rewrite entry_bullet. }
  rewrite L. unfold heading_lines. rewrite O'.
  assert (A1 : one_line (announced remote_url (Issue v p d [n]))) by apply (one_announced (Issue v p d [])), O.
  rewrite lines_lay.
  - destruct (version _); cbn [app lines_of fold_right];
      now rewrite ?read_empty, ?read_release, ?read_section, ?read_item.
  - assert (S0 : one_line (snd w)) by (cbn in W; repeat (destruct W as [<-|W]; [now apply one_lit|]); destruct W).
    pose proof (one_bullet n P) as Bn.
    destruct (version _); cbn [app]; repeat constructor; auto; try (now apply one_lit);
      apply one_app; auto; now apply one_lit.
Qed.

(** ** Links *)
Lemma links_in a u b : ~ In c_rpar u -> In u (links (a ++ lit "](" ++ u ++ lit ")" ++ b)).
Proof.
  intros U. assert (T : take_while (fun d => negb (ceq d c_rpar)) (u ++ lit ")" ++ b) = u).
  { rewrite take_while_app.
    - change (lit ")" ++ b) with (c_rpar :: b). rewrite take_while_stop by reflexivity. apply app_nil_r.
    - apply forallb_forall. intros c C. apply negb_true_iff, N.eqb_neq. now intros ->. }
  induction a as [|c a IH].
  - change ([] ++ lit "](" ++ u ++ lit ")" ++ b) with (c_rbrk :: c_lpar :: u ++ lit ")" ++ b).
    cbn [links]. change (behind (lit "](") (c_rbrk :: c_lpar :: u ++ lit ")" ++ b)) with (Some (u ++ lit ")" ++ b)).
    left. exact T.
  - cbn [app links]. destruct (behind _ _); [right|]; exact IH.
Qed.

Lemma links_skip a b : ~ In c_rbrk a -> links (a ++ b) = links b.
Proof.
  induction a as [|c a IH]; intros H; [reflexivity|]. cbn [app links].
  assert (C : ceq c c_rbrk = false) by (apply N.eqb_neq; intros ->; apply H; now left).
  unfold behind. change (lit "](") with [c_rbrk; c_lpar]. cbn [length firstn str_eqb]. rewrite C.
  cbn [andb]. apply IH. intros K. apply H. now right.
Qed.

Definition within (a s : str) : Prop := exists x y, s = x ++ a ++ y.
Lemma within_app a x s y : within a s -> within a (x ++ s ++ y).
Proof.
  intros (p & q & ->). exists (x ++ p), (q ++ y). now rewrite <- !app_assoc.
Qed.
Lemma within_flat {A} (f : A -> str) l a x : In x l -> within a (f x) -> within a (flat_map f l).
Proof.
  intros I W. apply in_split in I as (l1 & l2 & ->). rewrite flat_map_app. cbn [flat_map]. now apply within_app.
Qed.
Lemma within_body a r rs : In r rs -> within a (body upper r) -> within a (changelog upper rs).
Proof.
  intros I W. unfold changelog. rewrite app_assoc. apply within_app. now apply (within_flat _ _ _ r).
Qed.

Lemma within_links u s : ~ In c_rpar u -> within (lit "](" ++ u ++ lit ")") s -> In u (links s).
Proof.
  intros U (x & y & ->). rewrite <- !app_assoc. now apply links_in.
Qed.

Lemma within_commit rs r h m c : In r rs -> In (h, m) (history r) -> read_commit h m = Some c ->
  within (entry upper c) (changelog upper rs).
Proof.
  intros I J E. apply (within_body _ r); [exact I|]. unfold body.
  assert (C : In c (commits (history r))).
  { apply in_split in J as (l1 & l2 & ->). rewrite commits_app. cbn [commits]. rewrite E.
    apply in_or_app. right. now left. }
  rewrite <- (app_nil_r (flat_map _ _)). apply within_app.
  apply (within_flat _ _ _ (group c)); [apply groups_in; now exists c|].
  unfold section.
  set (l := flat_map _ _).
  assert (W : within (entry upper c) l).
  { apply (within_flat _ _ _ c).
    - apply filter_In. split; [exact C|apply str_eqb_refl].
    - exists [c_nl], []. now rewrite app_nil_r. }
  replace (c_nl :: lit "### " ++ title upper (group c) ++ [c_nl] ++ l ++ [c_nl])
    with ((c_nl :: lit "### " ++ title upper (group c) ++ [c_nl]) ++ l ++ [c_nl])
    by (cbn [app]; now rewrite <- ?app_assoc).
  now apply within_app.
Qed.

Lemma wrong_is_wrong x : ~ begins repository (wrong_base ++ x).
Proof. intros [r R]. vm_compute in R. discriminate. Qed.

Lemma read_commit_hash h m c : read_commit h m = Some c -> hash c = h.
Proof.
  unfold read_commit. destruct (is_empty _); [discriminate|].
  destruct (read_scope _) as [[s r1]|]; [|discriminate]. destruct (read_mark r1) as [b [|d r3]]; [discriminate|].
  destruct (_ && _); [|discriminate]. now intros [= <-].
Qed.

Lemma commit_links rs r h m : In r rs -> In (h, m) (history r) -> read_commit h m <> None -> ~ In c_rpar h ->
  In (commit_url wrong_base h) (links (changelog upper rs)) /\ ~ begins repository (commit_url wrong_base h).
Proof.
  intros I J E H. split; [|apply wrong_is_wrong].
  destruct (read_commit h m) as [c|] eqn:R; [|congruence].
  pose proof (read_commit_hash _ _ _ R) as Hh.
  apply within_links.
  - unfold commit_url. intros K. repeat (apply in_app_or in K as [K|K]); [| |auto];
      cbn in K; intuition discriminate.
  - destruct (within_commit rs r h m c I J R) as (x & y & ->).
    unfold entry. rewrite Hh.
    exists (x ++ lit "- " ++ match scope c with Some s => lit "*(" ++ s ++ lit ")* " | None => [] end
       ++ (if breaking c then lit "[**breaking**] " else []) ++ upper_first upper (description c)
       ++ lit " - ([" ++ firstn 7 h), (lit ")" ++ y).
    unfold commit_url. change remote_url with wrong_base. change (lit "))") with (lit ")" ++ lit ")").
    now rewrite <- !app_assoc.
Qed.

Lemma compare_links rs r v p : In r rs -> version r = Some v -> previous r = Some p ->
  ~ In c_rpar v -> ~ In c_rpar p ->
  In (wrong_base ++ lit "/compare/" ++ p ++ lit ".." ++ v) (links (changelog upper rs))
  /\ ~ begins repository (wrong_base ++ lit "/compare/" ++ p ++ lit ".." ++ v).
Proof.
  intros I V P Hv Hp. split; [|apply wrong_is_wrong]. apply within_links.
  - intros K. repeat (apply in_app_or in K as [K|K]); auto; cbn in K; intuition discriminate.
  - apply (within_body _ r); [exact I|]. unfold body, heading. rewrite V, P.
    set (n := trim_start_by _ v). set (z := flat_map _ _).
    exists ([c_nl; c_nl] ++ lit "## [" ++ n), (lit " - " ++ date r ++ [c_nl; c_nl; c_nl; c_nl] ++ z).
    change remote_url with wrong_base. change (lit "](") with (lit "]" ++ lit "(").
    rewrite <- !app_assoc. reflexivity.
Qed.

Lemma bullet_links n :
  ~ In c_rbrk (match n_scope n with Some s => s | None => [] end) ->
  ~ In c_rbrk (capital upper (n_text n)) -> ~ In c_rbrk (n_hash n) -> ~ In c_rpar (n_hash n) ->
  links (bullet upper (commit_url wrong_base) n) = [commit_url wrong_base (n_hash n)].
Proof.
  intros A B C D. unfold bullet.
  assert (E1 : ~ In c_rbrk (match n_scope n with Some s => lit "*(" ++ s ++ lit ")* " | None => [] end)).
  { destruct (n_scope n) as [s|]; [|easy]. intros K.
    repeat (apply in_app_or in K as [K|K]); auto; cbn in K; intuition discriminate. }
  rewrite links_skip by exact E1.
  assert (E2 : forall x, links ((if n_breaking n then lit "[**breaking**] " else []) ++ x) = links x).
  { intros x. destruct (n_breaking n); [|reflexivity].
    change (lit "[**breaking**] " ++ x) with (lit "[**breaking**" ++ (c_rbrk :: c_sp :: x)).
    rewrite links_skip by (cbn; intuition discriminate). reflexivity. }
  rewrite E2, links_skip by exact B.
  rewrite links_skip by (cbn; intuition discriminate).
  rewrite links_skip.
  2: { intros K. apply C. rewrite <- (firstn_skipn 7 (n_hash n)). apply in_or_app. now left. }
  set (u := commit_url wrong_base (n_hash n)).
  assert (U : ~ In c_rpar u /\ ~ In c_rbrk u).
  { unfold u, commit_url. split; intros K; repeat (apply in_app_or in K as [K|K]); auto; cbn in K; intuition discriminate. }
  destruct U as [U1 U2].
  change (lit "](" ++ u ++ lit "))") with (c_rbrk :: c_lpar :: u ++ lit "))"). cbn [links].
  change (behind (lit "](") (c_rbrk :: c_lpar :: u ++ lit "))")) with (Some (u ++ lit "))")). cbv iota.
  change (lit "))") with [c_rpar; c_rpar].
  rewrite take_while_app, take_while_stop, app_nil_r by
    (try reflexivity; apply forallb_forall; intros c Hc; apply negb_true_iff, N.eqb_neq; now intros ->).
  f_equal. change (behind (lit "](") (c_lpar :: u ++ [c_rpar; c_rpar])) with (@None str). cbv iota.
  rewrite links_skip by exact U2. reflexivity.
Qed.
End Tera.

(** ** Commits left out *)
Lemma left_out upper v p d a b h m : ~ In c_colon m ->
  body upper (Release v p d (a ++ (h, m) :: b)) = body upper (Release v p d (a ++ b)).
Proof.
  intros H. unfold body, heading. cbn [history version previous date].
  rewrite !commits_app. cbn [commits]. now rewrite (no_colon h m H).
Qed.

Lemma ascii_sane : sane ascii_upper.
Proof.
  split.
  - intros c C [K|[]]. destruct ((97 <=? c)%N && (c <=? 122)%N) eqn:E; [|congruence].
    apply andb_true_iff in E as [E _]. apply N.leb_le in E. unfold c_nl in K. lia.
  - intros w W. cbn in W. repeat (destruct W as [<-|W]; [reflexivity|]). destruct W.
Qed.

(** ** Examples *)
Ltac one_by_compute := let H := fresh in intros H; cbn in H; intuition discriminate.
Ltac proper_by_compute :=
  split; [one_by_compute|]; split;
  [split; [discriminate|]; intros ? Hc; cbn in Hc;
   repeat (destruct Hc as [<-|Hc]; [split; [reflexivity|one_by_compute]|]); destruct Hc|];
  split; [cbn [n_scope]; intros ? Hs; first [discriminate Hs | injection Hs as <-;
          split; [discriminate|]; split; [one_by_compute|]; intros ? Hc; cbn in Hc;
          repeat (destruct Hc as [<-|Hc]; [one_by_compute|]); destruct Hc]
         |split; [one_by_compute|]; eexists _, _; split; [reflexivity|]; split; discriminate].
Ltac not_begun := let K := fresh in intros ? K; cbn in K;
  repeat (destruct K as [<-|K]; [let R := fresh in intros [? R]; vm_compute in R; discriminate|]); destruct K.
Ltac other_kind := right; split; [one_by_compute|]; split; [one_by_compute|not_begun].

Lemma fixture_proper : proper (Note (lit "1") (lit "fixture") None false (lit "x")).
Proof. proper_by_compute. Qed.

Lemma two_kinds : issue_ok (Issue None None [] [Note (lit "1") (lit "docs") None false (lit "x");
                                               Note (lit "2") (lit "Docs") None false (lit "y")]).
Proof.
  split; [discriminate|]. split; [discriminate|]. split; [easy|]. split.
  - constructor; [proper_by_compute|]. constructor; [proper_by_compute|constructor].
  - constructor; [other_kind|]. constructor; [other_kind|constructor].
Qed.

Lemma three_notes : issue_ok (Issue (Some (lit "1.0.0")) (Some (lit "v0.9.0")) (lit "2025-01-05")
    [ Note (lit "0123456789") (lit "fix") (Some (lit "ci")) false (lit "run");
      Note (lit "abcdef0123") (lit "docs") None true (lit "say so");
      Note (lit "9876543210") (lit "fix") None false (lit "it") ]).
Proof.
  split; [|split; [|split; [|split]]].
  - intros v [= <-]. split; [one_by_compute|]. intros [r R]. vm_compute in R. discriminate.
  - intros v [= <-]. one_by_compute.
  - one_by_compute.
  - repeat (constructor; [proper_by_compute|]). constructor.
  - constructor; [left; cbn; tauto|]. constructor; [other_kind|]. constructor; [left; cbn; tauto|constructor].
Qed.

Lemma two_sections : exists i t a b, issue_ok i /\
  read (changelog ascii_upper [made i])
  = ([], [], [(announced wrong_base i, [], [(t, [a]); (t, [b])])]).
Proof.
  exists (Issue None None [] [Note (lit "1") (lit "docs") None false (lit "x");
                              Note (lit "2") (lit "Docs") None false (lit "y")]).
  eexists _, _, _. split; [exact two_kinds | vm_compute; reflexivity].
Qed.
