(** * TagFacts: proofs about the message of the tag. *)
From Coq Require Import Ascii String Sorted.
From Verif Require Import Strings StringsFacts Release Prepare.
From Verif Require Cliff.
From Verif Require Import SpecCliff CliffFacts SpecPrepare PrepareFacts TagMessage SpecTag.
Open Scope list_scope.

Lemma git_lines_of s : git_lines s = lines_of s.
Proof. induction s as [|c s IH]; [reflexivity|]. cbn [git_lines lines_of]. now rewrite IH. Qed.

Lemma strip_empty ls : forall a b, strip_lines a b (ls ++ [[]]) = strip_lines a b ls.
Proof.
  induction ls as [|l ls IH]; intros a b; [reflexivity|]. cbn [app strip_lines]. rewrite !IH. reflexivity.
Qed.

Lemma lines_end s : git_lines (s ++ [c_nl]) = git_lines s ++ [[]].
Proof.
  induction s as [|c s IH]; [reflexivity|]. cbn [app git_lines]. rewrite IH.
  destruct (ceq c c_nl); [reflexivity|]. destruct (git_lines s) eqn:E; [|reflexivity].
  destruct s as [|d s]; [discriminate|]. cbn [git_lines] in E. destruct (ceq d c_nl); [discriminate|].
  now destruct (git_lines s).
Qed.

Lemma strip_end s : stripspace (s ++ [c_nl]) = stripspace s.
Proof. unfold stripspace. now rewrite lines_end, strip_empty. Qed.

Lemma drop_nl (s : str) : exists k, s = crep k c_nl ++ drop_while (ceq c_nl) s.
Proof.
  induction s as [|c s [k IH]]; [now exists 0|]. cbn [drop_while]. destruct (ceq c_nl c) eqn:E.
  - apply N.eqb_eq in E. subst c. exists (S k). cbn [crep repeat app]. now rewrite IH at 1.
  - now exists 0.
Qed.

Lemma substituted a s : stripspace (a ++ substitution s) = stripspace (a ++ s).
Proof.
  unfold substitution, trim_end_by. destruct (drop_nl (rev s)) as [k E].
  assert (S : s = rev (drop_while (ceq c_nl) (rev s)) ++ crep k c_nl).
  { rewrite <- (rev_involutive s) at 1. rewrite E at 1. rewrite rev_app_distr.
    f_equal. unfold crep. clear. induction k; [reflexivity|]. cbn [repeat rev]. rewrite IHk.
    clear. induction k; [reflexivity|]. cbn [repeat app]. now rewrite IHk. }
  rewrite S at 2. generalize (rev (drop_while (ceq c_nl) (rev s))). intros x. clear.
  symmetry. rewrite app_assoc. generalize (a ++ x). clear. intros x. induction k; cbn [crep repeat].
  - now rewrite app_nil_r.
  - rewrite <- IHk. replace (x ++ c_nl :: repeat c_nl k) with ((x ++ repeat c_nl k) ++ [c_nl]).
    + now rewrite strip_end.
    + rewrite <- app_assoc. f_equal. clear. induction k; [reflexivity|]. cbn [repeat app]. now rewrite IHk.
Qed.

(** ** Lines *)
Lemma space_white c : git_space c = true -> is_whitespace c = true.
Proof.
  intros H. apply mem_char_iff in H. destruct H as [<-|[<-|[<-|[<-|[]]]]]; reflexivity.
Qed.

(** A line that is kept as it is, but for a tab behind it. *)
Definition firm (l : str) : Prop := exists x c, l = x ++ [c] /\ git_space c = false.

Lemma firm_trim l : firm l -> trim_end_by git_space l = l /\ trim_end_by git_space (l ++ [c_tab]) = l.
Proof.
  intros (x & c & -> & H). unfold trim_end_by. rewrite !rev_app_distr. cbn [rev app drop_while].
  change (git_space c_tab) with true. cbv iota. rewrite H. cbn [rev]. now rewrite rev_involutive.
Qed.

Lemma firm_nonempty l : firm l -> exists c x, l = c :: x.
Proof. intros (x & c & -> & _). destruct x; eexists _, _; reflexivity. Qed.

Lemma strip_firm a b (l : str) ls : firm l -> comment l = false ->
  strip_lines a b ((l ++ [c_tab]) :: ls) = (if a && b then [c_nl] else []) ++ l ++ [c_nl] ++ strip_lines true false ls.
Proof.
  intros F C. cbn [strip_lines].
  destruct (firm_nonempty l F) as (c & x & El).
  assert (C' : comment (l ++ [c_tab]) = false) by (rewrite El in *; exact C).
  rewrite C', (proj2 (firm_trim l F)). rewrite El. reflexivity.
Qed.

Lemma strip_firms ls : forall rest, Forall firm ls -> Forall (fun l => comment l = false) ls ->
  strip_lines true false (map (fun l => l ++ [c_tab]) ls ++ rest)
  = flat_map (fun l => l ++ [c_nl]) ls ++ strip_lines true false rest.
Proof.
  induction ls as [|l ls IH]; intros rest F C; [reflexivity|].
  inversion F; subst. inversion C; subst. cbn [map app flat_map]. rewrite strip_firm by assumption.
  rewrite IH by assumption. cbn [andb app]. now rewrite <- !app_assoc.
Qed.

(** ** The commits *)
Definition meant_item (n : note) : item := Item (Cliff.group (meant n)) (n_breaking n) (n_text n) (n_hash n).

Lemma items_written ns : Forall proper ns -> items (written ns) = map meant_item ns.
Proof.
  induction 1 as [|n ns P _ IH]; [reflexivity|]. cbn [written map items].
  unfold item_of. rewrite (read_wrote _ P). unfold written in IH. now rewrite IH.
Qed.

Lemma names_groups ns : part_names (map meant_item ns) = Cliff.groups (map meant ns).
Proof. unfold part_names, Cliff.groups. now rewrite !map_map. Qed.

Lemma filter_items ns k : Forall (fun n => clear_kind (n_kind n)) ns -> clear_kind k ->
  filter (fun i => str_eqb (i_group i) (sort_key k)) (map meant_item ns)
  = map meant_item (filter (fun n => str_eqb (n_kind n) k) ns).
Proof.
  intros H K. pose proof (filter_meant ns k H K) as F.
  induction H as [|n ns C H IH]; [reflexivity|]. cbn [map filter] in *.
  cbn [meant_item i_group]. rewrite (group_meant _ C) in *.
  replace (str_eqb (sort_key (n_kind n)) (sort_key k)) with (str_eqb (n_kind n) k) in *.
  - destruct (str_eqb (n_kind n) k); cbn [map] in *; rewrite IH; try reflexivity;
      now apply filter_meant.
  - apply eq_true_iff_eq. rewrite !str_eqb_eq. split; [now intros ->|now apply clear_key].
Qed.

Section Upper.
Variable upper : char -> str.
Hypothesis L : letters upper.

Lemma line_short n : TagMessage.line upper (meant_item n) = (lit "- " ++ short upper n) ++ [c_tab].
Proof.
  unfold TagMessage.line, short, meant_item. cbn [i_breaking i_message i_id].
  rewrite capital_first. rewrite <- !app_assoc. reflexivity.
Qed.

Lemma short_firm n : firm (lit "- " ++ short upper n) /\ comment (lit "- " ++ short upper n) = false.
Proof.
  split; [|reflexivity]. unfold short.
  exists (lit "- " ++ (if n_breaking n then lit "(breaking) " else []) ++ capital upper (n_text n) ++ lit " (" ++ firstn 7 (n_hash n)), c_rpar.
  split; [|reflexivity]. rewrite <- !app_assoc. reflexivity.
Qed.

Lemma short_one n : proper n -> one_line (lit "- " ++ short upper n).
Proof.
  intros (H & _ & _ & T & _). destruct L as [[S _] _]. unfold short.
  repeat apply one_app; try (now apply one_lit); [destruct (n_breaking n); now apply one_lit | now apply one_capital | now apply one_firstn].
Qed.

Lemma space_not c : is_whitespace c = false -> git_space c = false.
Proof. intros H. destruct (git_space c) eqn:E; [|reflexivity]. apply space_white in E. congruence. Qed.

Lemma firm_capital (k : str) : k <> [] -> (forall c, In c k -> is_whitespace c = false) -> firm (capital upper k).
Proof.
  intros N W. destruct k as [|c k]; [congruence|]. cbn [capital].
  destruct (proj2 L c (W c (or_introl eq_refl))) as [U V].
  destruct (exists_last (l := upper c ++ k)) as (x & d & E).
  { destruct (upper c); [congruence|discriminate]. }
  exists x, d. split; [exact E|]. apply space_not.
  assert (I : In d (upper c ++ k)) by (rewrite E; apply in_or_app; right; now left).
  apply in_app_or in I as [I|I]; [now apply V | apply W; now right].
Qed.

Definition firmb (s : str) : bool := match rev s with c :: _ => negb (git_space c) | [] => false end.
Lemma firmb_firm s : firmb s = true -> firm s.
Proof.
  unfold firmb. destruct (rev s) as [|c x] eqn:R; [discriminate|]. intros H.
  exists (rev x), c. split; [|now apply negb_true_iff]. rewrite <- (rev_involutive s), R. reflexivity.
Qed.

Lemma headline_firm k : kind_text k -> ~ begins (lit "#") k ->
  firm (headline upper k) /\ comment (headline upper k) = false.
Proof.
  intros [N K] B. unfold headline. destruct (find _ words) as [w|] eqn:F.
  - apply find_some in F as [F _].
    assert (Hw : forallb (fun w => firmb (snd w) && negb (comment (snd w))) words = true)
      by reflexivity.
    rewrite forallb_forall in Hw. specialize (Hw w F). apply andb_prop in Hw as [H1 H2]. apply negb_true_iff in H2.
    split; [now apply firmb_firm|exact H2].
  - assert (W : forall c, In c k -> is_whitespace c = false) by (intros c Hc; now apply K).
    split; [now apply firm_capital|].
    destruct k as [|c k]; [congruence|]. cbn [capital].
    destruct (proj2 L c (W c (or_introl eq_refl))) as [U V]. destruct (upper c) as [|d u]; [congruence|].
    unfold comment. cbn [app starts_with]. change (lit "#") with [c_hash]. cbn [starts_with].
    rewrite andb_true_r. apply N.eqb_neq. intros E. apply B.
    destruct (V d (or_introl eq_refl)) as [_ V2]. rewrite (V2 (eq_sym E)). now exists k.
Qed.

Lemma key_capital k : kind_text k -> Cliff.upper_first upper (sort_key k) = headline upper k.
Proof.
  intros K. rewrite capital_first. unfold sort_key, headline. destruct (find _ words) as [w|] eqn:F; [|reflexivity].
  apply find_some in F as [F _]. apply (proj2 (proj1 L)). now apply in_map.
Qed.

Definition part_lines (ns : list note) (k : str) : list str :=
  [] :: (headline upper k ++ [c_tab]) ::
  map (fun l => l ++ [c_tab]) (map (fun n => lit "- " ++ short upper n) (filter (fun n => str_eqb (n_kind n) k) ns)).

Lemma part_lay ns k : Forall (fun n => clear_kind (n_kind n)) ns -> clear_kind k -> kind_text k ->
  part upper (map meant_item ns) (sort_key k) = lay (part_lines ns k).
Proof.
  intros C K Kt. unfold part, part_lines. rewrite key_capital by exact Kt.
  rewrite shift_nl, filter_items by assumption. rewrite !map_map.
  rewrite (map_ext _ (fun n => (lit "- " ++ short upper n) ++ [c_tab])) by apply line_short.
  unfold lay. cbn [flat_map app]. rewrite <- ?app_assoc. reflexivity.
Qed.

Lemma strip_part b ns k rest : kind_text k -> ~ begins (lit "#") k ->
  strip_lines true b (part_lines ns k ++ rest)
  = (c_nl :: headline upper k ++ [c_nl] ++ flat_map (fun n => lit "- " ++ short upper n ++ [c_nl]) (filter (fun n => str_eqb (n_kind n) k) ns))
    ++ strip_lines true false rest.
Proof.
  intros K B. destruct (headline_firm k K B) as [F1 F2]. unfold part_lines. cbn [app].
  change (strip_lines true b ([] :: ?x)) with (strip_lines true true x).
  rewrite strip_firm by assumption. cbn [andb].
  rewrite strip_firms; [| apply Forall_forall | apply Forall_forall].
  - cbn [app]. rewrite <- !app_assoc. cbn [app]. do 2 f_equal.
    f_equal. f_equal.
    generalize (filter (fun n => str_eqb (n_kind n) k) ns). clear. intros l. induction l as [|n l IH]; [reflexivity|].
    cbn [map flat_map]. rewrite IH. now rewrite <- !app_assoc.
  - intros l Hl. apply in_map_iff in Hl as (n & <- & _). apply short_firm.
  - intros l Hl. apply in_map_iff in Hl as (n & <- & _). apply short_firm.
Qed.

Lemma part_one ns k : Forall proper ns -> kind_text k -> Forall one_line (part_lines ns k).
Proof.
  intros P K. constructor; [now apply one_lit|]. constructor.
  - apply one_app; [|now apply one_lit]. apply one_headline; [exact (proj1 (proj1 L))|exact K].
  - apply Forall_forall. intros l Hl. rewrite map_map in Hl. apply in_map_iff in Hl as (n & <- & Hn).
    apply filter_In in Hn as [Hn _]. rewrite Forall_forall in P.
    apply one_app; [now apply short_one, P | now apply one_lit].
Qed.

Lemma changelog_told tag ns : tag_name tag -> Forall telling ns ->
  told upper tag ns (tag_text tag (flat_map (part upper (items (written ns))) (part_names (items (written ns))))).
Proof.
  intros [T0 T] Te.
  assert (P : Forall proper ns) by (eapply Forall_impl; [|exact Te]; now intros n (?&?&?)).
  assert (C : Forall (fun n => clear_kind (n_kind n)) ns) by (eapply Forall_impl; [|exact Te]; now intros n (?&?&?)).
  assert (B : Forall (fun n => ~ begins (lit "#") (n_kind n)) ns) by (eapply Forall_impl; [|exact Te]; now intros n (?&?&?)).
  rewrite items_written by exact P. rewrite names_groups.
  destruct (keys_of ns (Cliff.groups (map meant ns)) C) as (ks & Eg & K).
  { intros g G. apply groups_in in G as (c & Hc & G). apply in_map_iff in Hc as (n & <- & Hn).
    exists n. split; [exact Hn|]. rewrite Forall_forall in C. rewrite <- G. symmetry. now apply group_meant, C. }
  assert (Kc : forall k, In k ks -> clear_kind k /\ kind_text k /\ ~ begins (lit "#") k).
  { intros k Hk. apply K, in_map_iff in Hk as (n & <- & Hn).
    rewrite Forall_forall in C, P, B. split; [now apply C|]. split; [|now apply B]. now destruct (P _ Hn) as (_ & ? & _). }
  pose proof (groups_sorted (map meant ns)) as Hs. rewrite Eg in Hs.
  exists ks. split; [|split; [|split]].
  - apply (nodup_map sort_key), sorted_nodup, Hs.
  - intros k. split; [apply K|]. intros Hk. apply in_map_iff in Hk as (n & <- & Hn).
    rewrite Forall_forall in C.
    assert (G : In (sort_key (n_kind n)) (Cliff.groups (map meant ns))).
    { apply groups_in. exists (meant n). split; [now apply in_map|]. now apply group_meant, C. }
    rewrite Eg in G. apply in_map_iff in G as (k & G1 & G2).
    apply clear_key in G1; [now subst k | now apply Kc | now apply C].
  - exact Hs.
  - rewrite Eg. unfold tag_text. rewrite (app_assoc (lit "Release ") tag).
    rewrite (app_assoc (lit "Release " ++ tag) [c_nl; c_nl]), substituted.
    assert (Lay : flat_map (part upper (map meant_item ns)) (map sort_key ks) = lay (flat_map (part_lines ns) ks)).
    { clear Eg Hs. induction ks as [|k ks IH]; [reflexivity|]. cbn [map flat_map]. rewrite lay_app, <- IH.
      - rewrite part_lay; [reflexivity|assumption|apply Kc; now left|apply Kc; now left].
      - intros x X. apply K. now right.
      - intros x X. apply Kc. now right. }
    rewrite Lay.
    assert (W : one_line (lit "Release " ++ tag)).
    { apply one_app; [now apply one_lit|]. intros X. apply T in X. discriminate. }
    unfold stripspace. rewrite git_lines_of.
    replace (((lit "Release " ++ tag) ++ [c_nl; c_nl]) ++ lay (flat_map (part_lines ns) ks))
      with (lay ([lit "Release " ++ tag; []] ++ flat_map (part_lines ns) ks) ++ [])
      by (rewrite app_nil_r, lay_app; unfold lay at 1; cbn [flat_map app]; now rewrite <- !app_assoc).
    rewrite lines_lay.
    2:{ apply Forall_app. split; [constructor; [exact W|constructor; [now apply one_lit|constructor]]|].
        apply Forall_forall. intros l Hl. apply in_flat_map in Hl as (k & Hk & Hl).
        pose proof (part_one ns k P (proj1 (proj2 (Kc k Hk)))) as F. rewrite Forall_forall in F. now apply F. }
    cbn [lines_of]. rewrite strip_empty.
    assert (F : firm (lit "Release " ++ tag)).
    { destruct (exists_last T0) as (x & c & ->). exists (lit "Release " ++ x), c. split; [now rewrite <- app_assoc|].
      apply space_not, T. apply in_or_app. right. now left. }
    cbn [app]. cbn [strip_lines]. change (comment (lit "Release " ++ tag)) with false. cbv iota.
    rewrite (proj1 (firm_trim _ F)).
    match goal with |- context[match ?x with [] => _ | _ => _ end] => change x with (82%N :: lit "elease " ++ tag) end.
    cbv iota. cbn [andb app]. change (82%N :: (lit "elease " ++ tag) ++ ?z) with ((lit "Release " ++ tag) ++ z).
    rewrite <- !app_assoc. f_equal. f_equal. cbn [app]. f_equal.
    change (strip_lines true false ([] :: ?x)) with (strip_lines true true x).
    assert (R : forall l b, (forall k, In k l -> In k ks) -> strip_lines true b (flat_map (part_lines ns) l)
      = flat_map (fun k => c_nl :: headline upper k ++ [c_nl] ++
          flat_map (fun n => lit "- " ++ short upper n ++ [c_nl]) (filter (fun n => str_eqb (n_kind n) k) ns)) l).
    { induction l as [|k l IH]; intros b Hl; [reflexivity|]. cbn [flat_map].
      destruct (Kc k) as (_ & K1 & K2); [apply Hl; now left|]. rewrite strip_part by assumption.
      rewrite IH; [reflexivity|]. intros x X. apply Hl. now right. }
    apply R. auto.
Qed.
End Upper.

(** ** The repository *)
Lemma tagged_iff ts h : tagged ts h = true <-> exists v, In (v, h) ts.
Proof.
  unfold tagged. rewrite existsb_exists. split.
  - intros ((v & h') & I & E). apply str_eqb_eq in E. cbn [snd] in E. subst h'. now exists v.
  - intros (v & I). exists (v, h). split; [exact I|]. apply str_eqb_refl.
Qed.

Lemma since_news ts a b : (forall c, In c a -> ~ exists v, In (v, s_hash c) ts) ->
  (b = [] \/ exists c b', b = c :: b' /\ exists v, In (v, s_hash c) ts) ->
  since ts (a ++ b) = map (fun c => (s_hash c, s_message c)) a.
Proof.
  intros A B. induction a as [|c a IH].
  - destruct B as [->|(c & b' & -> & H)]; [reflexivity|]. cbn [app since map]. apply tagged_iff in H. now rewrite H.
  - cbn [app since map]. destruct (tagged ts (s_hash c)) eqn:E.
    + apply tagged_iff in E. destruct (A c (or_introl eq_refl) E).
    + rewrite IH; [reflexivity|]. intros x X. apply A. now right.
Qed.

Lemma written_noted a ns : written_as a ns -> map (fun c => (s_hash c, s_message c)) (rev a) = written ns.
Proof.
  intros H. unfold written_as in H. induction H as [|c n l ns [E1 E2] _ IH]; [reflexivity|].
  unfold written in *. cbn [map]. now rewrite IH, E1, E2.
Qed.

Lemma own_telling tag h : tag_name tag -> one_line h -> telling (own_note tag h).
Proof.
  intros [_ T] H. split; [|split].
  - split; [exact H|]. split; [|split; [|split]].
    + split; [discriminate|]. cbn. intros c. intuition (subst; try reflexivity; try discriminate).
    + intros s E. injection E as <-. split; [discriminate|]. split; [now apply one_lit|].
      cbn. intros c. intuition (subst; discriminate).
    + cbn [own_note n_text]. apply one_app; [now apply one_lit|]. intros X. apply T in X. discriminate.
    + eexists _, _. split; [reflexivity|]. split; discriminate.
  - left. cbn. tauto.
  - intros [x E]. discriminate E.
Qed.

Lemma message_run upper hash_of day ok tag r c : succeeds ok -> tag <> [] -> target (tags r) tag = None ->
  Prepare.log (release_sh upper hash_of day ok tag r) = c :: Prepare.log r ->
  s_message c = prepare_message tag /\
  tag_message upper hash_of day ok tag r
  = Some (tag_text tag (tag_changelog upper (Repo (c :: Prepare.log r) (tags r) (prepared upper ok tag r)))).
Proof.
  intros S T N E. destruct (made_is upper hash_of day _ _ _ _ T E) as [-> _]. split; [reflexivity|].
  destruct (run_cases upper hash_of day ok tag r T) as (Lg & _ & _). rewrite E in Lg.
  unfold tag_message. destruct tag as [|t0 tag]; [congruence|]. cbn [is_empty].
  unfold commit_all. cbn [Prepare.log tags work]. rewrite !S. cbn [andb] in *. rewrite !S in Lg. cbn [andb] in Lg.
  destruct (same _ _) eqn:Sm; cbn [negb] in *.
  - exfalso. apply (f_equal (@length _)) in Lg. cbn in Lg. lia.
  - cbn [Prepare.log tags work]. rewrite N. reflexivity.
Qed.

Theorem run_told upper hash_of day ok tag r c a ns : letters upper -> tag_name tag -> succeeds ok ->
  target (tags r) tag = None ->
  Prepare.log (release_sh upper hash_of day ok tag r) = c :: Prepare.log r -> one_line (s_hash c) -> ~ has_tag r c ->
  news r a -> written_as a ns -> Forall telling ns ->
  exists t, tag_message upper hash_of day ok tag r = Some t /\ told upper tag (ns ++ [own_note tag (s_hash c)]) t.
Proof.
  intros L T S N E O U (b & Lg & A & B) W Te.
  destruct (message_run upper hash_of day ok tag r c S (proj1 T) N E) as [M ->]. eexists. split; [reflexivity|].
  unfold tag_changelog, unreleased. cbn [Prepare.log tags]. cbn [since].
  destruct (tagged (tags r) (s_hash c)) eqn:Tg; [apply tagged_iff in Tg; destruct (U Tg)|].
  rewrite Lg, since_news by assumption. rewrite M. cbn [rev]. rewrite <- map_rev, (written_noted a ns W).
  assert (Ow : [(s_hash c, prepare_message tag)] = written [own_note tag (s_hash c)]) by reflexivity.
  rewrite Ow. unfold written. rewrite <- map_app. apply changelog_told; [exact L|exact T|].
  apply Forall_app. split; [exact Te|]. constructor; [|constructor]. now apply own_telling.
Qed.

(** ** The commit of the release is told, whatever the others are *)
Lemma strip_keeps ls : forall a b l, In l ls -> comment l = false -> trim_end_by git_space l <> [] ->
  stands_in (trim_end_by git_space l) (strip_lines a b ls).
Proof.
  induction ls as [|x ls IH]; intros a b l H C N; [destruct H|]. cbn [strip_lines]. destruct H as [->|H].
  - rewrite C. destruct (trim_end_by git_space l) as [|c y] eqn:E; [congruence|].
    eexists (if a && b then [c_nl] else []), _. reflexivity.
  - destruct (comment x); [now apply IH|]. destruct (trim_end_by git_space x) as [|c y]; [now apply IH|].
    destruct (IH true false l H C N) as (p & q & ->).
    exists ((if a && b then [c_nl] else []) ++ (c :: y) ++ [c_nl] ++ p), q. now rewrite <- !app_assoc.
Qed.

Lemma git_lines_some s : exists l ls, git_lines s = l :: ls.
Proof.
  destruct s as [|c s]; [now exists [], []|]. cbn [git_lines]. destruct (ceq c c_nl); [eauto|].
  destruct (git_lines s); eauto.
Qed.

Lemma git_lines_app x z : git_lines (x ++ c_nl :: z) = git_lines x ++ git_lines z.
Proof.
  induction x as [|c x IH]; [reflexivity|]. cbn [app git_lines]. rewrite IH.
  destruct (ceq c c_nl); [reflexivity|]. destruct (git_lines_some x) as (l & ls & ->). reflexivity.
Qed.

Lemma line_in (x l y : str) : one_line l -> In l (git_lines (x ++ c_nl :: l ++ c_nl :: y)).
Proof.
  intros O. rewrite git_lines_app. apply in_or_app. right. rewrite git_lines_of, lines_cons by exact O. now left.
Qed.

Lemma insert_in_self k l : In k (Cliff.insert k l).
Proof. apply insert_in. now left. Qed.
Lemma names_in its i : In i its -> In (i_group i) (part_names its).
Proof.
  unfold part_names. induction its as [|x its IH]; [easy|]. intros [->|H]; cbn [map fold_right].
  - apply insert_in_self.
  - apply insert_in. right. now apply IH.
Qed.

Lemma item_line upper its i : In i its -> one_line (TagMessage.line upper i) ->
  exists x y, flat_map (part upper its) (part_names its) = x ++ c_nl :: TagMessage.line upper i ++ c_nl :: y.
Proof.
  intros I O. destruct (in_split _ _ (names_in its i I)) as (g1 & g2 & ->).
  assert (F : In i (filter (fun j => str_eqb (i_group j) (i_group i)) its)).
  { apply filter_In. split; [exact I|apply str_eqb_refl]. }
  rewrite flat_map_app. cbn [flat_map]. unfold part at 2.
  apply in_split in F as (f1 & f2 & ->). rewrite flat_map_app. cbn [flat_map].
  set (h := Cliff.upper_first upper (i_group i) ++ [c_tab]).
  assert (Q : exists y, flat_map (fun j => c_nl :: TagMessage.line upper j) f2 ++ [c_nl] = c_nl :: y).
  { destruct f2; eexists; reflexivity. }
  destruct Q as (y & Q).
  exists (flat_map (part upper its) g1 ++ c_nl :: Cliff.upper_first upper (i_group i) ++ [c_tab]
          ++ flat_map (fun j => c_nl :: TagMessage.line upper j) f1), (y ++ flat_map (part upper its) g2).
  change (c_nl :: y ++ flat_map (part upper its) g2) with ((c_nl :: y) ++ flat_map (part upper its) g2).
  rewrite <- Q. repeat (rewrite <- !app_assoc; cbn [app]). reflexivity.
Qed.

Lemma items_app a b : items (a ++ b) = items a ++ items b.
Proof. induction a as [|[h m] a IH]; [reflexivity|]. cbn [app items]. rewrite IH. now destruct (item_of h m). Qed.

Theorem run_own upper hash_of day ok tag r c x : letters upper -> tag_name tag -> succeeds ok ->
  target (tags r) tag = None ->
  Prepare.log (release_sh upper hash_of day ok tag r) = c :: Prepare.log r -> one_line (s_hash c) -> ~ has_tag r c ->
  fresh c -> get (s_tree c) (lit "CHANGELOG.md") = Some x ->
  exists t, tag_message upper hash_of day ok tag r = Some t /\
    stands_in (lit "- " ++ short upper (own_note tag (s_hash c))) t /\ ~ stands_in (s_hash c) x.
Proof.
  intros L T S N E O U F X.
  destruct (message_run upper hash_of day ok tag r c S (proj1 T) N E) as [M ->]. eexists. split; [reflexivity|].
  split; [|exact (F _ _ X)].
  pose proof (own_telling tag (s_hash c) T O) as (P & _ & _).
  unfold tag_changelog, unreleased. cbn [Prepare.log tags]. cbn [since].
  destruct (tagged (tags r) (s_hash c)) eqn:Tg; [apply tagged_iff in Tg; destruct (U Tg)|].
  rewrite M. cbn [rev]. set (its := items _).
  assert (I : In (meant_item (own_note tag (s_hash c))) its).
  { subst its. rewrite items_app. apply in_or_app. right.
    change [(s_hash c, prepare_message tag)] with (written [own_note tag (s_hash c)]).
    rewrite items_written by now constructor. now left. }
  set (l := lit "- " ++ short upper (own_note tag (s_hash c))).
  assert (Ol : one_line (TagMessage.line upper (meant_item (own_note tag (s_hash c))))).
  { rewrite line_short. apply one_app; [now apply short_one|now apply one_lit]. }
  destruct (item_line upper its _ I Ol) as (p & q & Eq).
  unfold tag_text. rewrite (app_assoc (lit "Release ")), (app_assoc (lit "Release " ++ tag)), substituted.
  rewrite Eq, line_short. fold l. rewrite app_assoc.
  destruct (short_firm upper (own_note tag (s_hash c))) as [F1 F2]. fold l in F1, F2.
  rewrite line_short in Ol. fold l in Ol.
  pose proof (strip_keeps (git_lines ((((lit "Release " ++ tag) ++ [c_nl; c_nl]) ++ p) ++ c_nl :: (l ++ [c_tab]) ++ c_nl :: q))
    false false (l ++ [c_tab])) as K.
  rewrite (proj2 (firm_trim l F1)) in K. apply K.
  - apply line_in. exact Ol.
  - destruct (firm_nonempty l F1) as (d & z & El). rewrite El in *. exact F2.
  - destruct (firm_nonempty l F1) as (d & z & ->). discriminate.
Qed.

(** ** What is left out *)
Lemma find_none_false {A} (f : A -> bool) l : find f l = None -> forall x, In x l -> f x = false.
Proof. intros H x X. now apply (List.find_none f l H). Qed.

Lemma items_rev_drop l1 e l2 : item_of (fst e) (snd e) = None -> items (rev (l1 ++ e :: l2)) = items (rev (l1 ++ l2)).
Proof.
  intros H. rewrite !rev_app_distr. cbn [rev]. rewrite <- app_assoc. rewrite !items_app. f_equal.
  cbn [app items]. destruct e as [h m]. cbn [fst snd] in H. rewrite H. reflexivity.
Qed.

Lemma since_items ts a c b : ~ (exists v, In (v, s_hash c) ts) -> item_of (s_hash c) (s_message c) = None ->
  items (rev (since ts (a ++ c :: b))) = items (rev (since ts (a ++ b))).
Proof.
  intros U H.
  assert (E : since ts (a ++ c :: b) = since ts (a ++ b) \/
    exists p q, since ts (a ++ c :: b) = p ++ (s_hash c, s_message c) :: q /\ since ts (a ++ b) = p ++ q).
  { induction a as [|d a IH].
    - right. exists [], (since ts b). cbn [app since]. destruct (tagged ts (s_hash c)) eqn:T; [|auto].
      apply tagged_iff in T. contradiction.
    - cbn [app since]. destruct (tagged ts (s_hash d)); [now left|]. destruct IH as [->|(p & q & -> & ->)]; [now left|].
      right. exists ((s_hash d, s_message d) :: p), q. auto. }
  destruct E as [->|(p & q & -> & ->)]; [reflexivity|]. now apply items_rev_drop.
Qed.

Theorem not_told upper ts w a c b : ~ In c_colon (s_message c) ->
  (forall k, In k (map fst words) -> ~ begins k (s_message c)) -> ~ (exists v, In (v, s_hash c) ts) ->
  tag_changelog upper (Repo (a ++ c :: b) ts w) = tag_changelog upper (Repo (a ++ b) ts w).
Proof.
  intros C W U. unfold tag_changelog, unreleased. cbn [Prepare.log tags].
  rewrite since_items; [reflexivity|exact U|]. unfold item_of. rewrite no_colon by exact C.
  rewrite parsers_words, find_none; [reflexivity|]. intros x X.
  destruct (starts_with (fst x) (s_message c)) eqn:E; [|reflexivity]. exfalso.
  apply begins_spec in E. now apply (W (fst x)); [apply in_map|].
Qed.

(** A message that is not conventional and begins with a word of the list. *)
Theorem word_told upper hash_of day ok tag r c d : letters upper -> tag_name tag -> succeeds ok ->
  target (tags r) tag = None ->
  Prepare.log (release_sh upper hash_of day ok tag r) = c :: Prepare.log r -> ~ has_tag r c ->
  (exists a, news r a /\ In d a) -> ~ In c_colon (s_message d) -> one_line (s_message d) -> one_line (s_hash d) ->
  (exists k, In k (map fst words) /\ begins k (s_message d)) ->
  exists t, tag_message upper hash_of day ok tag r = Some t /\
    stands_in (lit "- " ++ capital upper (s_message d) ++ lit " (" ++ firstn 7 (s_hash d) ++ lit ")") t.
Proof.
  intros L T S N E U (a & (b & Lg & A & B) & D) C O Oh (k & Hk & Bk).
  destruct (message_run upper hash_of day ok tag r c S (proj1 T) N E) as [M ->]. eexists. split; [reflexivity|].
  unfold tag_changelog, unreleased. cbn [Prepare.log tags]. cbn [since].
  destruct (tagged (tags r) (s_hash c)) eqn:Tg; [apply tagged_iff in Tg; destruct (U Tg)|].
  rewrite Lg, since_news by assumption. set (its := items _).
  assert (I : exists g, In (Item g false (s_message d) (s_hash d)) its).
  { assert (Hi : exists g, item_of (s_hash d) (s_message d) = Some (Item g false (s_message d) (s_hash d))).
    { unfold item_of. rewrite no_colon by exact C. rewrite parsers_words.
      destruct (find _ words) as [w|] eqn:Fd; [eauto|]. exfalso. apply in_map_iff in Hk as (w & <- & Hw).
      apply (find_none_false _ _ Fd w) in Hw. apply begins_spec in Bk. congruence. }
    destruct Hi as (g & Hi). exists g. subst its.
    cbn [rev]. rewrite items_app. apply in_or_app. left.
    apply in_rev, in_split in D as (d1 & d2 & Dr).
    rewrite <- map_rev, Dr, map_app. cbn [map]. rewrite items_app. apply in_or_app. right. cbn [items]. rewrite Hi. now left. }
  destruct I as (g & I). set (i := Item g false (s_message d) (s_hash d)) in *.
  set (l := lit "- " ++ capital upper (s_message d) ++ lit " (" ++ firstn 7 (s_hash d) ++ lit ")").
  assert (El : TagMessage.line upper i = l ++ [c_tab]).
  { subst l i. unfold TagMessage.line. cbn [i_breaking i_message i_id]. rewrite capital_first. rewrite <- !app_assoc. reflexivity. }
  assert (Ol : one_line (TagMessage.line upper i)).
  { rewrite El. subst l. repeat apply one_app; try (now apply one_lit); [|now apply one_firstn].
    apply one_capital; [exact (proj1 (proj1 L))|exact O]. }
  destruct (item_line upper its _ I Ol) as (p & q & Eq).
  unfold tag_text. rewrite (app_assoc (lit "Release ")), (app_assoc (lit "Release " ++ tag)), substituted.
  rewrite Eq, El. rewrite app_assoc. rewrite El in Ol.
  assert (F1 : firm l).
  { exists (lit "- " ++ capital upper (s_message d) ++ lit " (" ++ firstn 7 (s_hash d)), c_rpar. split; [|reflexivity].
    subst l. rewrite <- !app_assoc. reflexivity. }
  pose proof (strip_keeps (git_lines ((((lit "Release " ++ tag) ++ [c_nl; c_nl]) ++ p) ++ c_nl :: (l ++ [c_tab]) ++ c_nl :: q))
    false false (l ++ [c_tab])) as K.
  rewrite (proj2 (firm_trim l F1)) in K. apply K.
  - apply line_in. exact Ol.
  - reflexivity.
  - discriminate.
Qed.

(** ** A heading that looks like a comment *)
Theorem heading_lost upper tag n w : letters upper -> upper c_hash = [c_hash] -> tag_name tag ->
  proper n -> clear_kind (n_kind n) -> begins (lit "#") (n_kind n) ->
  tag_text tag (tag_changelog upper (Repo [Snapshot (n_hash n) (wrote n) [] []] [] w))
  = lit "Release " ++ tag ++ [c_nl; c_nl] ++ lit "- " ++ short upper n ++ [c_nl].
Proof.
  intros L U [T0 T] P C [k Ek].
  assert (Hk : n_kind n = c_hash :: k) by exact Ek.
  assert (Kt : kind_text (n_kind n)) by now destruct P as (_ & ? & _).
  unfold tag_changelog, unreleased. cbn [Prepare.log tags since tagged existsb rev app].
  change [(s_hash (Snapshot (n_hash n) (wrote n) [] []), s_message (Snapshot (n_hash n) (wrote n) [] []))] with (written [n]).
  rewrite items_written by now constructor. cbn [map].
  assert (G : part_names [meant_item n] = [sort_key (n_kind n)]).
  { unfold part_names. cbn [map fold_right Cliff.insert meant_item i_group]. now rewrite (group_meant _ C). }
  change (map meant_item [n]) with [meant_item n] in *. rewrite G. change [meant_item n] with (map meant_item [n]).
  cbn [flat_map]. rewrite app_nil_r. rewrite (part_lay upper L [n] (n_kind n)) by (try assumption; now constructor).
  unfold tag_text. rewrite (app_assoc (lit "Release ") tag).
  rewrite (app_assoc (lit "Release " ++ tag) [c_nl; c_nl]), substituted.
  assert (W : one_line (lit "Release " ++ tag)).
  { apply one_app; [now apply one_lit|]. intros X. apply T in X. discriminate. }
  unfold stripspace. rewrite git_lines_of.
  replace (((lit "Release " ++ tag) ++ [c_nl; c_nl]) ++ lay (part_lines upper [n] (n_kind n)))
    with (lay ([lit "Release " ++ tag; []] ++ part_lines upper [n] (n_kind n)) ++ [])
    by (rewrite app_nil_r, lay_app; unfold lay at 1; cbn [flat_map app]; now rewrite <- !app_assoc).
  rewrite lines_lay.
  2:{ apply Forall_app. split; [constructor; [exact W|constructor; [now apply one_lit|constructor]]|].
      apply part_one; [exact L|now constructor|exact Kt]. }
  cbn [lines_of]. rewrite strip_empty.
  assert (F : firm (lit "Release " ++ tag)).
  { destruct (exists_last T0) as (x & c & ->). exists (lit "Release " ++ x), c. split; [now rewrite <- app_assoc|].
    apply space_not, T. apply in_or_app. right. now left. }
  cbn [app]. cbn [strip_lines]. change (comment (lit "Release " ++ tag)) with false. cbv iota.
  rewrite (proj1 (firm_trim _ F)).
  match goal with |- context[match ?x with [] => _ | _ => _ end] => change x with (82%N :: lit "elease " ++ tag) end.
  cbv iota. cbn [andb app]. change (82%N :: (lit "elease " ++ tag) ++ ?z) with ((lit "Release " ++ tag) ++ z).
  rewrite <- !app_assoc. f_equal. f_equal. cbn [app]. f_equal.
  change (strip_lines true false ([] :: ?x)) with (strip_lines true true x).
  unfold part_lines. change (strip_lines true true ([] :: ?x)) with (strip_lines true true x).
  assert (H : exists z, headline upper (n_kind n) = c_hash :: z).
  { rewrite Hk. unfold headline. rewrite not_word.
    - cbn [capital]. rewrite U. now exists k.
    - cbn. intuition discriminate. }
  destruct H as (z & H). rewrite H. cbn [app].
  change (strip_lines true true ((c_hash :: z ++ [c_tab]) :: ?x)) with (strip_lines true true x).
  cbn [filter]. rewrite str_eqb_refl. cbn [map]. destruct (short_firm upper n) as [F1 F2].
  rewrite strip_firm by assumption. cbn [andb strip_lines app]. rewrite <- !app_assoc. reflexivity.
Qed.

Lemma ascii_letters : letters ascii_upper.
Proof.
  split; [exact ascii_sane|]. intros c H. split; [discriminate|]. intros d [<-|[]].
  destruct ((97 <=? c)%N && (c <=? 122)%N) eqn:E; [|split; auto].
  apply andb_prop in E as [E1 E2]. apply N.leb_le in E1, E2.
  assert (B : (65 <= c - 32 <= 90)%N) by lia. revert B. generalize (c - 32)%N. clear. intros d B. split.
  - unfold is_whitespace. repeat (apply orb_false_iff; split); try (apply N.eqb_neq; lia).
    + apply andb_false_iff. right. apply N.leb_gt. lia.
    + apply andb_false_iff. left. apply N.leb_gt. lia.
  - intros ->. unfold c_hash in B. lia.
Qed.

(** A repository with a tag; two commits behind it. *)
Definition two_behind : repo :=
  Repo [ Snapshot (lit "3333333333") (lit "fix(ci): run it") (lit "3") [];
         Snapshot (lit "2222222222") (lit "feat!: more") (lit "2") [];
         Snapshot (lit "1111111111") (lit "init: all") (lit "1") [] ]
       [(lit "v0.1.0", lit "1111111111")] small_files.
Definition two_notes : list note :=
  [ Note (lit "2222222222") (lit "feat") None true (lit "more");
    Note (lit "3333333333") (lit "fix") (Some (lit "ci")) false (lit "run it") ].
Lemma two_telling : Forall telling two_notes.
Proof.
  assert (O : forall s : str, forallb (fun c => negb (ceq c c_nl)) s = true -> one_line s) by exact one_lit.
  constructor; [|constructor; [|constructor]]; (split; [|split]);
    try (left; cbn; tauto); try (intros [x E]; discriminate E);
    (split; [now apply O|]; split; [split; [discriminate|]; cbn; intros c; intuition (subst; try reflexivity; try discriminate)|];
     split; [intros s E; try discriminate E|split; [now apply O|eexists _, _; repeat split; discriminate]]).
  injection E as <-. split; [discriminate|]. split; [now apply O|]. cbn. intros c. intuition (subst; discriminate).
Qed.
