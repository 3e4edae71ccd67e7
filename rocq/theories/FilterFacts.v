(** * FilterFacts: RUST_LOG means what SpecLog says. *)
From Coq Require Import Ascii String Sorting.Sorted Permutation.
From Verif Require Import Strings StringsFacts Utf8 System Config Cli Filter SpecLog MarkdownFacts.
Open Scope list_scope.

(** ** Texts *)

Lemma split_free d s : forall acc, ~ In d s -> split_go [d] 0 acc s = [rev acc ++ s].
Proof.
  induction s as [|c s IH]; intros acc N; cbn [split_go]; [rewrite app_nil_r; reflexivity|].
  cbn [starts_with]. destruct (ceq d c) eqn:E.
  - apply ceq_eq in E. subst. exfalso. apply N. left. reflexivity.
  - cbn [andb]. rewrite IH; [|intros I; apply N; right; exact I]. cbn [rev]. rewrite <- app_assoc. reflexivity.
Qed.

Lemma split_at d a b : forall acc, ~ In d a -> split_go [d] 0 acc (a ++ d :: b) = (rev acc ++ a) :: split_go [d] 0 [] b.
Proof.
  induction a as [|c a IH]; intros acc N; cbn [app split_go starts_with].
  - rewrite ceq_refl. cbn [andb length Nat.sub]. rewrite app_nil_r. reflexivity.
  - destruct (ceq d c) eqn:E.
    + apply ceq_eq in E. subst. exfalso. apply N. left. reflexivity.
    + cbn [andb]. rewrite IH; [|intros I; apply N; right; exact I]. cbn [rev]. rewrite <- app_assoc. reflexivity.
Qed.

Lemma filter_of_iff w l : filter_of w = Some l <-> level_word w l.
Proof.
  unfold filter_of, level_word, level_words. generalize (to_lowercase w). clear w. intros w. split.
  - destruct (str_eqb w (lit "off")) eqn:E0; [apply str_eqb_eq in E0; intros K; injection K as <-; subst; reflexivity|].
    destruct (str_eqb w (lit "error")) eqn:E1; [apply str_eqb_eq in E1; intros K; injection K as <-; subst; reflexivity|].
    destruct (str_eqb w (lit "warn")) eqn:E2; [apply str_eqb_eq in E2; intros K; injection K as <-; subst; reflexivity|].
    destruct (str_eqb w (lit "info")) eqn:E3; [apply str_eqb_eq in E3; intros K; injection K as <-; subst; reflexivity|].
    destruct (str_eqb w (lit "debug")) eqn:E4; [apply str_eqb_eq in E4; intros K; injection K as <-; subst; reflexivity|].
    destruct (str_eqb w (lit "trace")) eqn:E5; [apply str_eqb_eq in E5; intros K; injection K as <-; subst; reflexivity|].
    discriminate.
  - intros K. do 6 (destruct l as [|l]; [injection K as <-; reflexivity|]). destruct l; discriminate.
Qed.

Lemma lower_letter c : (97 <= to_lower_c c <= 122)%N ->
  is_whitespace c = false /\ c <> 47%N /\ c <> 44%N /\ c <> 61%N.
Proof.
  unfold to_lower_c. intros H.
  assert (R : (65 <= c <= 90 \/ 97 <= c <= 122)%N).
  { destruct ((65 <=? c)%N && (c <=? 90)%N) eqn:E; [|right; exact H].
    apply andb_true_iff in E. destruct E as [E1 E2]. apply N.leb_le in E1, E2. left. split; assumption. }
  split; [|lia]. unfold is_whitespace.
  repeat (apply orb_false_iff; split); try (apply N.eqb_neq; lia);
    apply andb_false_iff; (left; apply N.leb_gt; lia) || (right; apply N.leb_gt; lia).
Qed.

Lemma level_word_name w l : level_word w l -> module_name w.
Proof.
  intros L. assert (A : forall c, In c (to_lowercase w) -> (97 <= c <= 122)%N).
  { unfold level_word, level_words in L.
    do 6 (destruct l as [|l]; [injection L as <-; intros c I; cbn in I; repeat (destruct I as [<-|I]; [lia|]); destruct I|]).
    destruct l; discriminate. }
  split.
  - intros ->. unfold level_word, level_words in L. do 6 (destruct l as [|l]; [discriminate|]). destruct l; discriminate.
  - intros c I. apply lower_letter, A. unfold to_lowercase. apply in_map. exact I.
Qed.

Lemma name_trim n : module_name n -> trim n = n.
Proof.
  intros [_ N]. apply trim_no_ws. destruct (existsb is_whitespace n) eqn:E; [|reflexivity].
  apply existsb_exists in E. destruct E as (c & I & W). destruct (N c I) as [K _]. congruence.
Qed.

Lemma name_free n : module_name n -> ~ In 47%N n /\ ~ In 44%N n /\ ~ In 61%N n.
Proof. intros [_ N]. repeat split; intros I; destruct (N _ I) as (_ & A & B & C); congruence. Qed.

(** ** Reading *)

Definition dir_of (e : option str * nat) : directive := {| d_name := fst e; d_level := snd e |}.

Lemma read_says s e : says s e -> read_part s = [dir_of e] /\ ~ In 47%N s /\ ~ In 44%N s.
Proof.
  intros S. unfold read_part, read_directive. destruct S as [w l L|n M No|n w l M L].
  - pose proof (level_word_name w l L) as M. destruct (name_free w M) as (F1 & F2 & F3).
    rewrite (name_trim w M). destruct w as [|c w]; [destruct M; congruence|]. cbn [is_empty].
    assert (X : split (lit "=") (c :: w) = [c :: w]) by exact (split_free 61%N _ [] F3). rewrite X.
    apply filter_of_iff in L. rewrite L. auto.
  - destruct (name_free n M) as (F1 & F2 & F3).
    rewrite (name_trim n M). destruct n as [|c n]; [destruct M; congruence|]. cbn [is_empty].
    assert (X : split (lit "=") (c :: n) = [c :: n]) by exact (split_free 61%N _ [] F3). rewrite X.
    destruct (filter_of (c :: n)) as [l|] eqn:E; [|auto].
    exfalso. apply (No l). apply filter_of_iff. exact E.
  - pose proof (level_word_name w l L) as M'. destruct (name_free w M') as (F1 & F2 & F3).
    destruct (name_free n M) as (G1 & G2 & G3).
    assert (T : trim (n ++ lit "=" ++ w) = n ++ lit "=" ++ w).
    { apply trim_no_ws. rewrite !existsb_app. apply orb_false_iff. split; [|apply orb_false_iff; split; [reflexivity|]].
      - destruct (existsb is_whitespace n) eqn:E; [|reflexivity].
        apply existsb_exists in E. destruct E as (c & I & W). destruct (proj2 M c I) as [K _]. congruence.
      - destruct (existsb is_whitespace w) eqn:E; [|reflexivity].
        apply existsb_exists in E. destruct E as (c & I & W). destruct (proj2 M' c I) as [K _]. congruence. }
    rewrite T. assert (Em : is_empty (n ++ lit "=" ++ w) = false) by (destruct n; reflexivity). rewrite Em.
    assert (X : split (lit "=") (n ++ lit "=" ++ w) = [n; w]).
    { etransitivity; [exact (split_at 61%N n w [] G3)|]. cbn [rev app]. f_equal. exact (split_free 61%N w [] F3). }
    rewrite X. rewrite (name_trim w M'). destruct w as [|c w]; [destruct M'; congruence|]. cbn [is_empty].
    apply filter_of_iff in L. rewrite L. split; [reflexivity|].
    split; intros I; apply in_app_or in I; destruct I as [I|[I|I]]; solve [auto|discriminate].
Qed.

Section Regex.
Variable regex : str -> option (str -> bool).
Notation parse_spec := (parse_spec regex).
Notation passes := (passes regex).
Notation shown := (shown regex).

Lemma read_entries s es : entries s es ->
  flat_map read_part (split (lit ",") s) = map dir_of es /\ ~ In 47%N s.
Proof.
  induction 1 as [s e S|s e t es S _ [IH1 IH2]]; destruct (read_says s e S) as (R & F1 & F2).
  - assert (X : split (lit ",") s = [s]) by exact (split_free 44%N _ [] F2). rewrite X.
    cbn [flat_map app map]. rewrite R. auto.
  - assert (X : split (lit ",") (s ++ lit "," ++ t) = s :: split (lit ",") t) by exact (split_at 44%N s t [] F2).
    rewrite X. cbn [flat_map map]. rewrite R, IH1. split; [reflexivity|].
    intros I. apply in_app_or in I. destruct I as [I|[I|I]]; solve [auto|discriminate].
Qed.

Lemma parse_entries s es : entries s es -> parse_spec s = (map dir_of es, None).
Proof.
  intros E. destruct (read_entries s es E) as [R F]. unfold Filter.parse_spec.
  replace (split (lit "/") s) with [s] by (symmetry; exact (split_free 47%N s [] F)).
  rewrite R. reflexivity.
Qed.

(** ** Deciding *)

Lemma same_name_iff a b : same_name a b = true <-> d_name a = d_name b.
Proof.
  unfold same_name. destruct (d_name a) as [x|], (d_name b) as [y|]; split; intros H; try congruence; try discriminate; try reflexivity.
  - apply str_eqb_eq in H. congruence.
  - injection H as ->. apply str_eqb_refl.
Qed.

Definition collect (ds : list directive) : list directive := fold_left (fun acc d => insert_directive d acc) ds [].

Lemma insert_in d ds : NoDup (map d_name ds) ->
  NoDup (map d_name (insert_directive d ds)) /\
  forall e, In e (insert_directive d ds) <-> e = d \/ (In e ds /\ d_name e <> d_name d).
Proof.
  induction ds as [|x ds IH]; intros N; cbn [insert_directive map].
  - split; [constructor; [intros []|constructor]|]. intros e. cbn. intuition congruence.
  - cbn [map] in N. inversion N as [|? ? Nx Nd]; subst. destruct (IH Nd) as [I1 I2].
    destruct (same_name d x) eqn:E.
    + apply same_name_iff in E. cbn [map]. rewrite E. split; [constructor; assumption|].
      intros e. cbn [In]. split.
      * intros [->|I]; [auto|]. right. split; [auto|]. intros K. apply Nx. rewrite <- K. apply in_map. exact I.
      * intros [->|[[->|I] K]]; [auto|congruence|auto].
    + assert (E' : d_name x <> d_name d). { intros K. symmetry in K. apply same_name_iff in K. congruence. }
      cbn [map]. split.
      * constructor; [|exact I1]. intros I. apply in_map_iff in I. destruct I as (e & Ee & I). apply I2 in I.
        destruct I as [->|[I _]]; [congruence|]. apply Nx. rewrite <- Ee. apply in_map. exact I.
      * intros e. cbn [In]. rewrite I2. split.
        -- intros [<-|[->|[I K]]]; auto.
        -- intros [->|[[->|I] K]]; auto.
Qed.

(** An entry is collected if no later one has its name. *)
Lemma collect_in ds : NoDup (map d_name (collect ds)) /\
  forall e, In e (collect ds) <-> exists pre post, ds = pre ++ e :: post /\ forall x, In x post -> d_name x <> d_name e.
Proof.
  induction ds as [|d ds IH] using rev_ind.
  - split; [constructor|]. intros e. cbn. split; [intros []|]. intros (pre & post & K & _). destruct pre; discriminate.
  - unfold collect. rewrite fold_left_app. cbn [fold_left]. fold (collect ds). destruct IH as [N IH].
    destruct (insert_in d (collect ds) N) as [N' I']. split; [exact N'|]. intros e. rewrite I'. split.
    + intros [->|[I K]].
      * exists ds, []. split; [reflexivity|intros x []].
      * apply IH in I. destruct I as (pre & post & -> & A). exists pre, (post ++ [d]).
        split; [rewrite <- app_assoc; reflexivity|]. intros x Ix. apply in_app_or in Ix. destruct Ix as [Ix|[<-|[]]]; auto.
    + intros (pre & post & E & A). destruct post as [|y post] using rev_ind.
      * apply app_inj_tail in E. destruct E as [_ ->]. auto.
      * clear IHpost. right.
        assert (E2 : ds ++ [d] = (pre ++ e :: post) ++ [y]) by (rewrite E, <- app_assoc; reflexivity).
        apply app_inj_tail in E2. destruct E2 as [-> ->]. split.
        -- apply IH. exists pre, post. split; [reflexivity|]. intros x Ix. apply A. apply in_or_app. auto.
        -- intros K. apply (A y); [apply in_or_app; right; left; reflexivity|]. congruence.
Qed.

Definition le_len (a b : directive) : Prop := name_len a <= name_len b.

Lemma insert_sorted_perm d ds : Permutation (d :: ds) (insert_sorted d ds).
Proof.
  induction ds as [|e ds IH]; cbn [insert_sorted]; [apply Permutation_refl|].
  destruct (name_len d <=? name_len e); [apply Permutation_refl|].
  apply (perm_trans (l' := e :: d :: ds)); [apply perm_swap|]. apply perm_skip. exact IH.
Qed.

Lemma sort_perm ds : Permutation ds (sort_directives ds).
Proof.
  induction ds as [|d ds IH]; [apply Permutation_refl|]. cbn [sort_directives fold_right].
  apply (perm_trans (l' := d :: sort_directives ds)); [apply perm_skip; exact IH|]. apply insert_sorted_perm.
Qed.

Lemma insert_sorted_sorted d ds : StronglySorted le_len ds -> StronglySorted le_len (insert_sorted d ds).
Proof.
  induction 1 as [|e ds S IH F]; cbn [insert_sorted]; [repeat constructor|].
  destruct (name_len d <=? name_len e) eqn:E.
  - apply Nat.leb_le in E. constructor; [constructor; assumption|]. constructor; [exact E|].
    apply (Forall_impl _ (P := le_len e)); [|exact F]. unfold le_len. intros a. lia.
  - apply Nat.leb_gt in E. constructor; [exact IH|].
    apply (Permutation_Forall (insert_sorted_perm d ds)). constructor; [unfold le_len; lia|exact F].
Qed.

Lemma sort_sorted ds : StronglySorted le_len (sort_directives ds).
Proof. induction ds as [|d ds IH]; [constructor|]. apply insert_sorted_sorted. exact IH. Qed.

Lemma find_longest p ds : StronglySorted le_len ds ->
  match List.find p (rev ds) with
  | Some d => In d ds /\ p d = true /\ forall e, In e ds -> p e = true -> name_len e <= name_len d
  | None => forall e, In e ds -> p e = false
  end.
Proof.
  induction ds as [|x ds IH]; intros S; [intros e []|].
  inversion S as [|? ? S' F]; subst. specialize (IH S'). cbn [rev].
  assert (Fa : List.find p (rev ds ++ [x]) = match List.find p (rev ds) with Some d => Some d | None => List.find p [x] end).
  { clear. induction (rev ds) as [|y l IH]; [reflexivity|]. cbn [app List.find]. destruct (p y); [reflexivity|exact IH]. }
  rewrite Fa. destruct (List.find p (rev ds)) as [d|].
  - destruct IH as (I & P & M). split; [right; exact I|]. split; [exact P|]. intros e [<-|Ie] Pe; [|auto].
    rewrite Forall_forall in F. apply F. exact I.
  - cbn [List.find]. destruct (p x) eqn:Px.
    + split; [left; reflexivity|]. split; [exact Px|]. intros e [<-|Ie] Pe; [lia|]. rewrite IH in Pe by exact Ie. discriminate.
    + intros e [<-|Ie]; [exact Px|auto].
Qed.

(** Prefixes of one text: the lengths in bytes and in chars compare alike. *)
Lemma encode_app_len a b : length (encode (a ++ b)) = length (encode a) + length (encode b).
Proof. unfold encode. rewrite flat_map_app, app_length. reflexivity. Qed.

Lemma encode_len_pos a : length a <= length (encode a).
Proof.
  induction a as [|c a IH]; [apply le_n|].
  assert (K : 1 <= length (encode [c])).
  { unfold encode. cbn [flat_map]. rewrite app_nil_r.
    unfold enc_char. repeat destruct (_ <? _)%N; cbn [length]; lia. }
  change (c :: a) with ([c] ++ a). rewrite encode_app_len, app_length. cbn [length]. lia.
Qed.

Lemma prefix_order a b t : starts_with a t = true -> starts_with b t = true ->
  (length (encode a) <= length (encode b) <-> length a <= length b).
Proof.
  intros A B. apply starts_with_iff in A, B. destruct A as [x ->], B as [y E].
  destruct (Nat.le_gt_cases (length a) (length b)) as [L|L].
  - assert (P : exists z, b = a ++ z).
    { exists (skipn (length a) b). apply (f_equal (firstn (length b))) in E.
      rewrite !firstn_app, firstn_all, Nat.sub_diag in E. cbn [firstn] in E. rewrite app_nil_r in E.
      rewrite firstn_all2 in E by exact L. rewrite <- E at 1 2. rewrite skipn_app, skipn_all, Nat.sub_diag. reflexivity. }
    destruct P as [z ->]. rewrite encode_app_len, app_length. lia.
  - assert (P : exists z, a = b ++ z).
    { exists (skipn (length b) a). symmetry in E. apply (f_equal (firstn (length a))) in E.
      rewrite !firstn_app, firstn_all, Nat.sub_diag in E. cbn [firstn] in E. rewrite app_nil_r in E.
      rewrite firstn_all2 in E by lia. rewrite <- E at 1 2. rewrite skipn_app, skipn_all, Nat.sub_diag. reflexivity. }
    destruct P as [z ->]. pose proof (encode_len_pos z). rewrite encode_app_len, app_length in *. lia.
Qed.

Lemma fits_iff target e : fits target (dir_of e) = true <-> about target (fst e).
Proof. unfold fits, about, dir_of. cbn [d_name]. destruct (fst e); intuition. Qed.

Lemma len_size target a b : about target (fst a) -> about target (fst b) ->
  (name_len (dir_of a) <= name_len (dir_of b) <-> size (fst a) <= size (fst b)).
Proof.
  unfold name_len, size, about, dir_of. cbn [d_name]. destruct (fst a) as [x|], (fst b) as [y|]; intros A B; try lia.
  - apply (prefix_order x y target A B).
  - pose proof (encode_len_pos x). split; intros L; [lia|].
    destruct x; [cbn; lia|cbn in L; lia].
Qed.

Lemma dir_of_inj a b : dir_of a = dir_of b -> a = b.
Proof. destruct a, b. unfold dir_of. cbn. congruence. Qed.

Lemma decides_iff es target l : decides es target l <->
  exists e, In (dir_of e) (collect (map dir_of es)) /\ snd e = l /\ about target (fst e) /\
    forall e', In (dir_of e') (collect (map dir_of es)) -> about target (fst e') -> size (fst e') <= size (fst e).
Proof.
  destruct (collect_in (map dir_of es)) as [_ C]. split.
  - intros (pre & name & post & -> & A & Nl & M). exists (name, l). split; [|split; [reflexivity|split; [exact A|]]].
    + apply C. exists (map dir_of pre), (map dir_of post). rewrite map_app. split; [reflexivity|].
      intros x I. apply in_map_iff in I. destruct I as ([n' l'] & <- & I). cbn. intros ->. apply (Nl l'). exact I.
    + intros [n' l'] I A'. apply (M n' l'); [|exact A'].
      apply C in I. destruct I as (p & q & E & _).
      assert (K : In (dir_of (n', l')) (map dir_of (pre ++ (name, l) :: post))) by (rewrite E; apply in_or_app; right; left; reflexivity).
      apply in_map_iff in K. destruct K as (z & Ez & Iz). apply dir_of_inj in Ez. subst z. exact Iz.
  - intros ([name l'] & I & E & A & M). cbn in E. subst l'. cbn [fst] in *.
    apply C in I. destruct I as (p & q & E & Nq).
    apply map_eq_app in E. destruct E as (pre & r & -> & <- & E). apply map_eq_cons in E.
    destruct E as (z & post & -> & Ez & <-). apply dir_of_inj in Ez. subst z.
    exists pre, name, post. split; [reflexivity|]. split; [exact A|]. split.
    + intros l' I. apply (Nq (dir_of (name, l'))); [apply in_map; exact I|reflexivity].
    + intros n' l' I A'.
      assert (K : exists l2, In (dir_of (n', l2)) (collect (map dir_of (pre ++ (name, l) :: post)))).
      { clear - I C. revert C I. generalize (pre ++ (name, l) :: post). intros es C I. 
        assert (K : exists l2 p q, es = p ++ (n', l2) :: q /\ forall l3, ~ In (n', l3) q).
        { clear C. revert l' I. induction es as [|[a b] es IH]; intros l' I; [destruct I|].
          assert (D : (exists l4, In (n', l4) es) \/ (forall l4, ~ In (n', l4) es)).
          { clear. induction es as [|[x y] es IH]; [right; intros l4 []|].
            assert (Dn : {n' = x} + {n' <> x}) by (repeat decide equality).
            destruct Dn as [<-|Dn]; [left; exists y; left; reflexivity|].
            destruct IH as [[l4 I]|N]; [left; exists l4; right; exact I|]. right. intros l4 [K|K]; [congruence|apply (N l4); exact K]. }
          destruct D as [[l4 I4]|D].
          - destruct (IH l4 I4) as (l2 & p & q & -> & Q). exists l2, ((a, b) :: p), q. split; [reflexivity|exact Q].
          - destruct I as [E|I]; [|exfalso; apply (D l'); exact I]. injection E as -> ->. exists l', [], es. auto. }
        destruct K as (l2 & p & q & -> & Q). exists l2. apply C. exists (map dir_of p), (map dir_of q).
        rewrite map_app. split; [reflexivity|]. intros x Ix. apply in_map_iff in Ix. destruct Ix as ([a b] & <- & Ix).
        cbn. intros ->. apply (Q b). exact Ix. }
      destruct K as [l2 K]. apply (M (n', l2) K A').
Qed.

Lemma enabled_decides es lv target : es <> [] -> (forall l, ~ In (Some [], l) es) ->
  (enabled (build (map dir_of es)) lv target = true <-> exists l, decides es target l /\ rank lv <= l).
Proof.
  intros Ne N0. destruct (collect_in (map dir_of es)) as [Nd C].
  assert (Form : forall d, In d (collect (map dir_of es)) -> exists e, d = dir_of e /\ In e es).
  { intros d I. apply C in I. destruct I as (p & q & E & _).
    assert (K : In d (map dir_of es)) by (rewrite E; apply in_or_app; right; left; reflexivity).
    apply in_map_iff in K. destruct K as (e & <- & I). exists e. auto. }
  assert (B : build (map dir_of es) = sort_directives (collect (map dir_of es))).
  { unfold build. fold (collect (map dir_of es)). destruct (collect (map dir_of es)) as [|d ds] eqn:E; [|reflexivity].
    exfalso. destruct es as [|e es] using rev_ind; [congruence|].
    apply (proj2 (C (dir_of e))). exists (map dir_of es), []. rewrite map_app. split; [reflexivity|intros x []]. }
  rewrite B. unfold enabled.
  assert (P : forall d, In d (sort_directives (collect (map dir_of es))) <-> In d (collect (map dir_of es))).
  { intros d. pose proof (sort_perm (collect (map dir_of es))) as Pm. split; apply Permutation_in; [apply Permutation_sym|]; exact Pm. }
  pose proof (find_longest (fits target) _ (sort_sorted (collect (map dir_of es)))) as F.
  change (level_number lv) with (rank lv).
  destruct (List.find (fits target) (rev (sort_directives (collect (map dir_of es))))) as [d|].
  - destruct F as (I & Fd & M). apply P in I. destruct (Form d I) as ([n k] & -> & Ie).
    apply fits_iff in Fd. rewrite Nat.leb_le. split.
    + intros L. exists k. split; [|exact L]. apply decides_iff. exists (n, k). split; [exact I|].
      split; [reflexivity|]. split; [exact Fd|]. intros e' I' A'. apply (len_size target _ _ A' Fd).
      apply M; [apply P; exact I'|apply fits_iff; exact A'].
    + intros (l & D & L). apply decides_iff in D. destruct D as ([n' l'] & I' & E & A' & M').
      cbn in E. subst l'. specialize (M' _ I Fd). cbn [fst] in *.
      assert (Mx : size n' <= size n).
      { apply (len_size target (n', l) (n, k) A' Fd). apply M; [apply P; exact I'|apply fits_iff; exact A']. }
      assert (En : n' = n).
      { assert (Ie' : In (n', l) es).
        { destruct (Form _ I') as (z & Ez & Iz). apply dir_of_inj in Ez. subst z. exact Iz. }
        destruct n' as [a|], n as [b|]; cbn [size about fst] in *; auto.
        - f_equal. apply starts_with_iff in A', Fd. destruct A' as [x ->], Fd as [y E].
          assert (La : length a = length b) by lia.
          apply (f_equal (firstn (length a))) in E. rewrite firstn_app, firstn_all, Nat.sub_diag in E.
          rewrite La in E. rewrite firstn_app, firstn_all, Nat.sub_diag in E. cbn [firstn] in E. rewrite !app_nil_r in E. exact E.
        - destruct a; [|cbn in Mx; lia]. exfalso. apply (N0 l). exact Ie'.
        - destruct b; [|cbn in M'; lia]. exfalso. apply (N0 k). exact Ie. }
      subst n'. assert (El : dir_of (n, l) = dir_of (n, k)).
      { clear - Nd I I'. revert Nd I I'. generalize (collect (map dir_of es)). intros ds. induction ds as [|d ds IH]; [intros _ []|].
        cbn [map]. intros Nd I I'. inversion Nd as [|? ? Nx Nd']; subst. destruct I as [->|I], I' as [E'|I'].
        - symmetry. exact E'.
        - exfalso. apply Nx. change (d_name (dir_of (n, k))) with (d_name (dir_of (n, l))). apply in_map. exact I'.
        - subst d. exfalso. apply Nx. change (d_name (dir_of (n, l))) with (d_name (dir_of (n, k))). apply in_map. exact I.
        - auto. }
      apply dir_of_inj in El. injection El as ->. exact L.
  - split; [discriminate|]. intros (l & D & _). apply decides_iff in D. destruct D as (e & I & _ & A & _).
    apply P in I. apply F in I. apply fits_iff in A. congruence.
Qed.

Lemma says_named s e : says s e -> fst e <> Some [].
Proof. intros [w l L|n [M _] _|n w l [M _] _]; cbn; congruence. Qed.

(** A RUST_LOG of entries shows what they say. *)
Lemma passes_decides s es r : entries s es ->
  (passes s r = true <-> exists l, decides es (rec_target r) l /\ rank (rec_level r) <= l).
Proof.
  intros E. unfold Filter.passes. rewrite (parse_entries s es E). rewrite andb_true_r.
  assert (Ne : es <> [] /\ forall l, ~ In (Some [], l) es).
  { induction E as [s e S|s e t es S _ [IH1 IH2]]; pose proof (says_named s e S) as K; (split; [discriminate|]);
    intros l [->|I]; cbn in K; try congruence; [destruct I|apply (IH2 l I)]. }
  apply enabled_decides; apply Ne.
Qed.

(** An expression behind a slash: messages without a match do not pass. *)
Lemma passes_regex s es x r : entries s es -> ~ In 47%N x ->
  passes (s ++ lit "/" ++ x) r =
  passes s r && match regex x with Some m => m (rec_text r) | None => true end.
Proof.
  intros E Nx. unfold Filter.passes. rewrite (parse_entries s es E). destruct (read_entries s es E) as [R F].
  assert (P : parse_spec (s ++ lit "/" ++ x) = (map dir_of es, regex x)).
  { unfold Filter.parse_spec. replace (split (lit "/") (s ++ lit "/" ++ x)) with [s; x]; [rewrite R; reflexivity|].
    symmetry. etransitivity; [exact (split_at 47%N s x [] F)|]. cbn [rev app]. f_equal. exact (split_free 47%N x [] Nx). }
  rewrite P, andb_true_r. reflexivity.
Qed.

(** Without readable entries errors pass. *)
Lemma passes_nothing r : passes [] r = (rank (rec_level r) <=? 1).
Proof. apply andb_true_r. Qed.

End Regex.
