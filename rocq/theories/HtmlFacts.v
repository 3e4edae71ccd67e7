(** * HtmlFacts: a tokenizer that accepts only [safe_html]. *)
From Coq Require Import Ascii String.
From Verif Require Import Strings StringsFacts Html.
Open Scope list_scope.

Inductive hstate := Data | InTag (k : str) | InFix (k : str) | InVar (k v : str) | Bad.

Section Run.
Variable bad : str -> str -> bool.
Definition step (q : hstate) (c : char) : hstate :=
  match q with
  | Data => if ceq c c_lt then InTag [] else Data
  | InTag k =>
      if ceq c c_lt then Bad
      else if ceq c c_gt then (if existsb (str_eqb k) allowed_tags then Data else Bad)
      else if ceq c c_quot then (if open_attr k then InVar k [] else InFix (k ++ [c_quot]))
      else InTag (k ++ [c])
  | InFix k =>
      if ceq c c_lt then Bad
      else if ceq c c_quot then InTag (k ++ [c_quot])
      else InFix (k ++ [c])
  | InVar k v =>
      if ceq c c_lt then Bad
      else if ceq c c_quot
      then (if bad k v then Bad else InTag (k ++ [c_quot; c_quot]))
      else InVar k (v ++ [c])
  | Bad => Bad
  end.
Definition run (q : hstate) (s : str) : hstate := fold_left step s q.

Lemma run_app q a b : run q (a ++ b) = run (run q a) b.
Proof. apply fold_left_app. Qed.
Lemma run_cons q c s : run q (c :: s) = run (step q c) s.
Proof. reflexivity. Qed.
Lemma run_bad s : run Bad s = Bad.
Proof. induction s; auto. Qed.
Lemma run_data s : ~ In c_lt s -> run Data s = Data.
Proof.
  induction s as [|c s IH]; intros H; [reflexivity|]. rewrite run_cons. cbn [step].
  destruct (ceq c c_lt) eqn:E; [apply ceq_eq in E; subst; exfalso; apply H; now left|].
  apply IH. intros I; apply H; now right.
Qed.
Lemma run_var k v s : clean_value s -> run (InVar k v) s = InVar k (v ++ s).
Proof.
  revert v; induction s as [|c s IH]; intros v [H1 H2]; [now rewrite app_nil_r|].
  rewrite run_cons. cbn [step].
  destruct (ceq c c_lt) eqn:E1; [apply ceq_eq in E1; subst; exfalso; apply H2; now left|].
  destruct (ceq c c_quot) eqn:E2; [apply ceq_eq in E2; subst; exfalso; apply H1; now left|].
  rewrite IH; [now rewrite <- app_assoc|]. split; intros I; [apply H1 | apply H2]; now right.
Qed.

(** ** Soundness *)
Definition reads (q : hstate) (b : str) : Prop :=
  match q with
  | Data | Bad => False
  | InTag k => fills bad k b
  | InFix k => exists k0 b0 v, fills bad k0 b0 /\ open_attr k0 = false /\ clean_value v /\
                 k = k0 ++ [c_quot] ++ v /\ b = b0 ++ [c_quot] ++ v
  | InVar k v => exists b0, fills bad k b0 /\ open_attr k = true /\ clean_value v /\ b = b0 ++ [c_quot] ++ v
  end.

Lemma safe_nil : safe_html bad [].
Proof. exists []. split; [auto | constructor]. Qed.
Lemma safe_cons p h : html_piece bad p -> safe_html bad h -> safe_html bad (p ++ h).
Proof. intros H (ps & -> & F). exists (p :: ps). split; [auto | now constructor]. Qed.

Lemma run_sound h :
  (run Data h = Data -> safe_html bad h) /\
  (forall q b, reads q b -> run q h = Data -> safe_html bad ([c_lt] ++ b ++ h)).
Proof.
  induction h as [|c h [IH1 IH2]].
  - split; [intros; apply safe_nil|]. intros q b R E. cbn in E. subst q. destruct R.
  - split.
    + rewrite run_cons. cbn [step]. destruct (ceq c c_lt) eqn:E.
      * apply ceq_eq in E; subst c. intros H. apply (IH2 (InTag []) []); [constructor | exact H].
      * intros H. apply (safe_cons [c]); [left; exists c; split; [auto|now apply ceq_neq] | auto].
    + intros q b R. rewrite run_cons.
      assert (K : forall q', reads q' (b ++ [c]) -> run q' h = Data -> safe_html bad ([c_lt] ++ b ++ c :: h)).
      { intros q' R' E. specialize (IH2 q' (b ++ [c]) R' E). now rewrite <- app_assoc in IH2. }
      destruct q as [|k|k|k v|]; cbn [step]; cbn [reads] in R; try easy.
      * destruct (ceq c c_lt) eqn:E1; [rewrite run_bad; easy|]. apply ceq_neq in E1.
        destruct (ceq c c_gt) eqn:E2.
        { apply ceq_eq in E2; subst c.
          destruct (existsb _ _) eqn:EA; [|rewrite run_bad; easy]. intros H.
          change ([c_lt] ++ b ++ c_gt :: h) with (([c_lt] ++ b) ++ [c_gt] ++ h).
          rewrite app_assoc. apply safe_cons; [|auto]. right. exists k, b.
          apply existsb_exists in EA as (k' & I & EK). apply str_eqb_eq in EK. subst k'.
          rewrite <- app_assoc. auto. }
        apply ceq_neq in E2. destruct (ceq c c_quot) eqn:E3.
        { apply ceq_eq in E3; subst c. destruct (open_attr k) eqn:EO; apply K; cbn [reads].
          - exists b. repeat split; auto.
          - exists k, b, []. repeat split; auto. }
        apply ceq_neq in E3. apply K. cbn [reads]. now constructor.
      * destruct R as (k0 & b0 & v & F & OA & [N N'] & -> & ->).
        destruct (ceq c c_lt) eqn:E1; [rewrite run_bad; easy|]. apply ceq_neq in E1.
        destruct (ceq c c_quot) eqn:E3.
        { apply ceq_eq in E3; subst c. apply K. cbn [reads]. rewrite <- !app_assoc. now repeat constructor. }
        apply ceq_neq in E3. apply K. cbn [reads]. exists k0, b0, (v ++ [c]).
        repeat split; auto; [| | now rewrite <- !app_assoc | now rewrite <- !app_assoc];
          rewrite in_app_iff; intros [I|[I|[]]]; auto.
      * destruct R as (b0 & F & OA & [N1 N2] & ->).
        destruct (ceq c c_lt) eqn:E1; [rewrite run_bad; easy|]. apply ceq_neq in E1.
        destruct (ceq c c_quot) eqn:E3.
        { apply ceq_eq in E3; subst c.
          destruct (bad k v) eqn:EH; [rewrite run_bad; easy|].
          apply K. cbn [reads]. rewrite <- !app_assoc. constructor; auto. now split. }
        apply ceq_neq in E3. apply K. cbn [reads]. exists b0.
        repeat split; auto; [| |now rewrite <- !app_assoc];
          rewrite in_app_iff; intros [I|[I|[]]]; auto.
Qed.
Lemma run_safe h : run Data h = Data -> safe_html bad h.
Proof. apply run_sound. Qed.

(** ** Completeness *)
Lemma fills_run k b : fills bad k b -> run (InTag []) b = InTag k.
Proof.
  induction 1 as [|k b c _ IH N1 N2 N3|k b v _ IH OA CV|k b v _ IH OA CV B]; [reflexivity|..];
    rewrite run_app, IH.
  - cbn [run fold_left step]. apply ceq_neq in N1, N2, N3. now rewrite N1, N2, N3.
  - cbn [app]. rewrite run_cons. cbn [step]. change (ceq c_quot c_lt) with false.
    change (ceq c_quot c_gt) with false. change (ceq c_quot c_quot) with true. cbn iota. rewrite OA.
    rewrite run_app.
    assert (F : forall v k, clean_value v -> run (InFix k) v = InFix (k ++ v)).
    { clear. intros v. induction v as [|c v IH]; intros k [H1 H2]; [now rewrite app_nil_r|].
      rewrite run_cons. cbn [step].
      destruct (ceq c c_lt) eqn:E1; [apply ceq_eq in E1; subst; exfalso; apply H2; now left|].
      destruct (ceq c c_quot) eqn:E2; [apply ceq_eq in E2; subst; exfalso; apply H1; now left|].
      rewrite IH; [now rewrite <- app_assoc|]. split; intros I; [apply H1 | apply H2]; now right. }
    rewrite (F v _ CV). cbn [run fold_left step]. change (ceq c_quot c_lt) with false.
    change (ceq c_quot c_quot) with true. cbn iota. now rewrite <- !app_assoc.
  - cbn [app]. rewrite run_cons. cbn [step]. change (ceq c_quot c_lt) with false.
    change (ceq c_quot c_gt) with false. change (ceq c_quot c_quot) with true. cbn iota. rewrite OA.
    rewrite run_app, run_var by exact CV. cbn [run fold_left step app]. change (ceq c_quot c_lt) with false.
    change (ceq c_quot c_quot) with true. cbn iota. now rewrite B.
Qed.
Lemma run_complete h : safe_html bad h -> run Data h = Data.
Proof.
  intros (ps & -> & F). induction F as [|p ps H _ IH]; [reflexivity|]. cbn [concat]. rewrite run_app.
  assert (E : run Data p = Data); [|now rewrite E].
  destruct H as [(c & -> & N)|(k & b & I & FL & ->)].
  - apply run_data. intros [->|[]]. auto.
  - cbn [app]. rewrite run_cons. change (step Data c_lt) with (InTag []). rewrite run_app, (fills_run k b FL).
    cbn [run fold_left step]. change (ceq c_gt c_lt) with false. change (ceq c_gt c_gt) with true. cbn iota.
    assert (EX : existsb (str_eqb k) allowed_tags = true).
    { apply existsb_exists. exists k. split; [auto | apply str_eqb_refl]. }
    now rewrite EX.
Qed.

(** ** What comes before a piece of text that starts with a tag was data *)
Lemma run_lt q s : run q (c_lt :: s) = Data -> q = Data.
Proof.
  destruct q; cbn [run fold_left step]; rewrite ?ceq_refl; auto;
    change (fold_left step s Bad) with (run Bad s); rewrite run_bad; easy.
Qed.
(** A character that does not end a tag leads to [Data] only from [Data]. *)
Lemma step_data q c : c <> c_gt -> step q c = Data -> q = Data.
Proof.
  intros N. destruct q as [|k|k|k v|]; cbn [step]; auto.
  - destruct (ceq c c_lt); [easy|]. destruct (ceq c c_gt) eqn:E; [apply ceq_eq in E; easy|].
    destruct (ceq c c_quot); [|easy]. destruct (open_attr k); easy.
  - destruct (ceq c c_lt); [easy|]. destruct (ceq c c_quot); easy.
  - destruct (ceq c c_lt); [easy|]. destruct (ceq c c_quot); [|easy]. destruct (bad k v); easy.
Qed.
Lemma run_data_before q s : ~ In c_gt s -> run q s = Data -> q = Data.
Proof.
  revert q; induction s as [|c s IH]; intros q N; [auto|]. rewrite run_cons. intros H.
  apply IH in H; [|intros I; apply N; now right]. apply step_data in H; [auto|].
  intros ->. apply N. now left.
Qed.

(** ** Replacing tabs *)
Definition untab (s : str) : str := replace [c_tab] (lit "  ") s.
Lemma untab_cons c s : untab (c :: s) = (if ceq c c_tab then lit "  " else [c]) ++ untab s.
Proof.
  unfold untab, replace. cbn [replace_go starts_with]. rewrite andb_true_r, ceq_sym.
  destruct (ceq c c_tab); reflexivity.
Qed.
Lemma untab_app a b : untab (a ++ b) = untab a ++ untab b.
Proof. induction a as [|c a IH]; [reflexivity|]. cbn [app]. rewrite !untab_cons, IH. now rewrite app_assoc. Qed.
Hypothesis bad_untab : forall k v, bad k v = false -> bad k (untab v) = false.

Definition untab_q (q : hstate) : hstate :=
  match q with InVar k v => InVar k (untab v) | q => q end.
Definition skel (q : hstate) : str :=
  match q with InTag k | InFix k | InVar k _ => k | _ => [] end.
Lemma allowed_no_tab k : In k allowed_tags -> ~ In c_tab k.
Proof.
  intros I J. assert (A : forallb (fun k => negb (contains_char c_tab k)) allowed_tags = true)
    by (vm_compute; reflexivity).
  apply (proj1 (forallb_forall _ _) A) in I. apply negb_true_iff in I.
  apply contains_char_false in I. auto.
Qed.
Lemma doomed q s : In c_tab (skel q) -> run q s <> Data.
Proof.
  revert q; induction s as [|c s IH]; intros q I; [destruct q; easy|]. rewrite run_cons.
  destruct q as [|k|k|k v|]; cbn [step skel] in *; try easy.
  - destruct (ceq c c_lt); [now rewrite run_bad|]. destruct (ceq c c_gt).
    { destruct (existsb _ _) eqn:EA; [|now rewrite run_bad].
      apply existsb_exists in EA as (k' & J & EK). apply str_eqb_eq in EK. subst k'.
      exfalso. now apply (allowed_no_tab k). }
    destruct (ceq c c_quot); [destruct (open_attr k)|]; apply IH; cbn [skel]; auto;
      apply in_or_app; now left.
  - destruct (ceq c c_lt); [now rewrite run_bad|].
    destruct (ceq c c_quot); apply IH; cbn [skel]; apply in_or_app; now left.
  - destruct (ceq c c_lt); [now rewrite run_bad|].
    destruct (ceq c c_quot); [destruct (bad k v); [now rewrite run_bad|]|]; apply IH; cbn [skel]; auto.
    apply in_or_app; now left.
Qed.
Lemma run_untab s : forall q, run q s = Data -> run (untab_q q) (untab s) = Data.
Proof.
  induction s as [|c s IH]; intros q; [cbn; now intros ->|].
  rewrite untab_cons, run_app, run_cons. destruct (ceq c c_tab) eqn:ET.
  - apply ceq_eq in ET; subst c. intros H.
    destruct q as [|k|k|k v|].
    + apply (IH Data). exact H.
    + exfalso. apply (doomed (InTag (k ++ [c_tab])) s); [apply in_or_app; right; now left | exact H].
    + exfalso. apply (doomed (InFix (k ++ [c_tab])) s); [apply in_or_app; right; now left | exact H].
    + apply IH in H. cbn [step untab_q] in H.
      change (ceq c_tab c_lt) with false in H. change (ceq c_tab c_quot) with false in H.
      cbn iota in H. cbn [untab_q] in H. rewrite untab_app in H.
      change (run (untab_q (InVar k v)) (lit "  ")) with (InVar k ((untab v ++ [c_sp]) ++ [c_sp])).
      rewrite <- app_assoc. exact H.
    + cbn [step] in H. rewrite run_bad in H. easy.
  - intros H. apply IH in H.
    change (run (untab_q q) [c]) with (step (untab_q q) c).
    destruct q as [|k|k|k v|]; cbn [step untab_q] in *; try exact H.
    + destruct (ceq c c_lt); [exact H|]. exact H.
    + destruct (ceq c c_lt); [exact H|]. destruct (ceq c c_gt); [destruct (existsb _ _); exact H|].
      destruct (ceq c c_quot); [|exact H]. destruct (open_attr k); exact H.
    + destruct (ceq c c_lt); [exact H|]. destruct (ceq c c_quot); exact H.
    + destruct (ceq c c_lt); [exact H|]. destruct (ceq c c_quot) eqn:E3.
      * destruct (bad k v) eqn:EB; [cbn [untab_q] in H; rewrite run_bad in H; easy|].
        rewrite (bad_untab k v EB). exact H.
      * cbn [untab_q] in H. rewrite untab_app in H.
        assert (U : untab [c] = [c]) by (rewrite untab_cons, ET; reflexivity).
        rewrite U in H. exact H.
Qed.

(** ** Padding code blocks *)
Definition pad (s : str) : str := replace (lit "<pre><code>") (lit "<pre><code>  ") s.
Lemma replace_go_skip p r n a s : length a = n -> replace_go p r n (a ++ s) = replace_go p r 0 s.
Proof. revert a; induction n as [|n IH]; intros [|c a] L; try easy. cbn in *. apply IH. lia. Qed.
Lemma replace_hit x p r s : replace (x :: p) r ((x :: p) ++ s) = r ++ replace (x :: p) r s.
Proof.
  unfold replace. cbn [app replace_go].
  change (x :: p ++ s) with ((x :: p) ++ s). rewrite starts_with_app. f_equal.
  apply replace_go_skip. cbn. lia.
Qed.
Lemma replace_miss p r c s : starts_with p (c :: s) = false -> replace p r (c :: s) = c :: replace p r s.
Proof. unfold replace. cbn [replace_go]. now intros ->. Qed.
Lemma run_pad n : forall s q, length s <= n -> run q s = Data -> run q (pad s) = Data.
Proof.
  induction n as [|n IH]; intros s q L H.
  { destruct s; [exact H | cbn in L; lia]. }
  destruct s as [|c s]; [exact H|].
  destruct (starts_with (lit "<pre><code>") (c :: s)) eqn:E.
  - apply starts_with_iff in E as [y E]. rewrite E in *.
    assert (q = Data) as -> by (apply (run_lt q (lit "pre><code>" ++ y)); exact H).
    unfold pad. rewrite (replace_hit c_lt (lit "pre><code>")). rewrite run_app.
    replace (run Data (lit "<pre><code>  ")) with Data by (vm_compute; reflexivity).
    apply IH; [|exact H]. rewrite app_length in L.
    change (length (lit "<pre><code>")) with 11 in L. lia.
  - unfold pad. rewrite (replace_miss _ _ _ _ E). rewrite run_cons in *.
    apply IH; [cbn in L; lia | exact H].
Qed.
End Run.

(** ** The two kinds of bad urls *)
Lemma strip_scheme_untab p v r' : ~ In c_sp p ->
  strip_scheme_ci p (untab v) = Some r' ->
  exists r, strip_scheme_ci p v = Some r /\ r' = untab r.
Proof.
  revert v; induction p as [|x p IHp]; intros v N.
  - cbn. injection 1 as <-. eauto.
  - induction v as [|c v IH]; [easy|]. rewrite untab_cons.
    destruct (ceq c c_tab) eqn:ET.
    + apply ceq_eq in ET; subst c. cbn [strip_scheme_ci app lit].
      change (ignorable (Ascii.N_of_ascii " ")) with false. cbn iota.
      destruct (ceq (to_lower_c (N_of_ascii " ")) x) eqn:EX; [|easy].
      apply ceq_eq in EX. exfalso. apply N. left. rewrite <- EX. reflexivity.
    + cbn [app strip_scheme_ci]. destruct (ignorable c); [exact IH|].
      destruct (ceq _ x); [|easy]. apply IHp. intros I; apply N; now right.
Qed.
Lemma url_start_untab v : url_start (untab v) = untab (url_start v).
Proof.
  unfold url_start. induction v as [|c v IH]; [reflexivity|]. rewrite untab_cons.
  destruct (ceq c c_tab) eqn:ET.
  - apply ceq_eq in ET; subst c. exact IH.
  - cbn [app drop_while]. destruct (N.leb c 32); [exact IH|].
    rewrite untab_cons, ET. reflexivity.
Qed.
Lemma javascript_untab v : is_javascript v = false -> is_javascript (untab v) = false.
Proof.
  unfold is_javascript. rewrite url_start_untab.
  destruct (strip_scheme_ci _ (untab _)) as [r|] eqn:E; [|auto].
  apply strip_scheme_untab in E as (r' & -> & _); [auto|]. vm_compute; intuition discriminate.
Qed.
Lemma untab_no_tab s : ~ In c_tab s -> untab s = s.
Proof.
  induction s as [|c s IH]; intros N; [reflexivity|]. rewrite untab_cons.
  destruct (ceq c c_tab) eqn:E; [apply ceq_eq in E; subst; exfalso; apply N; now left|].
  cbn. rewrite IH; [auto|]. intros I; apply N; now right.
Qed.
Lemma data_untab v : is_data_not_image v = false -> is_data_not_image (untab v) = false.
Proof.
  unfold is_data_not_image. rewrite url_start_untab.
  destruct (strip_scheme_ci _ (untab _)) as [r|] eqn:E; [|auto].
  apply strip_scheme_untab in E as (r' & -> & ->); [|vm_compute; intuition discriminate].
  intros H. apply negb_false_iff in H. apply starts_with_iff in H as [y ->].
  rewrite untab_app, (untab_no_tab (lit "image/")), starts_with_app by (vm_compute; intuition discriminate).
  reflexivity.
Qed.
