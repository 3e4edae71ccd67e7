(** * UrlProps: the properties of PropertiesUrl.v, ready to be stated. *)
From Coq Require Import Ascii String.
From Verif Require Import Strings StringsFacts Token Iter Lexer Parser Utf8 System Config Url Cli
  SpecCli SystemFacts CliFacts CliMain UrlFacts CliRuns CliProps SpecPage BeginFacts.
Open Scope list_scope.

Lemma unsafe_other n st m f xs input out f' p' :
  new_process m f -> Forall no_short xs -> replaced (lit "pdf") input out ->
  Forall proper_name (cwd m) -> ~ url_safe (cwd m) ->
  (forall t, names f (cwd m ++ [lit "tmp.html"]) <> Some (NLink t)) ->
  ~ aliases f (cwd m ++ [lit "tmp.html"]) out ->
  exec xs f (start m (main n st (CParse input Pdf))) = (f', p') -> status p' = Some 0 ->
  exists q, q <> cwd m ++ [lit "tmp.html"] /\
    (~ aliases f (cwd m ++ [lit "tmp.html"]) q ->
     exists c, contents f q = Some c /\ contents f' out = Some (pdf_of m c)).
Proof.
  intros N F R Pr Us Nl Ap E S0. apply replaced_functional in R. subst out.
  destruct (visited (cwd m ++ [lit "tmp.html"])) as [q|] eqn:V.
  - exists q. split.
    + intros ->. apply Us. apply (visited_exact (cwd m) Pr). exact V.
    + intros A. apply (pdf_other n st m f xs input f' p' q N F Nl Ap V A E S0).
  - destruct (pdf_nothing n st m f xs input f' p' N F Nl Ap V E S0).
Qed.

Lemma cut_other n st m f xs input out f' p' d a x b e :
  new_process m f -> Forall no_short xs -> replaced (lit "pdf") input out ->
  cwd m = d ++ [a ++ [x] ++ b] ++ e -> In x (lit "#?") -> web_dir (d ++ [a]) ->
  (forall t, names f (cwd m ++ [lit "tmp.html"]) <> Some (NLink t)) ->
  ~ aliases f (cwd m ++ [lit "tmp.html"]) out -> ~ aliases f (cwd m ++ [lit "tmp.html"]) (d ++ [a]) ->
  exec xs f (start m (main n st (CParse input Pdf))) = (f', p') -> status p' = Some 0 ->
  exists c, contents f (d ++ [a]) = Some c /\ contents f' out = Some (pdf_of m c).
Proof.
  intros N F R D Hx [Pr Sf] Nl Ap A E S0. apply replaced_functional in R. subst out.
  apply (pdf_other n st m f xs input f' p' (d ++ [a]) N F Nl Ap); try assumption.
  rewrite D. apply visited_cut; assumption.
Qed.

Lemma coded_other n st m f xs input out f' p' d a h l b e x y :
  new_process m f -> Forall no_short xs -> replaced (lit "pdf") input out ->
  cwd m = d ++ [a ++ lit "%" ++ [h; l] ++ b] ++ e -> digit16 h x -> digit16 l y -> 16 * x + y < 128 ->
  web_dir d -> Forall proper_name e -> Forall means_itself_in_url e ->
  means_itself_in_url a -> means_itself_in_url b -> proper_name (a ++ [N.of_nat (16 * x + y)] ++ b) ->
  (forall t, names f (cwd m ++ [lit "tmp.html"]) <> Some (NLink t)) ->
  ~ aliases f (cwd m ++ [lit "tmp.html"]) out ->
  let other := (d ++ [a ++ [N.of_nat (16 * x + y)] ++ b] ++ e) ++ [lit "tmp.html"] in
  ~ aliases f (cwd m ++ [lit "tmp.html"]) other ->
  exec xs f (start m (main n st (CParse input Pdf))) = (f', p') -> status p' = Some 0 ->
  exists c, contents f other = Some c /\ contents f' out = Some (pdf_of m c).
Proof.
  intros N F R D Hh Hl Lo [Pd [Sd Dd]] Pe Se Sa Sb Pn Nl Ap other A E S0. apply replaced_functional in R. subst out.
  apply (pdf_other n st m f xs input f' p' other N F Nl Ap); try assumption.
  rewrite D. apply visited_coded; try assumption; apply Forall_app; split; assumption.
Qed.

(** ** Encoded dots *)

Lemma visited_normal d : Forall proper_name d ->
  Forall (fun n => forall c, In c (lit "#?\" ++ [c_tab; c_nl; c_cr]) -> ~ In c n) d ->
  visited (d ++ [tmp_name]) = all_names (filter (fun x => negb (is_empty x)) (normal [] (d ++ [tmp_name]))).
Proof.
  intros Pr Sp. rewrite visited_tmp.
  assert (Sp' : Forall (fun n => forall c, In c (lit "#?\" ++ [c_tab; c_nl; c_cr]) -> ~ In c n) (d ++ [tmp_name])).
  { apply Forall_last. split; [exact Sp|apply tmp_itself]. }
  assert (Pr' : Forall proper_name (d ++ [tmp_name])) by (apply Forall_last; split; [exact Pr|apply tmp_proper]).
  replace (map without_breaks (d ++ [tmp_name])) with (d ++ [tmp_name]).
  2: { symmetry. rewrite <- (map_id (d ++ [tmp_name])) at 2. apply map_ext_in. intros n Hn. apply without_id.
       intros c Hc. rewrite Forall_forall in Sp'. apply (Sp' n Hn). apply in_or_app. right. exact Hc. }
  assert (W : Forall (Forall wordy) (d ++ [tmp_name])).
  { apply Forall_forall. intros n Hn. apply Forall_forall. intros c Hc. apply wordy_of.
    - apply special_iff. intros K. rewrite Forall_forall in Sp'. apply (Sp' n Hn c K Hc).
    - rewrite Forall_forall in Pr'. destruct (Pr' n Hn) as (_ & _ & _ & S & _). intros ->. apply S. exact Hc. }
  assert (E : exists n p, d ++ [tmp_name] = n :: p) by (destruct d; eexists; eexists; reflexivity).
  destruct E as (n & p & E). rewrite E in *. rewrite segments_names by exact W. reflexivity.
Qed.

Definition no_drive (p : path) : Prop := forall s r, p = s :: r -> drive s = s.

Lemma normal_goes q : forall acc r, Forall (fun s => dotted s = false) q -> acc <> [] \/ no_drive q ->
  normal acc (q ++ r) = normal (rev q ++ acc) r.
Proof.
  induction q as [|s q IH]; intros acc r D H; [reflexivity|]. inversion_clear D as [|? ? D1 D2].
  cbn [app normal]. unfold dotted in D1. apply orb_false_iff in D1. destruct D1 as [-> ->].
  replace (match acc with [] => drive s | _ => s end) with s.
  2: { destruct acc; [|reflexivity]. destruct H as [H|H]; [congruence|]. symmetry. apply (H s q eq_refl). }
  rewrite IH; [|exact D2|left; discriminate]. cbn [rev]. rewrite <- app_assoc. reflexivity.
Qed.

Lemma safe_drive p : url_safe p -> no_drive (p ++ [tmp_name]).
Proof.
  intros [_ Dr] s r E. apply drive_self. intros x L ->. apply letter_iff in L. destruct p as [|n p].
  - discriminate E.
  - injection E as -> _. apply (Dr x p L). reflexivity.
Qed.

Definition encoded_parent : list str :=
  [lit ".%2e"; lit ".%2E"; lit "%2e."; lit "%2E."; lit "%2e%2e"; lit "%2e%2E"; lit "%2E%2e"; lit "%2E%2E"].
Definition encoded_here : list str := [lit "%2e"; lit "%2E"].

Lemma dots_names x : In x (encoded_parent ++ encoded_here) ->
  proper_name x /\ (forall c, In c (lit "#?\" ++ [c_tab; c_nl; c_cr]) -> ~ In c x) /\ x <> tmp_name.
Proof.
  intros H. split; [|split].
  - apply proper_nameb_ok. revert x H. apply Forall_forall. repeat constructor.
  - intros c Hc Hx. revert c Hc Hx. cbn [encoded_parent encoded_here app] in H.
    repeat (destruct H as [<-|H]; [vm_compute; intros c Hc Hx; intuition subst; discriminate|]). destruct H.
  - intros ->. revert H. vm_compute. intuition discriminate.
Qed.
Lemma parent_dots x : In x encoded_parent -> double_dot x = true.
Proof. revert x. apply Forall_forall. repeat constructor. Qed.
Lemma here_dots x : In x encoded_here -> single_dot x = true /\ double_dot x = false.
Proof. revert x. apply Forall_forall. repeat constructor. Qed.

Lemma web_plain p : web_dir p -> Forall (fun s => dotted s = false) p /\
  Forall (fun n => forall c, In c (lit "#?\" ++ [c_tab; c_nl; c_cr]) -> ~ In c n) p /\
  all_names (filter (fun x => negb (is_empty x)) (p ++ [tmp_name])) = Some (p ++ [tmp_name]).
Proof.
  intros [Pr [Si Dr]]. split; [|split].
  - apply Forall_forall. intros n Hn. rewrite Forall_forall in Pr, Si. apply safe_not_dotted; [apply (Pr n Hn)|].
    apply triple_self_free. apply (Si n Hn).
  - apply Forall_forall. intros n Hn. rewrite Forall_forall in Si. apply (Si n Hn).
  - rewrite filter_full.
    + apply all_names_self. apply Forall_last. split; [|reflexivity]. apply Forall_forall. intros n Hn.
      rewrite Forall_forall in Pr, Si. destruct (Pr n Hn) as (_ & _ & _ & A & B & C).
      apply segment_self; try assumption. apply triple_self_free. apply (Si n Hn).
    + apply Forall_last. split; [|discriminate]. apply Forall_forall. intros n Hn. rewrite Forall_forall in Pr.
      apply (Pr n Hn).
Qed.

Lemma web_app a b : web_dir (a ++ b) -> web_dir a.
Proof.
  intros [Pr [Si Dr]]. apply Forall_app in Pr, Si. split; [apply Pr|]. split; [apply Si|].
  intros x r L ->. apply (Dr x (r ++ b) L). reflexivity.
Qed.

Lemma normal_end acc q : Forall (fun s => dotted s = false) q -> acc <> [] \/ no_drive q ->
  normal acc q = rev acc ++ q.
Proof.
  intros D H. rewrite <- (app_nil_r q) at 1. rewrite normal_goes by assumption. cbn [normal].
  rewrite rev_app_distr, rev_involutive. reflexivity.
Qed.

Lemma no_drive_part a b : no_drive (a ++ b) -> no_drive a.
Proof. intros H s r ->. apply (H s (r ++ b)). reflexivity. Qed.

Lemma tail_plain d e : Forall (fun s => dotted s = false) (d ++ e) ->
  Forall (fun s => dotted s = false) (e ++ [tmp_name]).
Proof. intros H. apply Forall_app in H. apply Forall_last. split; [apply H|reflexivity]. Qed.

Lemma visited_parent d n x e : web_dir (d ++ [n]) -> web_dir (d ++ e) -> In x encoded_parent ->
  (forall z, In z (lit "abcdefghijklmnopqrstuvwxyzABCDEFGHIJKLMNOPQRSTUVWXYZ") -> d ++ [n] <> [[z] ++ lit ":"]) ->
  visited ((d ++ [n] ++ [x] ++ e) ++ [tmp_name]) = Some ((d ++ e) ++ [tmp_name]).
Proof.
  intros W1 W2 Hx Dr. destruct (web_plain _ W1) as (D1 & S1 & _). destruct (web_plain _ W2) as (D2 & S2 & N2).
  destruct (dots_names x (in_or_app _ _ _ (or_introl Hx))) as (Px & Sx & _).
  assert (P1 := proj1 W1). assert (P2 := proj1 W2).
  rewrite visited_normal.
  2: { rewrite app_assoc. apply Forall_app in P2. apply Forall_app. split; [exact P1|]. constructor; [exact Px|apply P2]. }
  2: { rewrite app_assoc. apply Forall_app in S2. apply Forall_app. split; [exact S1|]. constructor; [exact Sx|apply S2]. }
  replace ((d ++ [n] ++ [x] ++ e) ++ [tmp_name]) with ((d ++ [n]) ++ x :: e ++ [tmp_name])
    by (rewrite <- !app_assoc; reflexivity).
  rewrite normal_goes; [|exact D1|right; apply (no_drive_part _ [tmp_name]), safe_drive, W1].
  rewrite app_nil_r, rev_app_distr. cbn [rev app normal]. rewrite (parent_dots x Hx).
  replace (match e ++ [tmp_name] with [] => [] :: up (n :: rev d) | _ => up (n :: rev d) end) with (up (n :: rev d))
    by (destruct e; reflexivity).
  assert (U : up (n :: rev d) = rev d).
  { cbn [up]. destruct (rev d) as [|a r] eqn:E; [|reflexivity].
    destruct (is_drive n) eqn:I; [exfalso|reflexivity].
    apply (f_equal (@rev str)) in E. rewrite rev_involutive in E. cbn in E. subst d.
    unfold is_drive in I. destruct n as [|z [|k [|? ?]]]; try discriminate I.
    apply andb_true_iff in I. destruct I as [L K]. apply letter_iff in L. apply (Dr z L). cbn.
    cbn in K. rewrite orb_false_r in K. apply N.eqb_eq in K. subst k. reflexivity. }
  rewrite U, normal_end, rev_involutive.
  - rewrite app_assoc. exact N2.
  - apply (tail_plain d e D2).
  - destruct d as [|a d]; [right; apply safe_drive, W2|left]. cbn. destruct (rev d); discriminate.
Qed.

Lemma visited_here d x e : web_dir (d ++ e) -> In x encoded_here ->
  visited ((d ++ [x] ++ e) ++ [tmp_name]) = Some ((d ++ e) ++ [tmp_name]).
Proof.
  intros W2 Hx. destruct (web_plain _ W2) as (D2 & S2 & N2). assert (W1 := web_app _ _ W2).
  destruct (web_plain _ W1) as (D1 & S1 & _).
  destruct (dots_names x (in_or_app _ _ _ (or_intror Hx))) as (Px & Sx & _). assert (P2 := proj1 W2).
  rewrite visited_normal.
  2: { apply Forall_app in P2. apply Forall_app. split; [apply P2|]. constructor; [exact Px|apply P2]. }
  2: { apply Forall_app in S2. apply Forall_app. split; [apply S2|]. constructor; [exact Sx|apply S2]. }
  replace ((d ++ [x] ++ e) ++ [tmp_name]) with (d ++ x :: e ++ [tmp_name]) by (rewrite <- !app_assoc; reflexivity).
  rewrite normal_goes; [|exact D1|right; apply (no_drive_part _ [tmp_name]), safe_drive, W1].
  rewrite app_nil_r. cbn [normal]. destruct (here_dots x Hx) as [-> ->].
  replace (match e ++ [tmp_name] with [] => [] :: rev d | _ => rev d end) with (rev d) by (destruct e; reflexivity).
  rewrite normal_end, rev_involutive.
  - rewrite app_assoc. exact N2.
  - apply (tail_plain d e D2).
  - destruct d as [|a d]; [right; apply safe_drive, W2|left]. cbn. destruct (rev d); discriminate.
Qed.

Lemma dots_other n st m f xs input out f' p' d a x e :
  new_process m f -> Forall no_short xs -> replaced (lit "pdf") input out ->
  cwd m = d ++ a ++ [x] ++ e ->
  (a = [] /\ In x [lit "%2e"; lit "%2E"] \/
   (exists k, a = [k]) /\ In x [lit ".%2e"; lit ".%2E"; lit "%2e."; lit "%2E."; lit "%2e%2e"; lit "%2e%2E"; lit "%2E%2e"; lit "%2E%2E"]) ->
  web_dir (d ++ a) -> web_dir (d ++ e) ->
  (forall z, In z (lit "abcdefghijklmnopqrstuvwxyzABCDEFGHIJKLMNOPQRSTUVWXYZ") -> d ++ a <> [[z] ++ lit ":"]) ->
  (forall t, names f (cwd m ++ [lit "tmp.html"]) <> Some (NLink t)) ->
  ~ aliases f (cwd m ++ [lit "tmp.html"]) out ->
  let other := (d ++ e) ++ [lit "tmp.html"] in
  ~ aliases f (cwd m ++ [lit "tmp.html"]) other ->
  exec xs f (start m (main n st (CParse input Pdf))) = (f', p') -> status p' = Some 0 ->
  exists c, contents f other = Some c /\ contents f' out = Some (pdf_of m c).
Proof.
  intros N F R D H W1 W2 Dr Nl Ap other A E S0. apply replaced_functional in R. subst out.
  apply (pdf_other n st m f xs input f' p' other N F Nl Ap); try assumption.
  rewrite D. destruct H as [[-> Hx]|[[k ->] Hx]].
  - apply visited_here; assumption.
  - apply visited_parent; assumption.
Qed.

Lemma no_document s h t r : renders s h ->
  In t [lit "<!DOCTYPE"; lit "<!doctype"; lit "<html"; lit "<head"; lit "<meta"] -> h <> t ++ r.
Proof. intros H. apply begins_no_document. apply (renders_begins s h H). Qed.
