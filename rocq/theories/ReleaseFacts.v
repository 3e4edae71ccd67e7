(** * ReleaseFacts: what the commands of release.sh do to a line and to a text. *)
From Coq Require Import Ascii String Sorted.
From Verif Require Import Strings StringsFacts Npm Release SpecRelease.
Open Scope list_scope.

(** ** Matching, as a relation *)
Inductive mt : list piece -> str -> Prop :=
| mt_nil : mt [] []
| mt_lit c p s : mt p s -> mt (Lit c :: p) (c :: s)
| mt_dot c p s : mt p s -> mt (Dot :: p) (c :: s)
| mt_stop p s : mt p s -> mt (Dots :: p) s
| mt_go c p s : mt (Dots :: p) s -> mt (Dots :: p) (c :: s).

Lemma ceq_iff a b : ceq a b = true <-> a = b.
Proof. unfold ceq. apply N.eqb_eq. Qed.

Lemma matches_in p : forall s m r, In (m, r) (matches p s) <-> s = m ++ r /\ mt p m.
Proof.
  induction p as [|x p IH].
  - intros s m r. cbn. split.
    + intros [E|[]]. injection E as <- <-. split; [reflexivity|constructor].
    + intros [E M]. inversion M; subst. left. reflexivity.
  - destruct x as [c| |].
    + intros s m r. cbn. destruct s as [|y s].
      * split; [intros []|intros [E M]]. inversion M; subst. discriminate E.
      * destruct (ceq y c) eqn:Ec.
        -- apply ceq_iff in Ec. subst y. rewrite in_map_iff. split.
           ++ intros [[a b] [E I]]. cbn in E. injection E as <- <-. apply IH in I. destruct I as [-> M].
              split; [reflexivity|constructor; exact M].
           ++ intros [E M]. inversion M; subst. cbn in E. injection E as E. exists (s0, r). split; [reflexivity|].
              apply IH. split; assumption.
        -- split; [intros []|intros [E M]]. inversion M; subst. cbn in E. injection E as E _. subst y.
           unfold ceq in Ec. rewrite N.eqb_refl in Ec. discriminate Ec.
    + intros s m r. cbn. destruct s as [|y s].
      * split; [intros []|intros [E M]]. inversion M; subst. discriminate E.
      * rewrite in_map_iff. split.
        -- intros [[a b] [E I]]. cbn in E. injection E as <- <-. apply IH in I. destruct I as [-> M].
           split; [reflexivity|constructor; exact M].
        -- intros [E M]. inversion M; subst. cbn in E. injection E as <- E. exists (s0, r). split; [reflexivity|].
           apply IH. split; assumption.
    + induction s as [|y s IHs]; intros m r.
      * change (matches (Dots :: p) []) with (matches p []). rewrite IH. split.
        -- intros [E M]. split; [exact E|constructor; exact M].
        -- intros [E M]. split; [exact E|]. inversion M; subst; [assumption|discriminate E].
      * change (matches (Dots :: p) (y :: s)) with
          (map (fun m => (y :: fst m, snd m)) (matches (Dots :: p) s) ++ matches p (y :: s)).
        rewrite in_app_iff, in_map_iff, IH. split.
        -- intros [[[a b] [E I]]|[E M]].
           ++ cbn in E. injection E as <- <-. apply IHs in I. destruct I as [-> M].
              split; [reflexivity|]. apply mt_go. exact M.
           ++ split; [exact E|apply mt_stop; exact M].
        -- intros [E M]. inversion M; subst.
           ++ right. split; assumption.
           ++ left. cbn in E. injection E as <- E. exists (s0, r). split; [reflexivity|].
              apply IHs. split; assumption.
Qed.

Lemma mt_app p q : forall s, mt (p ++ q) s <-> exists a b, s = a ++ b /\ mt p a /\ mt q b.
Proof.
  induction p as [|x p IH]; intros s.
  - cbn. split.
    + intros M. exists [], s. repeat split; [constructor|exact M].
    + intros (a & b & -> & M & M'). inversion M; subst. exact M'.
  - cbn. split.
    + intros M. remember (x :: p ++ q) as l eqn:El. revert x El.
      induction M as [|c l s M IHM|c l s M IHM|l s M IHM|c l s M IHM]; intros x El; try discriminate El.
      * injection El as <- ->. apply IH in M. destruct M as (a & b & -> & Ma & Mb).
        exists (c :: a), b. repeat split; [constructor; exact Ma|exact Mb].
      * injection El as <- ->. apply IH in M. destruct M as (a & b & -> & Ma & Mb).
        exists (c :: a), b. repeat split; [constructor; exact Ma|exact Mb].
      * injection El as <- ->. apply IH in M. destruct M as (a & b & -> & Ma & Mb).
        exists a, b. repeat split; [apply mt_stop; exact Ma|exact Mb].
      * injection El as <- ->. destruct (IHM Dots eq_refl) as (a & b & -> & Ma & Mb).
        exists (c :: a), b. repeat split; [apply mt_go; exact Ma|exact Mb].
    + intros (a & b & -> & Ma & Mb).
      remember (x :: p) as l eqn:El. revert x El.
      induction Ma as [|c l s M IHM|c l s M IHM|l s M IHM|c l s M IHM]; intros x El; try discriminate El.
      * injection El as <- ->. cbn. constructor. apply IH. exists s, b. auto.
      * injection El as <- ->. cbn. constructor. apply IH. exists s, b. auto.
      * injection El as <- ->. apply mt_stop. apply IH. exists s, b. auto.
      * injection El as <- ->. cbn. apply mt_go. apply (IHM Dots eq_refl).
Qed.

Lemma mt_chars t : forall s, mt (chars t) s <-> s = t.
Proof.
  induction t as [|c t IH]; intros s; cbn.
  - split; [intros M; inversion M; reflexivity|intros ->; constructor].
  - split.
    + intros M. inversion M as [|c' p' s' M' E1 E2| | |]; subst. apply IH in M'. subst. reflexivity.
    + intros ->. constructor. apply IH. reflexivity.
Qed.

Lemma mt_dots s : mt [Dots] s.
Proof. induction s as [|c s IH]; [apply mt_stop; constructor|apply mt_go; exact IH]. Qed.

Lemma mt_dot1 s : mt [Dot] s <-> exists d, s = [d].
Proof.
  split.
  - intros M. inversion M as [| |c p t M' E1 E2| |]; subst. inversion M'; subst. exists c. reflexivity.
  - intros [d ->]. constructor. constructor.
Qed.

Lemma mt_plus s : mt [Dot; Dots] s <-> s <> [].
Proof.
  split.
  - intros M ->. inversion M.
  - destruct s as [|d s]; [congruence|]. intros _. constructor. apply mt_dots.
Qed.

Lemma mt_none s : mt [] s <-> s = [].
Proof. split; [intros M; inversion M; reflexivity|intros ->; constructor]. Qed.

(** ** The longest match *)
Lemma longest_none l : longest l = None -> l = [].
Proof.
  destruct l as [|m l]; [reflexivity|]. cbn [longest]. destruct (longest l) as [m'|]; [|discriminate].
  destruct (Nat.ltb (length (whole m)) (length (whole m'))); discriminate.
Qed.

Lemma longest_in l : forall m, longest l = Some m ->
  In m l /\ (forall m', In m' l -> length (whole m') <= length (whole m)).
Proof.
  induction l as [|a l IH]; intros m E; [discriminate E|]. cbn [longest] in E.
  destruct (longest l) as [b|] eqn:El.
  - destruct (IH b eq_refl) as [Ib Mb]. destruct (Nat.ltb (length (whole a)) (length (whole b))) eqn:L.
    + injection E as <-. apply Nat.ltb_lt in L. split; [right; exact Ib|].
      intros m' [<-|I]; [lia|apply Mb; exact I].
    + injection E as <-. apply Nat.ltb_ge in L. split; [left; reflexivity|].
      intros m' [<-|I]; [lia|]. specialize (Mb m' I). lia.
  - injection E as <-. apply longest_none in El. subst l. split; [left; reflexivity|].
    intros m' [<-|[]]. lia.
Qed.

(** [m] is a match of [r] at the beginning of [s]. *)
Definition fits (r : regex) (s : str) (m : found) : Prop :=
  exists a c, whole m = a ++ inner m ++ c /\ s = whole m ++ next m /\
    mt (before r) a /\ mt (group r) (inner m) /\ mt (behind r) c /\
    (to_end r = true -> next m = []).

Lemma candidates_in r s m : In m (candidates r s) <-> fits r s m.
Proof.
  unfold candidates. rewrite filter_In, in_flat_map. split.
  - intros [([a sa] & Ia & I) F]. cbn in I. apply in_flat_map in I. destruct I as ([b sb] & Ib & I).
    cbn in I. apply in_map_iff in I. destruct I as ([c sc] & E & Ic). subst m. cbn in F |- *.
    apply matches_in in Ia, Ib, Ic. destruct Ia as [-> Ma], Ib as [-> Mb], Ic as [-> Mc].
    exists a, c. cbn. repeat split; try assumption.
    + rewrite <- !app_assoc. reflexivity.
    + intros T. rewrite T in F. cbn in F. destruct sc; [reflexivity|discriminate F].
  - intros (a & c & W & -> & Ma & Mb & Mc & T). split.
    + exists (a, inner m ++ c ++ next m). split.
      * apply matches_in. split; [|exact Ma]. rewrite W, <- !app_assoc. reflexivity.
      * cbn. apply in_flat_map. exists (inner m, c ++ next m). split.
        -- apply matches_in. split; [reflexivity|exact Mb].
        -- cbn. apply in_map_iff. exists (c, next m). split.
           ++ cbn. destruct m as [w i n]; cbn in *. rewrite W. reflexivity.
           ++ apply matches_in. split; [reflexivity|exact Mc].
    + destruct (to_end r); [|reflexivity]. rewrite (T eq_refl). reflexivity.
Qed.

Lemma search_some r s : forall p m, search r s = Some (p, m) ->
  (exists s', s = p ++ s' /\ fits r s' m /\ (forall m', fits r s' m' -> length (whole m') <= length (whole m))
     /\ (from_start r = true -> p = [])) /\
  (forall p' s' m', s = p' ++ s' -> fits r s' m' -> length p <= length p').
Proof.
  induction s as [|x s IH]; intros p m E; cbn in E.
  - destruct (longest (candidates r [])) as [m0|] eqn:L; [|destruct (from_start r); discriminate E].
    injection E as <- <-. apply longest_in in L. destruct L as [I M]. split.
    + exists []. split; [reflexivity|]. split; [apply candidates_in; exact I|]. split; [|reflexivity].
      intros m' F. apply M. apply candidates_in. exact F.
    + intros p' s' m' _ _. cbn. lia.
  - destruct (longest (candidates r (x :: s))) as [m0|] eqn:L.
    + injection E as <- <-. apply longest_in in L. destruct L as [I M]. split.
      * exists (x :: s). split; [reflexivity|]. split; [apply candidates_in; exact I|]. split; [|reflexivity].
        intros m' F. apply M. apply candidates_in. exact F.
      * intros p' s' m' _ _. cbn. lia.
    + apply longest_none in L. destruct (from_start r) eqn:FS; [discriminate E|].
      destruct (search r s) as [[p0 m0]|] eqn:S0; [|discriminate E]. injection E as <- <-.
      destruct (IH p0 m0 eq_refl) as [(s' & -> & F & M & _) Lm]. split.
      * exists s'. split; [reflexivity|]. split; [exact F|]. split; [exact M|discriminate].
      * intros p' s'' m' E F'. destruct p' as [|y p'].
        -- cbn in E. subst s''. apply candidates_in in F'. rewrite L in F'. destruct F'.
        -- cbn in E. injection E as _ E. specialize (Lm p' s'' m' E F'). cbn. lia.
Qed.

Lemma search_none r s : search r s = None ->
  forall p' s' m', s = p' ++ s' -> (from_start r = true -> p' = []) -> ~ fits r s' m'.
Proof.
  induction s as [|x s IH]; intros E p' s' m' Es FS F; cbn in E.
  - destruct p'; [|discriminate Es]. cbn in Es. subst s'.
    destruct (longest (candidates r [])) as [m0|] eqn:L; [discriminate E|].
    apply longest_none in L. apply candidates_in in F. rewrite L in F. destruct F.
  - destruct (longest (candidates r (x :: s))) as [m0|] eqn:L; [discriminate E|]. apply longest_none in L.
    destruct p' as [|y p'].
    + cbn in Es. subst s'. apply candidates_in in F. rewrite L in F. destruct F.
    + destruct (from_start r) eqn:FS'; [discriminate (FS eq_refl)|].
      destruct (search r s) as [[p0 m0]|] eqn:S0; [discriminate E|].
      cbn in Es. injection Es as _ Es. apply (IH eq_refl p' s' m' Es); [|exact F]. intros A; discriminate A.
Qed.

(** The longest group among the longest ones. *)
Lemma longest_first l : forall m, longest l = Some m ->
  exists l1 l2, l = l1 ++ m :: l2 /\ forall m', In m' l1 -> length (whole m') < length (whole m).
Proof.
  induction l as [|a l IH]; intros m E; [discriminate E|]. cbn [longest] in E.
  destruct (longest l) as [b|] eqn:El.
  - destruct (Nat.ltb (length (whole a)) (length (whole b))) eqn:L.
    + injection E as <-. apply Nat.ltb_lt in L. destruct (IH b eq_refl) as (l1 & l2 & -> & H).
      exists (a :: l1), l2. split; [reflexivity|]. intros m' [<-|I]; [exact L|apply H; exact I].
    + injection E as <-. exists [], l. split; [reflexivity|intros m' []].
  - injection E as <-. exists [], l. split; [reflexivity|intros m' []].
Qed.

(** The groups come in descending order of length. *)
Definition desc {A} (f : A -> nat) : list A -> Prop := StronglySorted (fun a b => f b <= f a).

Lemma desc_map {A B} (f : A -> nat) (g : B -> nat) (h : A -> B) k l :
  (forall a, g (h a) = f a + k) -> desc f l -> desc g (map h l).
Proof.
  intros H. induction 1 as [|a l S0 IH F]; cbn; constructor; [exact IH|].
  rewrite Forall_forall in *. intros b I. apply in_map_iff in I. destruct I as (a' & <- & I).
  rewrite !H. specialize (F a' I). lia.
Qed.

Lemma desc_filter {A} (f : A -> nat) q l : desc f l -> desc f (filter q l).
Proof.
  induction 1 as [|a l S0 IH F]; cbn; [constructor|]. destruct (q a); [|exact IH].
  constructor; [exact IH|]. rewrite Forall_forall in *. intros b I. apply filter_In in I. apply F. apply I.
Qed.

Lemma desc_app {A} (f : A -> nat) l l' : desc f l -> desc f l' ->
  (forall a b, In a l -> In b l' -> f b <= f a) -> desc f (l ++ l').
Proof.
  intros S0 S1 H. induction S0 as [|a l S0 IH F]; cbn; [exact S1|]. constructor.
  - apply IH. intros x y Ix Iy. apply H; [right; exact Ix|exact Iy].
  - rewrite Forall_forall in *. intros b I. apply in_app_iff in I. destruct I as [I|I]; [apply F; exact I|].
    apply H; [left; reflexivity|exact I].
Qed.

Lemma desc_const {A} (f : A -> nat) k l : (forall a, In a l -> f a = k) -> desc f l.
Proof.
  induction l as [|a l IH]; intros H; [constructor|]. constructor.
  - apply IH. intros b I. apply H. right. exact I.
  - rewrite Forall_forall. intros b I. rewrite (H a (or_introl eq_refl)), (H b (or_intror I)). lia.
Qed.

Lemma desc_flat {A B} (f : A -> nat) (g : B -> nat) (h : A -> list B) l :
  (forall a b, In b (h a) -> g b = f a) -> desc f l -> desc g (flat_map h l).
Proof.
  intros H. induction 1 as [|a l S0 IH F]; cbn; [constructor|].
  apply desc_app; [apply (desc_const g (f a)); intros b I; apply H; exact I|exact IH|].
  intros x y Ix Iy. apply in_flat_map in Iy. destruct Iy as (a' & Ia & Iy).
  rewrite (H a x Ix), (H a' y Iy). rewrite Forall_forall in F. apply F. exact Ia.
Qed.

Lemma desc_dots s : desc (fun m : str * str => length (fst m)) (matches [Dots] s).
Proof.
  induction s as [|c s IH].
  - cbn. repeat constructor.
  - change (matches [Dots] (c :: s)) with
      (map (fun m => (c :: fst m, snd m)) (matches [Dots] s) ++ [([], c :: s)]).
    apply desc_app.
    + eapply (desc_map _ _ _ 1); [|exact IH]. intros a. cbn [fst snd length]. symmetry. apply Nat.add_1_r.
    + repeat constructor.
    + intros a b _ [<-|[]]. cbn. lia.
Qed.

Lemma desc_plus s : desc (fun m : str * str => length (fst m)) (matches [Dot; Dots] s).
Proof.
  destruct s as [|c s]; [constructor|].
  change (matches [Dot; Dots] (c :: s)) with (map (fun m => (c :: fst m, snd m)) (matches [Dots] s)).
  eapply (desc_map _ _ _ 1); [|apply desc_dots]. intros a. cbn [fst snd length]. symmetry. apply Nat.add_1_r.
Qed.

Lemma desc_lit t p : (forall s, desc (fun m : str * str => length (fst m)) (matches p s)) ->
  forall s, desc (fun m : str * str => length (fst m)) (matches (chars t ++ p) s).
Proof.
  intros H. induction t as [|c t IH]; intros s; [apply H|]. cbn. destruct s as [|x s]; [constructor|].
  destruct (ceq x c); [|constructor]. eapply (desc_map _ _ _ 1); [|apply IH]. intros a. cbn [fst snd length]. symmetry. apply Nat.add_1_r.
Qed.

Lemma dep_desc s : desc (fun m => length (inner m)) (candidates dep_regex s).
Proof.
  unfold candidates. apply desc_filter. cbn [before dep_regex]. destruct s as [|x s]; [constructor|].
  cbn [chars lit map matches Ascii.N_of_ascii]. destruct (ceq x _); [|constructor]. cbn [map flat_map fst snd].
  rewrite app_nil_r. eapply (desc_flat (fun m : str * str => length (fst m))).
  - intros a b I. apply in_map_iff in I. destruct I as (m & <- & _). reflexivity.
  - apply (desc_lit (lit "smd-")). intros s'. apply desc_plus.
Qed.

Lemma desc_in {A} (f : A -> nat) l1 m l2 : desc f (l1 ++ m :: l2) ->
  forall m', In m' (l1 ++ m :: l2) -> f m < f m' -> In m' l1.
Proof.
  intros D m' I L. apply in_app_iff in I. destruct I as [I|[<-|I]]; [exact I|lia|].
  exfalso. induction l1 as [|a l1 IH]; cbn in D; inversion D as [|? ? D' F]; subst.
  - rewrite Forall_forall in F. specialize (F m' I). lia.
  - apply IH. exact D'.
Qed.

(** In [dep_regex] no other match of that length has a longer group. *)
Lemma search_group s p m : search dep_regex s = Some (p, m) ->
  forall s' m', s = p ++ s' -> fits dep_regex s' m' -> length (whole m') = length (whole m) ->
    length (inner m') <= length (inner m).
Proof.
  revert p m. induction s as [|x s IH]; intros p m E s' m' Es F Lw; cbn [search from_start dep_regex] in E.
  - destruct (longest (candidates dep_regex [])) as [m0|] eqn:L; [|discriminate E]. discriminate L.
  - destruct (longest (candidates dep_regex (x :: s))) as [m0|] eqn:L.
    + injection E as <- <-. cbn in Es. subst s'. apply candidates_in in F.
      destruct (longest_first _ _ L) as (l1 & l2 & El & H). rewrite El in F.
      pose proof (dep_desc (x :: s)) as D. rewrite El in D.
      destruct (Nat.le_gt_cases (length (inner m')) (length (inner m0))) as [|G]; [assumption|].
      pose proof (desc_in _ _ _ _ D m' F G) as I. specialize (H m' I). lia.
    + destruct (search dep_regex s) as [[p0 m0]|] eqn:S0; [|discriminate E]. injection E as <- <-.
      cbn in Es. injection Es as Es. apply (IH p0 m0 eq_refl s' m' Es F Lw).
Qed.

(** ** Replacements *)
Definition plain (v : str) : Prop := forallb (fun c => negb (mem_char c [c_amp; c_bslash; 47%N; c_nl])) v = true.

Lemma parts_plain a : plain a -> forall b, parts (a ++ b) = option_map (app (map Char a)) (parts b).
Proof.
  unfold plain. induction a as [|c a IH]; intros P b.
  - cbn. destruct (parts b); reflexivity.
  - cbn [forallb] in P. apply andb_true_iff in P. destruct P as [Pc Pa]. specialize (IH Pa b).
    unfold mem_char in Pc. cbn [existsb] in Pc. rewrite !orb_false_r in Pc.
    apply negb_true_iff in Pc. apply orb_false_iff in Pc. destruct Pc as [P1 Pc].
    apply orb_false_iff in Pc. destruct Pc as [P2 Pc]. apply orb_false_iff in Pc. destruct Pc as [P3 P4].
    unfold ceq in P3.
    cbn [app parts]. unfold ceq at 1. rewrite P3. unfold ceq in P4. rewrite P4. cbn [orb].
    rewrite P1, P2, IH. destruct (parts b); reflexivity.
Qed.

Lemma parts_chars a : plain a -> parts a = Some (map Char a).
Proof. intros P. rewrite <- (app_nil_r a) at 1. rewrite (parts_plain a P). cbn. rewrite app_nil_r. reflexivity. Qed.

Lemma plain_app a b : plain a -> plain b -> plain (a ++ b).
Proof. unfold plain. intros A B. rewrite forallb_app, A, B. reflexivity. Qed.

Lemma version_plain v : forallb version_char v = true -> plain v.
Proof.
  unfold plain. rewrite !forallb_forall. intros H c I. specialize (H c I).
  destruct (mem_char c [c_amp; c_bslash; 47%N; c_nl]) eqn:M; [|reflexivity].
  unfold mem_char in M. apply existsb_exists in M. destruct M as (d & Id & E). apply ceq_iff in E. subst d.
  cbn in Id. destruct Id as [<-|[<-|[<-|[<-|[]]]]]; discriminate H.
Qed.

Lemma put_chars m t : put m (map Char t) = t.
Proof. unfold put. induction t as [|c t IH]; [reflexivity|]. cbn. rewrite IH. reflexivity. Qed.

Lemma toml_parts v : plain v -> parts (toml_text v) = Some (map Char (toml_text v)).
Proof. intros P. apply parts_chars. unfold toml_text. apply plain_app; [reflexivity|]. apply plain_app; [exact P|reflexivity]. Qed.

Lemma json_parts v : plain v -> parts (json_text v) = Some (map Char (json_text v)).
Proof. intros P. apply parts_chars. unfold json_text. apply plain_app; [reflexivity|]. apply plain_app; [exact P|reflexivity]. Qed.

Definition dep_parts (v : str) : list part :=
  Char 34%N :: Group :: map Char (lit """: """ ++ v ++ lit """").

Lemma dep_parts_eq v : plain v -> parts (dep_text v) = Some (dep_parts v).
Proof.
  intros P. unfold dep_text, dep_parts.
  change (lit """\1"": """ ++ v ++ lit """") with (lit """" ++ c_bslash :: 49%N :: (lit """: """ ++ v ++ lit """")).
  rewrite (parts_plain (lit """")) by reflexivity.
  change (parts (c_bslash :: 49%N :: (lit """: """ ++ v ++ lit """"))) with
    (option_map (cons Group) (parts (lit """: """ ++ v ++ lit """"))).
  rewrite parts_chars; [reflexivity|]. apply plain_app; [reflexivity|]. apply plain_app; [exact P|reflexivity].
Qed.

Lemma put_dep m v : put m (dep_parts v) = c_quote :: inner m ++ lit """: """ ++ v ++ [c_quote].
Proof.
  unfold dep_parts, put. cbn [flat_map]. change (flat_map _ (map Char _)) with (put m (map Char (lit """: """ ++ v ++ lit """"))).
  rewrite put_chars. reflexivity.
Qed.

(** ** Lines of a Cargo.toml *)
Lemma toml_fits s m : fits toml_regex s m -> managed s /\ next m = [].
Proof.
  intros (a & c & W & E & Ma & Mb & Mc & T). specialize (T eq_refl). split; [|exact T].
  apply mt_none in Mb, Mc. rewrite T, app_nil_r in E. rewrite Mb, Mc, !app_nil_r in W.
  rewrite E, W. clear - Ma. cbn [before toml_regex] in Ma.
  apply mt_app in Ma. destruct Ma as (a1 & r1 & -> & M1 & Ma). apply mt_chars in M1. subst a1.
  apply mt_app in Ma. destruct Ma as (y & r2 & -> & _ & Ma).
  apply mt_app in Ma. destruct Ma as (a2 & r3 & -> & M2 & Ma). apply mt_chars in M2. subst a2.
  apply mt_app in Ma. destruct Ma as (a3 & r4 & -> & M3 & Ma). apply mt_chars in Ma. subst r4.
  apply mt_dot1 in M3. destruct M3 as [d ->]. exists y, d. reflexivity.
Qed.

Lemma managed_fits s : managed s -> fits toml_regex s {| whole := s; inner := []; next := [] |}.
Proof.
  intros (y & d & ->). eexists _, []. cbn [whole inner next]. rewrite !app_nil_r. split; [reflexivity|].
  split; [reflexivity|]. cbn [before group behind toml_regex to_end].
  split; [|repeat split; constructor].
  apply mt_app. eexists _, _. split; [reflexivity|]. split; [apply mt_chars; reflexivity|].
  apply mt_app. eexists _, _. split; [reflexivity|]. split; [apply mt_dots|].
  apply mt_app. eexists _, _. split; [reflexivity|]. split; [apply mt_chars; reflexivity|].
  apply mt_app. exists [d], (lit "sh"). split; [reflexivity|]. split; [apply mt_dot1; eexists; reflexivity|].
  apply mt_chars. reflexivity.
Qed.

Lemma toml_managed t s : managed s -> sed_line false toml_regex (map Char t) s = t.
Proof.
  intros M. unfold sed_line. assert (R : forall n, replace_in n false toml_regex (map Char t) s =
    match search toml_regex s with Some (p, m) => p ++ put m (map Char t) ++ next m | None => s end).
  { destruct n; cbn [replace_in]; destruct (search toml_regex s) as [[p m]|]; reflexivity. }
  rewrite R. destruct (search toml_regex s) as [[p m]|] eqn:E.
  - apply search_some in E. destruct E as [(s' & -> & F & _ & P) _]. rewrite (P eq_refl). cbn [app].
    apply toml_fits in F. destruct F as [_ ->]. rewrite put_chars, app_nil_r. reflexivity.
  - exfalso. eapply (search_none _ _ E [] s); [reflexivity|reflexivity|]. apply managed_fits. exact M.
Qed.

Lemma toml_other l s : ~ managed s -> sed_line false toml_regex l s = s.
Proof.
  intros M. unfold sed_line. destruct (search toml_regex s) as [[p m]|] eqn:E.
  - exfalso. apply M. apply search_some in E. destruct E as [(s' & -> & F & _ & P) _]. rewrite (P eq_refl). cbn [app].
    apply toml_fits in F. apply F.
  - destruct (length s); cbn [replace_in]; rewrite E; reflexivity.
Qed.

Lemma managed_dec s : {managed s} + {~ managed s}.
Proof.
  destruct (search toml_regex s) as [[p m]|] eqn:E.
  - left. apply search_some in E. destruct E as [(s' & -> & F & _ & P) _]. rewrite (P eq_refl). cbn [app].
    apply toml_fits in F. apply F.
  - right. intros M. eapply (search_none _ _ E [] s); [reflexivity|reflexivity|]. apply managed_fits. exact M.
Qed.

(** ** Lines of package.json: the version *)
Lemma json_fits s m : fits json_regex s m <->
  exists w, w <> [] /\ whole m = lit """version"": """ ++ w ++ [c_quote] /\ inner m = [] /\ s = whole m ++ next m.
Proof.
  split.
  - intros (a & c & W & E & Ma & Mb & Mc & _). apply mt_none in Mb, Mc. rewrite Mb, Mc, !app_nil_r in W.
    cbn [before json_regex] in Ma.
    apply mt_app in Ma. destruct Ma as (a1 & r1 & -> & M1 & Ma). apply mt_chars in M1. subst a1.
    apply mt_app in Ma. destruct Ma as (w & r2 & -> & Mw & Ma). apply mt_chars in Ma. subst r2.
    apply mt_plus in Mw. exists w. repeat split; assumption.
  - intros (w & Nw & W & I & E). exists (whole m), []. rewrite I. cbn [app]. rewrite app_nil_r.
    split; [reflexivity|]. split; [exact E|]. cbn [before group behind to_end json_regex].
    split; [|repeat split; try constructor; discriminate]. rewrite W.
    apply mt_app. eexists _, _. split; [reflexivity|]. split; [apply mt_chars; reflexivity|].
    apply mt_app. eexists _, _. split; [reflexivity|]. split; [apply mt_plus; exact Nw|].
    apply mt_chars. reflexivity.
Qed.

Lemma quote_split q : no_quote q \/ exists a b, q = a ++ c_quote :: b /\ no_quote b.
Proof.
  induction q as [|x q IH]; [left; intros []|].
  destruct IH as [N0|(a & b & -> & N0)].
  - destruct (N.eq_dec x c_quote) as [->|D].
    + right. exists [], q. split; [reflexivity|exact N0].
    + left. intros [E|I]; [exact (D E)|exact (N0 I)].
  - right. exists (x :: a), b. split; [reflexivity|exact N0].
Qed.

Lemma last_quote a b c d : a ++ c_quote :: b = c ++ c_quote :: d -> no_quote b -> no_quote d -> a = c /\ b = d.
Proof.
  revert c. induction a as [|x a IH]; intros c E Nb Nd; destruct c as [|y c]; cbn in E.
  - injection E as ->. split; reflexivity.
  - injection E as _ ->. exfalso. apply Nb. apply in_app_iff. right. left. reflexivity.
  - injection E as _ <-. exfalso. apply Nd. apply in_app_iff. right. left. reflexivity.
  - injection E as <- E. destruct (IH c E Nb Nd) as [-> ->]. split; reflexivity.
Qed.

Lemma app_len_inj {A} (a b c d : list A) : a ++ b = c ++ d -> length a = length c -> a = c /\ b = d.
Proof.
  revert c. induction a as [|x a IH]; intros c E L; destruct c as [|y c]; try discriminate L.
  - split; [reflexivity|exact E].
  - cbn in E. injection E as <- E. injection L as L. destruct (IH c E L) as [-> ->]. split; reflexivity.
Qed.

Lemma app_len_le {A} (a b c d : list A) : a ++ b = c ++ d -> length a <= length c -> exists t, c = a ++ t /\ b = t ++ d.
Proof.
  revert c. induction a as [|x a IH]; intros c E L.
  - exists c. split; [reflexivity|exact E].
  - destruct c as [|y c]; [cbn in L; lia|]. cbn in E. injection E as <- E. cbn in L.
    destruct (IH c E ltac:(lia)) as (t & -> & ->). exists t. split; reflexivity.
Qed.

Lemma json_found l p m : search json_regex l = Some (p, m) ->
  exists w, first_version l p w (next m).
Proof.
  intros E. apply search_some in E. destruct E as [(s' & -> & F & M & _) L].
  apply json_fits in F. destruct F as (w & Nw & W & I & ->). exists w. split; [|split].
  - split; [|exact Nw]. rewrite W, <- !app_assoc. reflexivity.
  - destruct (quote_split (next m)) as [H|(a & b & Eq & Nb)]; [exact H|]. exfalso.
    specialize (M {| whole := lit """version"": """ ++ (w ++ c_quote :: a) ++ [c_quote]; inner := []; next := b |}).
    cbn [whole] in M. rewrite W in M. enough (H : False) by exact H.
    assert (Le : length (lit """version"": """ ++ (w ++ c_quote :: a) ++ [c_quote]) <=
                 length (lit """version"": """ ++ w ++ [c_quote])).
    { apply M. apply json_fits. exists (w ++ c_quote :: a). cbn [whole inner next].
      split; [destruct w; discriminate|]. split; [reflexivity|]. split; [reflexivity|].
      rewrite Eq, <- !app_assoc. cbn [app]. reflexivity. }
    rewrite !app_length in Le. cbn [length] in Le. lia.
  - intros p' w' q' [E' Nw']. apply (L p' (lit """version"": """ ++ w' ++ c_quote :: q')
      {| whole := lit """version"": """ ++ w' ++ [c_quote]; inner := []; next := q' |}); [exact E'|].
    apply json_fits. exists w'. cbn [whole inner next]. repeat split; [exact Nw'|].
    rewrite <- !app_assoc. reflexivity.
Qed.

Lemma json_no l : search json_regex l = None -> forall p w q, ~ has_version l p w q.
Proof.
  intros E p w q [E' Nw]. apply (search_none _ _ E p (lit """version"": """ ++ w ++ c_quote :: q)
      {| whole := lit """version"": """ ++ w ++ [c_quote]; inner := []; next := q |}); [exact E'|discriminate|].
  apply json_fits. exists w. cbn [whole inner next]. repeat split; [exact Nw|]. rewrite <- !app_assoc. reflexivity.
Qed.

Lemma first_version_unique l p w q p' w' q' : first_version l p w q -> first_version l p' w' q' -> p = p' /\ w = w' /\ q = q'.
Proof.
  intros (H & Nq & M) (H' & Nq' & M'). pose proof (M _ _ _ H') as L1. pose proof (M' _ _ _ H) as L2.
  destruct H as [E _], H' as [E' _]. rewrite E in E'.
  destruct (app_len_inj _ _ _ _ E' (Nat.le_antisymm _ _ L1 L2)) as [-> E2]. split; [reflexivity|].
  apply app_inv_head in E2. apply last_quote in E2; assumption.
Qed.

Definition json_line (v l : str) : str := sed_line false json_regex (map Char (json_text v)) l.

Lemma json_line_eq v l : json_line v l =
  match search json_regex l with Some (p, m) => p ++ json_text v ++ next m | None => l end.
Proof.
  unfold json_line, sed_line. destruct (length l); cbn [replace_in];
    destruct (search json_regex l) as [[p m]|]; rewrite ?put_chars; reflexivity.
Qed.

Lemma json_version v l p w q : first_version l p w q -> json_line v l = p ++ json_text v ++ q.
Proof.
  intros F. rewrite json_line_eq. destruct (search json_regex l) as [[p0 m]|] eqn:E.
  - apply json_found in E. destruct E as (w0 & F0). destruct (first_version_unique _ _ _ _ _ _ _ F F0) as (-> & _ & ->).
    reflexivity.
  - exfalso. apply (json_no l E p w q). apply F.
Qed.

Lemma json_other v l : (forall p w q, ~ has_version l p w q) -> json_line v l = l.
Proof.
  intros N0. rewrite json_line_eq. destruct (search json_regex l) as [[p0 m]|] eqn:E; [|reflexivity].
  exfalso. apply json_found in E. destruct E as (w0 & F0 & _). exact (N0 _ _ _ F0).
Qed.

Lemma version_cases l : (exists p w q, first_version l p w q) \/ (forall p w q, ~ has_version l p w q).
Proof.
  destruct (search json_regex l) as [[p0 m]|] eqn:E.
  - left. apply json_found in E. destruct E as (w0 & F0). eauto.
  - right. apply json_no. exact E.
Qed.

(** ** Lines of package.json: the packages *)
Lemma dep_fits s m : fits dep_regex s m <->
  exists g w, g <> [] /\ w <> [] /\ inner m = lit "smd-" ++ g /\
    whole m = lit """smd-" ++ g ++ lit """: """ ++ w ++ [c_quote] /\ s = whole m ++ next m.
Proof.
  split.
  - intros (a & c & W & E & Ma & Mb & Mc & _). cbn [before group behind dep_regex] in Ma, Mb, Mc.
    apply mt_chars in Ma. subst a.
    apply mt_app in Mb. destruct Mb as (b1 & g & Eb & M1 & Mg). apply mt_chars in M1. subst b1. apply mt_plus in Mg.
    apply mt_app in Mc. destruct Mc as (c1 & r1 & -> & M1 & Mc). apply mt_chars in M1. subst c1.
    apply mt_app in Mc. destruct Mc as (w & r2 & -> & Mw & Mc). apply mt_chars in Mc. subst r2. apply mt_plus in Mw.
    exists g, w. repeat split; try assumption. rewrite W, Eb, <- !app_assoc. reflexivity.
  - intros (g & w & Ng & Nw & I & W & E). exists (lit """"), (lit """: """ ++ w ++ [c_quote]).
    cbn [before group behind dep_regex to_end]. split; [rewrite W, I, <- !app_assoc; reflexivity|].
    split; [exact E|]. split; [apply mt_chars; reflexivity|]. rewrite I. split; [|split; [|discriminate]].
    + apply mt_app. eexists _, _. split; [reflexivity|]. split; [apply mt_chars; reflexivity|apply mt_plus; exact Ng].
    + apply mt_app. eexists _, _. split; [reflexivity|]. split; [apply mt_chars; reflexivity|].
      apply mt_app. eexists _, _. split; [reflexivity|]. split; [apply mt_plus; exact Nw|apply mt_chars; reflexivity].
Qed.

Definition dep_found_of (g w q : str) : found :=
  {| whole := lit """smd-" ++ g ++ lit """: """ ++ w ++ [c_quote]; inner := lit "smd-" ++ g; next := q |}.

Lemma dep_found_fits g w q : g <> [] -> w <> [] ->
  fits dep_regex (lit """smd-" ++ g ++ lit """: """ ++ w ++ c_quote :: q) (dep_found_of g w q).
Proof.
  intros Ng Nw. apply dep_fits. exists g, w. repeat split; try assumption. cbn [whole next dep_found_of].
  rewrite <- !app_assoc. reflexivity.
Qed.

Lemma dep_found l p m : search dep_regex l = Some (p, m) ->
  exists g w, first_dependency l p g w (next m) /\ inner m = lit "smd-" ++ g.
Proof.
  intros E0. pose proof (search_group _ _ _ E0) as G. apply search_some in E0.
  destruct E0 as [(s' & -> & F & M & _) L].
  apply dep_fits in F. destruct F as (g & w & Ng & Nw & I & W & ->). exists g, w. split; [|exact I].
  split; [|split; [|split]].
  - split; [|split; assumption]. rewrite W, <- !app_assoc. reflexivity.
  - destruct (quote_split (next m)) as [H|(a & b & Eq & Nb)]; [exact H|]. exfalso.
    assert (Le : length (whole (dep_found_of g (w ++ c_quote :: a) b)) <= length (whole m)).
    { apply M. rewrite W, Eq.
      replace ((lit """smd-" ++ g ++ lit """: """ ++ w ++ [c_quote]) ++ a ++ c_quote :: b) with
        (lit """smd-" ++ g ++ lit """: """ ++ (w ++ c_quote :: a) ++ c_quote :: b)
        by (rewrite <- !app_assoc; cbn [app]; reflexivity).
      apply dep_found_fits; [exact Ng|destruct w; discriminate]. }
    rewrite W in Le. cbn [whole dep_found_of] in Le. rewrite !app_length in Le. cbn [length] in Le. lia.
  - intros p' g' w' q' (E' & Ng' & Nw'). apply (L p' _ (dep_found_of g' w' q') E'). apply dep_found_fits; assumption.
  - intros g' w' (E' & Ng' & Nw'). apply app_inv_head in E'.
    specialize (G _ (dep_found_of g' w' (next m)) eq_refl).
    assert (Lw : length (whole (dep_found_of g' w' (next m))) = length (whole m)).
    { apply (f_equal (@length char)) in E'. rewrite W in *. cbn [whole dep_found_of].
      rewrite !app_length in *. cbn [length] in *. lia. }
    rewrite E' in G. specialize (G (dep_found_fits g' w' (next m) Ng' Nw') Lw).
    rewrite I in G. cbn [inner dep_found_of] in G. rewrite !app_length in G. lia.
Qed.

Lemma dep_no l : search dep_regex l = None -> forall p g w q, ~ has_dependency l p g w q.
Proof.
  intros E p g w q (E' & Ng & Nw). apply (search_none _ _ E p _ (dep_found_of g w q) E'); [discriminate|].
  apply dep_found_fits; assumption.
Qed.

Lemma first_dependency_unique l p g w q p' g' w' q' :
  first_dependency l p g w q -> first_dependency l p' g' w' q' -> p = p' /\ g = g' /\ w = w' /\ q = q'.
Proof.
  intros (H & Nq & M & G) (H' & Nq' & M' & G'). pose proof (M _ _ _ _ H') as L1. pose proof (M' _ _ _ _ H) as L2.
  assert (p = p').
  { destruct H as [E _], H' as [E' _]. rewrite E in E'.
    destruct (app_len_inj _ _ _ _ E' (Nat.le_antisymm _ _ L1 L2)) as [A _]. exact A. }
  subst p'. split; [reflexivity|].
  assert (q = q').
  { destruct H as [E _], H' as [E' _]. rewrite E in E'. apply app_inv_head in E'. apply app_inv_head in E'.
    rewrite !app_assoc in E'. apply last_quote in E'; [apply E'|assumption|assumption]. }
  subst q'. pose proof (G _ _ H') as L3. pose proof (G' _ _ H) as L4.
  destruct H as [E _], H' as [E' _]. rewrite E in E'. apply app_inv_head in E'. apply app_inv_head in E'.
  destruct (app_len_inj _ _ _ _ E' (Nat.le_antisymm _ _ L4 L3)) as [-> E2]. split; [reflexivity|].
  apply app_inv_head in E2. apply last_quote in E2; [|assumption|assumption]. split; apply E2 || reflexivity.
Qed.

Lemma no_quote_dependency q : no_quote q -> forall p g w q', ~ has_dependency q p g w q'.
Proof.
  intros N0 p g w q' (E & _ & _). apply N0. rewrite E. apply in_app_iff. right. left. reflexivity.
Qed.

Definition dep_line (v l : str) : str := sed_line true dep_regex (dep_parts v) l.

Lemma dep_line_eq v l : dep_line v l =
  match search dep_regex l with
  | Some (p, m) => p ++ c_quote :: inner m ++ lit """: """ ++ v ++ c_quote :: next m
  | None => l
  end.
Proof.
  unfold dep_line, sed_line.
  assert (R : forall n, replace_in n true dep_regex (dep_parts v) l =
     match search dep_regex l with
     | Some (p, m) => p ++ put m (dep_parts v) ++ next m
     | None => l
     end).
  { intros n. destruct n; cbn [replace_in]; destruct (search dep_regex l) as [[p m]|] eqn:E; try reflexivity.
    f_equal. f_equal. apply dep_found in E. destruct E as (g & w & (_ & Nq & _) & _).
    destruct n; cbn [replace_in]; destruct (search dep_regex (next m)) as [[p1 m1]|] eqn:E1; try reflexivity;
      exfalso; apply dep_found in E1; destruct E1 as (g1 & w1 & (H1 & _) & _);
      exact (no_quote_dependency _ Nq _ _ _ _ H1). }
  rewrite R. destruct (search dep_regex l) as [[p m]|]; [|reflexivity].
  rewrite put_dep. cbn [app]. rewrite <- !app_assoc. cbn [app]. reflexivity.
Qed.

Lemma dep_dependency v l p g w q : first_dependency l p g w q ->
  dep_line v l = p ++ lit """smd-" ++ g ++ lit """: """ ++ v ++ c_quote :: q.
Proof.
  intros F. rewrite dep_line_eq. destruct (search dep_regex l) as [[p0 m]|] eqn:E.
  - apply dep_found in E. destruct E as (g0 & w0 & F0 & I).
    destruct (first_dependency_unique _ _ _ _ _ _ _ _ _ F F0) as (-> & -> & _ & ->). rewrite I.
    rewrite <- (app_assoc (lit "smd-")). reflexivity.
  - exfalso. apply (dep_no l E p g w q). apply F.
Qed.

Lemma dep_other v l : (forall p g w q, ~ has_dependency l p g w q) -> dep_line v l = l.
Proof.
  intros N0. rewrite dep_line_eq. destruct (search dep_regex l) as [[p0 m]|] eqn:E; [|reflexivity].
  exfalso. apply dep_found in E. destruct E as (g0 & w0 & (F0 & _) & _). exact (N0 _ _ _ _ F0).
Qed.

Lemma dependency_cases l : (exists p g w q, first_dependency l p g w q) \/ (forall p g w q, ~ has_dependency l p g w q).
Proof.
  destruct (search dep_regex l) as [[p0 m]|] eqn:E.
  - left. apply dep_found in E. destruct E as (g & w & F0 & _). eauto.
  - right. apply dep_no. exact E.
Qed.

(** ** A release after a release *)
Lemma version_no_quote v : version_text v -> no_quote v.
Proof.
  intros [_ H] I. rewrite forallb_forall in H. specialize (H _ I). discriminate H.
Qed.

Lemma version_first x v c : version_text v -> x :: c = v -> version_char x = true.
Proof. intros [_ H] <-. cbn [forallb] in H. apply andb_true_iff in H. apply H. Qed.

Lemma first_version_again l p w q x : first_version l p w q -> version_text x ->
  first_version (p ++ json_text x ++ q) p x q.
Proof.
  intros ((E & Nw) & Nq & M) V. split; [|split].
  - split; [|apply V]. unfold json_text. rewrite <- !app_assoc. reflexivity.
  - exact Nq.
  - intros p' w' q' [E' Nw']. destruct (Nat.le_gt_cases (length p) (length p')) as [|G]; [assumption|].
    exfalso. unfold json_text in E'. rewrite <- !app_assoc in E'.
    assert (P : exists t, p ++ lit """version"": """ = (p' ++ lit """version"": """) ++ t /\ t <> []).
    { symmetry in E'. rewrite (app_assoc p), (app_assoc p') in E'.
      destruct (app_len_le _ _ _ _ E') as (t & Et & _).
      - rewrite !app_length. lia.
      - exists t. split; [exact Et|]. intros ->. apply (f_equal (@length char)) in Et.
        rewrite !app_length in Et. cbn [length] in Et. lia. }
    destruct P as (t & Et & Nt).
    assert (H : has_version l p' (t ++ w) q).
    { split; [|destruct t; [congruence|discriminate]]. rewrite E, (app_assoc p), Et, <- !app_assoc. reflexivity. }
    apply M in H. lia.
Qed.

Lemma json_again l x y : version_text x -> json_line y (json_line x l) = json_line y l.
Proof.
  intros V. destruct (version_cases l) as [(p & w & q & F)|N0].
  - rewrite (json_version x l p w q F). rewrite (json_version y _ p x q (first_version_again _ _ _ _ _ F V)).
    symmetry. apply (json_version y l p w q F).
  - rewrite (json_other x l N0). reflexivity.
Qed.

(** Behind the last [": "] with a version. *)
Lemma colon_last u x q u2 w q2 : version_text x -> no_quote q -> no_quote q2 ->
  u ++ lit """: """ ++ x ++ c_quote :: q = u2 ++ lit """: """ ++ w ++ c_quote :: q2 -> w <> [] -> length u2 <= length u /\ q = q2.
Proof.
  intros V Nq Nq2 E Nw.
  assert (Eq : q = q2 /\ u ++ lit """: """ ++ x = u2 ++ lit """: """ ++ w).
  { rewrite !app_assoc in E. apply last_quote in E; [|assumption|assumption]. rewrite <- !app_assoc in E.
    split; apply E. }
  destruct Eq as [Eq E2]. split; [|exact Eq].
  destruct (Nat.le_gt_cases (length u2) (length u)) as [|G]; [assumption|]. exfalso.
  destruct (app_len_le _ _ _ _ E2 ltac:(lia)) as (t & -> & E3).
  assert (Nt : t <> []) by (intros ->; rewrite app_nil_r in G; lia).
  destruct t as [|t0 t]; [congruence|]. cbn [lit app] in E3. injection E3 as _ E3.
  destruct t as [|t1 t]; cbn [app] in E3; [discriminate E3|]. injection E3 as _ E3.
  destruct t as [|t2 t]; cbn [app] in E3; [discriminate E3|]. injection E3 as _ E3.
  destruct t as [|t3 t]; cbn [app] in E3.
  - injection E3 as E3. pose proof (version_first _ _ _ V (eq_sym E3)) as C. discriminate C.
  - injection E3 as _ E3. apply (version_no_quote x V). rewrite E3. apply in_app_iff. right. left. reflexivity.
Qed.

Lemma first_dependency_again l p g w q x : first_dependency l p g w q -> version_text x ->
  first_dependency (p ++ lit """smd-" ++ g ++ lit """: """ ++ x ++ c_quote :: q) p g x q.
Proof.
  intros ((E & Ng & Nw) & Nq & M & G) V. split; [|split; [|split]].
  - repeat split; [exact Ng|apply V].
  - exact Nq.
  - intros p' g' w' q' (E' & Ng' & Nw'). destruct (Nat.le_gt_cases (length p) (length p')) as [|L]; [assumption|].
    exfalso.
    assert (P : exists t, p ++ lit """smd-" ++ g = (p' ++ lit """smd-") ++ t /\ t <> []).
    { symmetry in E'. rewrite (app_assoc p' (lit """smd-")) in E'.
      rewrite (app_assoc p), (app_assoc (p ++ lit """smd-") g) in E'.
      destruct (app_len_le _ _ _ _ E') as (t & Et & _).
      - rewrite !app_length. lia.
      - exists t. rewrite <- (app_assoc p) in Et. split; [exact Et|]. intros ->. apply (f_equal (@length char)) in Et.
        rewrite !app_length in Et. cbn [length] in Et. destruct g; [congruence|]. cbn [length] in Et. lia. }
    destruct P as (t & Et & Nt).
    assert (H : has_dependency l p' t w q).
    { repeat split; [|exact Nt|exact Nw]. rewrite E.
      rewrite (app_assoc (lit """smd-") g), (app_assoc p), Et, <- !app_assoc. reflexivity. }
    apply M in H. lia.
  - intros g' w' (E' & Ng' & Nw'). apply app_inv_head in E'. apply app_inv_head in E'.
    destruct (colon_last g x q g' w' q V Nq Nq E' Nw') as [L _]. exact L.
Qed.

Lemma dep_again l x y : version_text x -> dep_line y (dep_line x l) = dep_line y l.
Proof.
  intros V. destruct (dependency_cases l) as [(p & g & w & q & F)|N0].
  - rewrite (dep_dependency x l p g w q F). rewrite (dep_dependency y _ p g x q (first_dependency_again _ _ _ _ _ _ F V)).
    symmetry. apply (dep_dependency y l p g w q F).
  - rewrite (dep_other x l N0). reflexivity.
Qed.

(** A line with a version keeps it. *)
Lemma dep_keeps_version l p w q x : first_version l p w q -> version_text x ->
  dep_line x (p ++ json_text x ++ q) = p ++ json_text x ++ q.
Proof.
  intros (_ & Nq & _) V. set (l' := p ++ json_text x ++ q).
  assert (El : l' = (p ++ lit """version") ++ lit """: """ ++ x ++ c_quote :: q).
  { unfold l', json_text. rewrite <- !app_assoc. reflexivity. }
  destruct (dependency_cases l') as [(p2 & g & w2 & q2 & F)|N0]; [|apply dep_other; exact N0].
  rewrite (dep_dependency x l' p2 g w2 q2 F). destruct F as ((E & Ng & Nw) & Nq2 & _ & G).
  assert (E2 : (p ++ lit """version") ++ lit """: """ ++ x ++ c_quote :: q =
               (p2 ++ lit """smd-" ++ g) ++ lit """: """ ++ w2 ++ c_quote :: q2).
  { rewrite <- El, E, <- !app_assoc. reflexivity. }
  destruct (colon_last _ _ _ _ _ _ V Nq Nq2 E2 Nw) as [L <-].
  symmetry in E2. destruct (app_len_le _ _ _ _ E2 L) as (t & Et & E3).
  destruct t as [|t0 t].
  - cbn [app] in E3. apply app_inv_head in E3. apply last_quote in E3; [|assumption|assumption].
    destruct E3 as [-> _]. symmetry. exact E.
  - exfalso. assert (H : has_dependency l' p2 (g ++ t0 :: t) x q).
    { repeat split; [|destruct g; [congruence|discriminate]|apply V].
      rewrite El, Et, <- !app_assoc. reflexivity. }
    apply G in H. rewrite app_length in H. cbn [length] in H. lia.
Qed.

(** A line without a version gets none. *)
Lemma dep_adds_no_version l x : version_text x -> (forall p w q, ~ has_version l p w q) ->
  forall p w q, ~ has_version (dep_line x l) p w q.
Proof.
  intros V N0 p w q H. destruct (dependency_cases l) as [(p2 & g & w2 & q2 & F)|N1].
  2: { rewrite (dep_other x l N1) in H. exact (N0 _ _ _ H). }
  rewrite (dep_dependency x l p2 g w2 q2 F) in H. destruct F as ((E & Ng & Nw) & Nq & _ & _).
  destruct H as [E' Nw'].
  set (u := p2 ++ lit """smd-" ++ g) in *.
  assert (E1 : (u ++ lit """: """) ++ x ++ c_quote :: q2 = (p ++ lit """version"": """) ++ w ++ c_quote :: q).
  { unfold u. rewrite <- !app_assoc. exact E'. }
  assert (E0 : l = (u ++ lit """: """) ++ w2 ++ c_quote :: q2).
  { unfold u. rewrite <- !app_assoc. exact E. }
  destruct (Nat.le_gt_cases (length (p ++ lit """version"": """)) (length (u ++ lit """: """))) as [L|L].
  - symmetry in E1. destruct (app_len_le _ _ _ _ E1 L) as (t & Et & _).
    apply (N0 p (t ++ w2) q2). split; [|destruct t; [exact Nw|discriminate]].
    rewrite E0, Et, <- !app_assoc. reflexivity.
  - destruct (app_len_le _ _ _ _ E1 ltac:(lia)) as (t & Et & E2).
    assert (Nt : t <> []). { intros ->. rewrite app_nil_r in Et. rewrite Et in L. lia. }
    (* the last char of the name of the key is a quote and the one before it a space *)
    destruct (Nat.le_gt_cases (length t) (length x)) as [Lt|Lt].
    + symmetry in E2. destruct (app_len_le _ _ _ _ E2 Lt) as (t2 & Ex & _).
      destruct (exists_last Nt) as (t' & z & Ez). rewrite Ez in Et.
      assert (z = c_quote).
      { rewrite app_assoc in Et. change (lit """version"": """) with (lit """version"": " ++ [c_quote]) in Et.
        rewrite (app_assoc p) in Et. apply app_inj_tail in Et. symmetry. apply Et. }
      subst z. apply (version_no_quote x V). rewrite Ex, Ez. apply in_app_iff. left. apply in_app_iff. right. left. reflexivity.
    + destruct (app_len_le _ _ _ _ E2 ltac:(lia)) as (t2 & Ex & E3).
      assert (N2 : t2 <> []). { intros ->. rewrite app_nil_r in Ex. rewrite Ex in Lt. lia. }
      destruct t2 as [|z t2]; [congruence|]. cbn [app] in E3. injection E3 as <- E3.
      assert (t2 = []).
      { destruct t2 as [|z t2] using rev_ind; [reflexivity|]. exfalso. apply Nq. rewrite E3.
        apply in_app_iff. right. apply in_app_iff. right. left. reflexivity. }
      subst t2. cbn [app] in E3. apply Nq. rewrite E3. apply in_app_iff. right. left. reflexivity.
Qed.

Definition package_line (v l : str) : str := dep_line v (json_line v l).

Lemma package_again l x y : version_text x -> version_text y ->
  package_line y (package_line x l) = package_line y l.
Proof.
  intros V W. unfold package_line. destruct (version_cases l) as [(p & w & q & F)|N0].
  - rewrite (json_version x l p w q F), (dep_keeps_version l p w q x F V).
    rewrite (json_version y _ p x q (first_version_again _ _ _ _ _ F V)), (json_version y l p w q F). reflexivity.
  - rewrite (json_other x l N0), (json_other y _ (dep_adds_no_version l x V N0)), (json_other y l N0).
    apply dep_again. exact V.
Qed.
