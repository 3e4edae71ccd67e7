(** * UrlFacts: when the browser opens the file that was written. *)
From Coq Require Import Ascii String.
From Verif Require Import Strings StringsFacts Utf8 System Args Config Url Cli SpecCli.
Open Scope list_scope.

(** ** Sizes *)

Lemma filter_length_le {A} (g : A -> bool) l : length (filter g l) <= length l.
Proof. induction l as [|a l IH]; [apply Nat.le_refl|]. cbn [filter]. destruct (g a); cbn [length]; lia. Qed.

Definition total (p : list str) : nat := length (concat p).
Lemma total_cons a p : total (a :: p) = length a + total p.
Proof. unfold total. cbn [concat]. apply app_length. Qed.
Lemma total_app a b : total (a ++ b) = total a + total b.
Proof. unfold total. rewrite concat_app. apply app_length. Qed.
Lemma total_rev a : total (rev a) = total a.
Proof.
  induction a as [|x a IH]; [reflexivity|]. cbn [rev]. rewrite total_app, IH, !total_cons. cbn. lia.
Qed.

(** ** The text of the url *)

Definition slashed (p : path) : str := flat_map (fun n => lit "/" ++ n) p.
Lemma display_slashed p : p <> [] -> display p = slashed p.
Proof. destruct p; [congruence|reflexivity]. Qed.
Lemma slashed_app a b : slashed (a ++ b) = slashed a ++ slashed b.
Proof. apply flat_map_app. Qed.
Lemma slashed_cons n p : slashed (n :: p) = c_slash :: n ++ slashed p.
Proof. reflexivity. Qed.

Lemma slashed_one n : slashed [n] = c_slash :: n.
Proof. rewrite slashed_cons. cbn [slashed flat_map]. rewrite app_nil_r. reflexivity. Qed.

Lemma strip_control_id a s z : is_control a = false -> is_control z = false ->
  strip_control (a :: s ++ [z]) = a :: s ++ [z].
Proof.
  intros Ha Hz. unfold strip_control. cbn [skip_control]. rewrite Ha.
  cbn [rev]. rewrite rev_app_distr. cbn [rev app skip_control]. rewrite Hz.
  cbn [rev]. rewrite rev_app_distr, rev_involutive. reflexivity.
Qed.

Definition brk (c : char) : bool := negb (mem_char c breaks).
Lemma without_app a b : without_breaks (a ++ b) = without_breaks a ++ without_breaks b.
Proof. apply filter_app. Qed.
Lemma without_slashed p : without_breaks (slashed p) = slashed (map without_breaks p).
Proof.
  induction p as [|n p IH]; [reflexivity|]. rewrite slashed_cons. cbn [map]. rewrite slashed_cons, <- IH, <- without_app.
  reflexivity.
Qed.
Lemma without_length n : length (without_breaks n) <= length n.
Proof. apply filter_length_le. Qed.
Lemma without_same n : length (without_breaks n) = length n -> without_breaks n = n.
Proof.
  unfold without_breaks. induction n as [|c n IH]; [reflexivity|]. cbn [filter].
  destruct (negb (mem_char c breaks)); cbn [length].
  - intros E. f_equal. apply IH. lia.
  - intros E. pose proof (filter_length_le (fun c => negb (mem_char c breaks)) n). lia.
Qed.
Lemma without_id n : without_breaks n = n <-> (forall c, In c breaks -> ~ In c n).
Proof.
  unfold without_breaks. split.
  - intros E c Hc Hn. rewrite <- E in Hn. apply filter_In in Hn. destruct Hn as [_ Hn].
    apply mem_char_iff in Hc. rewrite Hc in Hn. discriminate.
  - intros H. induction n as [|c n IH]; [reflexivity|]. cbn [filter].
    destruct (mem_char c breaks) eqn:M.
    + apply mem_char_iff in M. destruct (H c M). left. reflexivity.
    + cbn [negb]. f_equal. apply IH. intros x Hx K. apply (H x Hx). right. exact K.
Qed.
Lemma without_total p : total (map without_breaks p) <= total p.
Proof.
  induction p as [|n p IH]; [apply Nat.le_refl|]. cbn [map]. rewrite !total_cons.
  pose proof (without_length n). lia.
Qed.
Lemma without_total_same p : total (map without_breaks p) = total p -> map without_breaks p = p.
Proof.
  induction p as [|n p IH]; [reflexivity|]. cbn [map]. rewrite !total_cons. intros E.
  pose proof (without_length n). pose proof (without_total p). f_equal; [apply without_same|apply IH]; lia.
Qed.

Definition rest_of (p : path) : str := tl (slashed p).

(** The file behind the url of a path that ends with a character that is not dropped. *)
Lemma visited_segments p z : is_control z = false -> (exists q, p = q ++ [z :: nil] \/ exists n, p = q ++ [n ++ [z]]) ->
  visited p = all_names (filter (fun x => negb (is_empty x)) (normal [] (segments (rest_of (map without_breaks p))))).
Proof.
  intros Hz (q & H). unfold visited, url_path.
  assert (E : exists s, lit "file://" ++ display p = 102%N :: s ++ [z]).
  { assert (P : p <> []) by (destruct H as [->|[n ->]]; intros K; apply app_eq_nil in K; destruct K; discriminate).
    rewrite (display_slashed p P). destruct H as [->|[n ->]]; rewrite slashed_app;
      cbn [slashed flat_map]; rewrite app_nil_r.
    - exists (lit "ile://" ++ slashed q ++ lit "/"). rewrite <- !app_assoc. reflexivity.
    - exists (lit "ile://" ++ slashed q ++ lit "/" ++ n). rewrite <- !app_assoc. reflexivity. }
  destruct E as [s E].
  assert (K : strip_control (lit "file://" ++ display p) = lit "file://" ++ display p).
  { rewrite E. apply strip_control_id; [reflexivity|exact Hz]. }
  rewrite K. clear K E s.
  rewrite without_app. change (without_breaks (lit "file://")) with (lit "file://").
  rewrite strip_prefix_app.
  assert (P : p <> []) by (destruct H as [->|[n ->]]; intros K; apply app_eq_nil in K; destruct K; discriminate).
  rewrite (display_slashed p P), without_slashed. unfold rest_of.
  destruct p as [|n p]; [congruence|]. cbn [map]. rewrite slashed_cons. reflexivity.
Qed.

(** ** Segments *)

Lemma segments_nonempty s : segments s <> [].
Proof.
  destruct s as [|c s]; cbn [segments]; [discriminate|]. destruct (ends_path c); [discriminate|].
  destruct (separates c); [discriminate|]. destruct (segments s); discriminate.
Qed.

Definition ordinary (c : char) : Prop := ends_path c = false /\ c <> c_bslash.
Definition wordy (c : char) : Prop := ends_path c = false /\ separates c = false.

Lemma wordy_of c : ordinary c -> c <> c_slash -> wordy c.
Proof.
  intros [E B] S. split; [exact E|]. unfold separates. cbn [mem_char existsb].
  apply ceq_neq in B, S. rewrite B, S. reflexivity.
Qed.

Lemma segments_word n s : Forall wordy n ->
  segments (n ++ s) = match segments s with seg :: segs => (n ++ seg) :: segs | [] => [n] end.
Proof.
  intros F. induction F as [|c n [E S] F IH]; cbn [app].
  - pose proof (segments_nonempty s). destruct (segments s); [congruence|reflexivity].
  - cbn [segments]. rewrite E, S, IH. pose proof (segments_nonempty s). destruct (segments s); [congruence|reflexivity].
Qed.

Lemma segments_names n p : Forall (Forall wordy) (n :: p) -> segments (rest_of (n :: p)) = n :: p.
Proof.
  unfold rest_of. rewrite slashed_cons. cbn [tl]. revert n. induction p as [|m p IH]; intros n F; inversion_clear F.
  - rewrite segments_word by assumption. cbn. rewrite app_nil_r. reflexivity.
  - rewrite segments_word by assumption. rewrite slashed_cons.
    change (segments (c_slash :: m ++ slashed p)) with ([] :: segments (m ++ slashed p)).
    cbv iota beta. rewrite IH by assumption. rewrite app_nil_r. reflexivity.
Qed.

Definition unslash (s : str) : str := filter (fun c => negb (ceq c c_slash)) s.
Lemma unslash_slashed p : Forall (fun n => ~ In c_slash n) p -> unslash (slashed p) = concat p.
Proof.
  intros F. induction F as [|n p N F IH]; [reflexivity|]. rewrite slashed_cons. cbn [concat].
  unfold unslash in *. cbn [filter]. change (ceq c_slash c_slash) with true. cbn [negb].
  rewrite filter_app, IH. f_equal. clear -N. induction n as [|c n IH]; [reflexivity|]. cbn [filter].
  destruct (ceq c c_slash) eqn:E; [apply ceq_eq in E; subst; destruct N; left; reflexivity|].
  cbn [negb]. f_equal. apply IH. intros K. apply N. right. exact K.
Qed.

Lemma segments_total s : total (segments s) <= length (unslash s).
Proof.
  induction s as [|c s IH]; [apply Nat.le_refl|]. cbn [segments unslash filter].
  fold (unslash s).
  destruct (ends_path c); [cbn; lia|]. destruct (ceq c c_slash) eqn:Es.
  - apply ceq_eq in Es. subst c. cbn [negb]. change (separates c_slash) with true.
    cbv iota. rewrite total_cons. exact IH.
  - cbn [negb length]. destruct (separates c); [rewrite total_cons; cbn; lia|].
    destruct (segments s) as [|seg segs]; [cbn; lia|]. rewrite total_cons in *. cbn [length]. lia.
Qed.

Lemma segments_strict s c : ~ ordinary c -> In c s -> total (segments s) < length (unslash s).
Proof.
  intros O. induction s as [|x s IH]; [intros []|]. cbn [segments unslash filter]. fold (unslash s).
  pose proof (segments_total s) as T.
  destruct (ends_path x) eqn:Ex.
  { intros _. replace (ceq x c_slash) with false; [cbn; lia|]. symmetry. apply ceq_neq. intros ->. discriminate Ex. }
  destruct (ceq x c_slash) eqn:Es.
  - apply ceq_eq in Es. subst x. cbn [negb]. change (separates c_slash) with true. cbv iota. rewrite total_cons.
    intros [K|K]; [|apply IH; exact K]. subst c. destruct O. split; [reflexivity|discriminate].
  - cbn [negb length]. destruct (separates x) eqn:Sx; [rewrite total_cons; cbn; lia|].
    intros [K|K].
    + subst x. destruct O. split; [exact Ex|]. intros ->. discriminate Sx.
    + specialize (IH K). destruct (segments s) as [|seg segs]; [cbn in *; lia|].
      rewrite total_cons in *. cbn [length]. lia.
Qed.

(** ** Dots *)

Definition dotted (seg : str) : bool := double_dot seg || single_dot seg.
Lemma dotted_nonempty seg : dotted seg = true -> 0 < length seg.
Proof. destruct seg; [discriminate|cbn; lia]. Qed.
Lemma drive_length s : length (drive s) = length s.
Proof. destruct s as [|a [|b [|c s]]]; try reflexivity. cbn. destruct (is_letter a && ceq b c_pipe); reflexivity. Qed.
Lemma up_total acc : total (up acc) <= total acc.
Proof.
  destruct acc as [|d [|e acc]]; [apply Nat.le_refl| |].
  - cbn [up]. destruct (is_drive d); [apply Nat.le_refl|]. apply Nat.le_0_l.
  - cbn [up]. rewrite (total_cons d). lia.
Qed.

Lemma normal_total segs : forall acc, total (normal acc segs) <= total acc + total segs.
Proof.
  induction segs as [|seg segs IH]; intros acc; cbn [normal].
  - rewrite total_rev. cbn. lia.
  - rewrite total_cons.
    assert (T : forall a, total (match segs with [] => [] :: a | _ => a end) = total a)
      by (intros a; destruct segs; reflexivity).
    destruct (double_dot seg).
    + eapply Nat.le_trans; [apply IH|]. rewrite T. pose proof (up_total acc). lia.
    + destruct (single_dot seg).
      * eapply Nat.le_trans; [apply IH|]. rewrite T. lia.
      * eapply Nat.le_trans; [apply IH|]. rewrite total_cons.
        destruct acc; cbv iota; [rewrite drive_length|]; unfold str, char in *; lia.
Qed.

Lemma normal_strict segs seg : In seg segs -> dotted seg = true ->
  forall acc, total (normal acc segs) < total acc + total segs.
Proof.
  intros H D. induction segs as [|s segs IH]; [destruct H|]. intros acc. cbn [normal]. rewrite total_cons.
  assert (T : forall a, total (match segs with [] => [] :: a | _ => a end) = total a)
    by (intros a; destruct segs; reflexivity).
  pose proof (up_total acc) as U.
  assert (N : dotted s = true -> 0 < length s) by apply dotted_nonempty. unfold dotted in N.
  destruct (double_dot s) eqn:Dd.
  - pose proof (normal_total segs (match segs with [] => [] :: up acc | _ => up acc end)) as K.
    rewrite T in K. specialize (N eq_refl). unfold str, char in *. lia.
  - destruct (single_dot s) eqn:Sd.
    + pose proof (normal_total segs (match segs with [] => [] :: acc | _ => acc end)) as K.
      rewrite T in K. specialize (N eq_refl). unfold str, char in *. lia.
    + destruct H as [->|H]; [unfold dotted in D; rewrite Dd, Sd in D; discriminate|].
      specialize (IH H ((match acc with [] => drive s | _ => s end) :: acc)). rewrite total_cons in IH.
      destruct acc; cbv iota in IH; [rewrite drive_length in IH|]; unfold str, char in *; lia.
Qed.

Lemma normal_rest segs : Forall (fun s => dotted s = false) segs ->
  forall a acc, normal (a :: acc) segs = rev (a :: acc) ++ segs.
Proof.
  intros F. induction F as [|s segs D F IH]; intros a acc; cbn [normal]; [rewrite app_nil_r; reflexivity|].
  unfold dotted in D. apply orb_false_iff in D. destruct D as [-> ->]. rewrite IH. cbn [rev].
  rewrite <- !app_assoc. reflexivity.
Qed.
Lemma normal_plain s segs : Forall (fun s => dotted s = false) (s :: segs) ->
  normal [] (s :: segs) = drive s :: segs.
Proof.
  intros F. inversion_clear F as [|? ? D F']. cbn [normal]. unfold dotted in D.
  apply orb_false_iff in D. destruct D as [-> ->]. rewrite normal_rest by exact F'. reflexivity.
Qed.

(** ** Encoded characters *)

Definition leads (bs : bytes) : nat := length (filter (fun b => negb (cont b)) bs).
Lemma leads_app a b : leads (a ++ b) = leads a + leads b.
Proof. unfold leads. rewrite filter_app, app_length. reflexivity. Qed.
Lemma leads_cons c b : leads (c :: b) = (if cont c then 0 else 1) + leads b.
Proof. unfold leads. cbn [filter]. destruct (cont c); reflexivity. Qed.


Lemma leads_char c : leads (enc_char c) <= 1.
Proof.
  assert (L : forall x, cont (128 + x mod 64)%N = true).
  { intros x. pose proof (N.mod_lt x 64 ltac:(discriminate)). unfold cont.
    apply andb_true_iff. split; [apply N.leb_le|apply N.ltb_lt]; lia. }
  unfold enc_char. destruct (N.ltb c 128); [|destruct (N.ltb c 2048); [|destruct (N.ltb c 65536)]];
    rewrite !leads_cons, ?L; cbn [leads filter length]; destruct (cont _); cbn; lia.
Qed.
Lemma leads_le s : leads (encode s) <= length s.
Proof.
  induction s as [|c s IH]; [apply Nat.le_refl|]. rewrite encode_cons, leads_app. cbn [length].
  pose proof (leads_char c). lia.
Qed.
Lemma leads_none r : forallb cont r = true -> leads r = 0.
Proof.
  induction r as [|b r IH]; [reflexivity|]. cbn [forallb]. intros H. apply andb_true_iff in H. destruct H as [Hb Hr].
  rewrite leads_cons, Hb, (IH Hr). reflexivity.
Qed.
Lemma leads_encode s : valid s -> leads (encode s) = length s.
Proof.
  intros V. induction V as [|c s Sc V IH]; [reflexivity|]. rewrite encode_cons, leads_app, IH. cbn [length].
  destruct (enc_shape c Sc) as (b & r & -> & Cb & Cr & _). rewrite leads_cons, Cb, (leads_none r Cr). reflexivity.
Qed.

(** Three characters that stand for a byte. *)
Definition digits16 : str := lit "0123456789abcdefABCDEF".
Definition triple (t : list N) : Prop := exists h l, In h digits16 /\ In l digits16 /\ t = [c_percent; h; l].

Lemma hex_digit h : hex_value h <> None <-> In h digits16.
Proof.
  split.
  - unfold hex_value. intros H.
    destruct (N.leb 48 h && N.leb h 57) eqn:A; [|destruct (N.leb 65 h && N.leb h 70) eqn:B;
      [|destruct (N.leb 97 h && N.leb h 102) eqn:C; [|congruence]]]; clear H.
    + apply andb_true_iff in A. rewrite !N.leb_le in A.
      assert (K : (h = 48 \/ h = 49 \/ h = 50 \/ h = 51 \/ h = 52 \/ h = 53 \/ h = 54 \/ h = 55 \/ h = 56 \/ h = 57)%N) by lia.
      cbv. intuition (subst; auto 30).
    + apply andb_true_iff in B. rewrite !N.leb_le in B.
      assert (K : (h = 65 \/ h = 66 \/ h = 67 \/ h = 68 \/ h = 69 \/ h = 70)%N) by lia.
      cbv. intuition (subst; auto 30).
    + apply andb_true_iff in C. rewrite !N.leb_le in C.
      assert (K : (h = 97 \/ h = 98 \/ h = 99 \/ h = 100 \/ h = 101 \/ h = 102)%N) by lia.
      cbv. intuition (subst; auto 30).
  - intros H. cbv in H. repeat (destruct H as [<-|H]; [discriminate|]). destruct H.
Qed.
Lemma hex_ascii h : In h digits16 -> (h < 128)%N /\ cont h = false.
Proof. intros H. cbv in H. repeat (destruct H as [<-|H]; [split; [reflexivity|reflexivity]|]). destruct H. Qed.

(** What decoding does at the first byte. *)
Lemma decode_step (c : byte) (bs : bytes) :
  (exists h l bs' x, c :: bs = [c_percent; h; l] ++ bs' /\ In h digits16 /\ In l digits16 /\
     hex_value h <> None /\ percent_decode (c :: bs) = x :: percent_decode bs') \/
  ((forall h l bs', In h digits16 -> In l digits16 -> c :: bs <> [c_percent; h; l] ++ bs') /\
   percent_decode (c :: bs) = c :: percent_decode bs).
Proof.
  destruct bs as [|h [|l bs]].
  - right. split; [intros; discriminate|reflexivity].
  - right. split; [intros; discriminate|reflexivity].
  - destruct (ceq c c_percent) eqn:Ec.
    + apply ceq_eq in Ec. subst c. destruct (hex_value h) as [x|] eqn:Hh.
      * destruct (hex_value l) as [y|] eqn:Hl.
        -- left. exists h, l, bs, (16 * x + y)%N. split; [reflexivity|]. split; [apply hex_digit; congruence|].
           split; [apply hex_digit; congruence|]. split; [congruence|].
           cbn [percent_decode]. change (ceq c_percent c_percent) with true. cbv iota. rewrite Hh, Hl. reflexivity.
        -- right. split.
           ++ intros h' l' bs' _ Il E. injection E as <- <- _. apply hex_digit in Il. congruence.
           ++ cbn [percent_decode]. change (ceq c_percent c_percent) with true. cbv iota. rewrite Hh, Hl. reflexivity.
      * right. split.
        -- intros h' l' bs' Ih _ E. injection E as <- <- _. apply hex_digit in Ih. congruence.
        -- cbn [percent_decode]. change (ceq c_percent c_percent) with true. cbv iota. rewrite Hh. reflexivity.
    + right. split.
      * intros h' l' bs' _ _ E. injection E as -> _ _ _. discriminate Ec.
      * cbn [percent_decode]. rewrite Ec. reflexivity.
Qed.

Lemma decode_leads n : forall bs, length bs <= n ->
  leads (percent_decode bs) <= leads bs /\
  ((exists t, triple t /\ infix t bs) -> leads (percent_decode bs) < leads bs) /\
  ((forall t, triple t -> ~ infix t bs) -> percent_decode bs = bs).
Proof.
  induction n as [|n IH]; intros bs L.
  - destruct bs; [|cbn in L; lia]. split; [apply Nat.le_refl|]. split; [|reflexivity].
    intros (t & (h & l & _ & _ & ->) & I). apply infix_length in I. cbn in I. lia.
  - destruct bs as [|c bs].
    { split; [apply Nat.le_refl|]. split; [|reflexivity].
      intros (t & (h & l & _ & _ & ->) & I). apply infix_length in I. cbn in I. lia. }
    cbn [length] in L. destruct (decode_step c bs) as [(h & l & bs' & x & E & Ih & Il & _ & D)|[Nt D]].
    + rewrite D, E. assert (L' : length bs' <= n) by (injection E as _ E; subst bs; cbn [length] in L; unfold bytes, byte, str, char in *; lia).
      destruct (IH bs' L') as (A & _ & _). cbn [app]. rewrite !leads_cons.
      destruct (hex_ascii h Ih) as [_ ->], (hex_ascii l Il) as [_ ->]. change (cont c_percent) with false. cbv iota.
      unfold bytes, byte, str, char in *.
      split; [destruct (cont x); lia|]. split; [intros _; destruct (cont x); lia|].
      intros H. destruct (H [c_percent; h; l]); [exists h, l; auto|]. exists [], bs'. reflexivity.
    + rewrite D, !leads_cons. destruct (IH bs ltac:(lia)) as (A & B & C). split; [lia|]. split.
      * intros (t & Ht & (a & b & I)). assert (leads (percent_decode bs) < leads bs); [|lia]. apply B.
        exists t. split; [exact Ht|]. destruct a as [|a0 a].
        -- destruct Ht as (h & l & Ih & Il & ->). destruct (Nt h l b Ih Il I).
        -- injection I as _ I. exists a, b. exact I.
      * intros H. f_equal. apply C. intros t Ht I. apply (H t Ht). apply infix_cons. exact I.
Qed.

Lemma enc_low a : (a < 128)%N -> enc_char a = [a].
Proof. intros H. unfold enc_char. apply N.ltb_lt in H. rewrite H. reflexivity. Qed.

(** A byte below 128 is a character. *)
Lemma encode_low s : forall x a y, (a < 128)%N -> encode s = x ++ a :: y ->
  exists u v, s = u ++ a :: v /\ encode v = y /\ encode u = x.
Proof.
  induction s as [|c s IH]; intros x a y Ha E.
  - destruct x; discriminate.
  - rewrite encode_cons in E. destruct (N.ltb c 128) eqn:Ec.
    + apply N.ltb_lt in Ec. rewrite (enc_low c Ec) in E. destruct x as [|b x]; injection E as -> E.
      * exists [], s. auto.
      * destruct (IH x a y Ha E) as (u & v & -> & Ev & Eu). exists (b :: u), v. split; [reflexivity|].
        split; [exact Ev|]. rewrite encode_cons, Eu, (enc_low b Ec). reflexivity.
    + assert (Hi : Forall (fun b => (128 <= b)%N) (enc_char c)).
      { unfold enc_char. rewrite Ec. destruct (N.ltb c 2048); [|destruct (N.ltb c 65536)];
          repeat (apply Forall_cons; [lia|]); apply Forall_nil. }
      revert x E. assert (G : forall bs x, Forall (fun b => (128 <= b)%N) bs -> bs ++ encode s = x ++ a :: y ->
        exists x', x = bs ++ x' /\ encode s = x' ++ a :: y).
      { induction bs as [|b bs IHb]; intros x F E; [exists x; auto|]. inversion_clear F.
        destruct x as [|b' x]; injection E as -> E; [lia|].
        destruct (IHb x ltac:(assumption) E) as (x' & -> & Ex). exists x'. auto. }
      intros x E. destruct (G _ x Hi E) as (x' & -> & Ex).
      destruct (IH x' a y Ha Ex) as (u & v & -> & Ev & Eu). exists (c :: u), v. split; [reflexivity|].
      split; [exact Ev|]. rewrite encode_cons, Eu. reflexivity.
Qed.

Lemma encode_head s a y : (a < 128)%N -> encode s = a :: y -> exists v, s = a :: v /\ encode v = y.
Proof.
  intros Ha E. destruct (encode_low s [] a y Ha E) as (u & v & -> & Ev & Eu). exists v. split; [|exact Ev].
  destruct u as [|c u]; [reflexivity|]. rewrite encode_cons in Eu. apply app_eq_nil in Eu. destruct Eu as [Eu _].
  destruct (enc_nonempty c Eu).
Qed.

Lemma triple_encode t s : triple t -> (infix t (encode s) <-> infix t s).
Proof.
  intros (h & l & Ih & Il & ->). destruct (hex_ascii h Ih) as [Hh _]. destruct (hex_ascii l Il) as [Hl _]. split.
  - intros (a & b & E). cbn [app] in E.
    destruct (encode_low s a c_percent _ ltac:(reflexivity) E) as (u & v & -> & Ev & _).
    destruct (encode_head v h _ Hh Ev) as (v1 & -> & Ev1). destruct (encode_head v1 l _ Hl Ev1) as (v2 & -> & _).
    exists u, v2. reflexivity.
  - intros (a & b & ->). exists (encode a), (encode b). rewrite !encode_app. f_equal. f_equal.
    unfold encode. cbn [flat_map]. rewrite (enc_low h Hh), (enc_low l Hl). reflexivity.
Qed.

Definition triple_free (s : str) : Prop := forall t, triple t -> ~ infix t s.

Lemma segment_length s n : segment_name s = Some n -> length n <= length s /\ ((exists t, triple t /\ infix t s) -> length n < length s).
Proof.
  unfold segment_name. destruct (decode (percent_decode (encode s))) as [n'|] eqn:D; [|discriminate].
  destruct (existsb _ n'); [discriminate|]. intros E. injection E as ->.
  apply encode_decode in D. destruct D as [D V]. rewrite <- (leads_encode n V), D.
  destruct (decode_leads (length (encode s)) (encode s) (Nat.le_refl _)) as (A & B & _).
  pose proof (leads_le s) as L. split; [lia|]. intros (t & Ht & I).
  assert (leads (percent_decode (encode s)) < leads (encode s)); [|lia]. apply B. exists t. split; [exact Ht|].
  apply triple_encode; assumption.
Qed.

Lemma segment_self s : valid s -> triple_free s -> ~ In c_slash s -> ~ In 0%N s -> segment_name s = Some s.
Proof.
  intros V T S Z. unfold segment_name.
  destruct (decode_leads (length (encode s)) (encode s) (Nat.le_refl _)) as (_ & _ & C).
  rewrite C; [|intros t Ht I; apply (T t Ht); apply (triple_encode t s Ht); exact I].
  rewrite (decode_encode s V). replace (existsb _ s) with false; [reflexivity|]. symmetry.
  apply not_true_is_false. intros H. apply existsb_exists in H. destruct H as (c & Hc & M).
  apply mem_char_iff in M. destruct M as [<-|[<-|[]]]; contradiction.
Qed.

Lemma all_names_length segs : forall p, all_names segs = Some p ->
  total p <= total segs /\
  ((exists s t, In s segs /\ triple t /\ infix t s) -> total p < total segs).
Proof.
  induction segs as [|s segs IH]; intros p E; cbn [all_names] in E.
  - injection E as <-. split; [apply Nat.le_refl|]. intros (s & t & [] & _).
  - destruct (segment_name s) as [n|] eqn:Es; [|discriminate].
    destruct (all_names segs) as [p'|] eqn:Ep; [|discriminate]. injection E as <-. rewrite !total_cons.
    destruct (segment_length s n Es) as [A B]. destruct (IH p' eq_refl) as [C D]. split; [lia|].
    intros (s' & t & [->|I] & Ht & If).
    + assert (length n < length s') by (apply B; eauto). lia.
    + assert (total p' < total segs) by (apply D; eauto). lia.
Qed.

Lemma all_names_self p : Forall (fun s => segment_name s = Some s) p -> all_names p = Some p.
Proof. intros F. induction F as [|s p E F IH]; [reflexivity|]. cbn [all_names]. rewrite E, IH. reflexivity. Qed.

Lemma filter_total segs : total (filter (fun x => negb (is_empty x)) segs) = total segs.
Proof.
  induction segs as [|s segs IH]; [reflexivity|]. cbn [filter]. destruct s as [|c s]; cbn [is_empty negb].
  - rewrite total_cons, IH. reflexivity.
  - rewrite !total_cons, IH. reflexivity.
Qed.
Lemma filter_full segs : Forall (fun s : str => s <> []) segs -> filter (fun x => negb (is_empty x)) segs = segs.
Proof.
  intros F. induction F as [|s segs N F IH]; [reflexivity|]. cbn [filter]. destruct s; [congruence|]. cbn. f_equal. exact IH.
Qed.

(** ** The file that is visited *)

Lemma tmp_last d : exists q, d ++ [tmp_name] = q ++ [[108%N]] \/ exists n, d ++ [tmp_name] = q ++ [n ++ [108%N]].
Proof. exists d. right. exists (lit "tmp.htm"). reflexivity. Qed.

Lemma visited_tmp d : visited (d ++ [tmp_name]) =
  all_names (filter (fun x => negb (is_empty x))
    (normal [] (segments (rest_of (map without_breaks (d ++ [tmp_name])))))).
Proof. apply (visited_segments _ 108%N); [reflexivity|apply tmp_last]. Qed.

Lemma lower_dot x : to_lower_c x = 46%N -> x = 46%N.
Proof. unfold to_lower_c. destruct (N.leb 65 x && N.leb x 90) eqn:E; [|auto]. apply andb_true_iff in E. rewrite !N.leb_le in E. lia. Qed.
Lemma lower_percent x : to_lower_c x = 37%N -> x = 37%N.
Proof. unfold to_lower_c. destruct (N.leb 65 x && N.leb x 90) eqn:E; [|auto]. apply andb_true_iff in E. rewrite !N.leb_le in E. lia. Qed.
Lemma lower_two x : to_lower_c x = 50%N -> x = 50%N.
Proof. unfold to_lower_c. destruct (N.leb 65 x && N.leb x 90) eqn:E; [|auto]. apply andb_true_iff in E. rewrite !N.leb_le in E. lia. Qed.
Lemma lower_e x : to_lower_c x = 101%N -> x = 101%N \/ x = 69%N.
Proof. unfold to_lower_c. destruct (N.leb 65 x && N.leb x 90) eqn:E; [|auto]. apply andb_true_iff in E. rewrite !N.leb_le in E. lia. Qed.

(** Segments of dots stand for dots. *)
Lemma dotted_names s : dotted s = true -> segment_name s = Some (lit ".") \/ segment_name s = Some (lit "..").
Proof.
  intros D.
  assert (H : In (to_lowercase s) [lit "."; lit "%2e"; lit ".."; lit ".%2e"; lit "%2e."; lit "%2e%2e"]).
  { unfold dotted in D. apply orb_true_iff in D.
    destruct D as [D|D]; apply existsb_exists in D; destruct D as (x & Hx & E); apply str_eqb_eq in E; rewrite E;
      cbn [In] in *; intuition auto. }
  clear D. unfold to_lowercase in H. cbn [In] in H.
  repeat match type of H with _ \/ _ => destruct H as [H|H] end; try contradiction;
    repeat (destruct s as [|? s]; cbn in H; try discriminate H);
    injection H; clear H; intros;
    repeat match goal with
      | K : 46%N = to_lower_c _ |- _ => symmetry in K; apply lower_dot in K; subst
      | K : 37%N = to_lower_c _ |- _ => symmetry in K; apply lower_percent in K; subst
      | K : 50%N = to_lower_c _ |- _ => symmetry in K; apply lower_two in K; subst
      | K : 101%N = to_lower_c _ |- _ => symmetry in K; apply lower_e in K; destruct K; subst
      end; (left; reflexivity) || (right; reflexivity).
Qed.

Lemma triple_self_free n : triple_free n <->
  (forall a h l b, In h digits16 -> In l digits16 -> n <> a ++ lit "%" ++ [h; l] ++ b).
Proof.
  split.
  - intros T a h l b Ih Il ->. apply (T [c_percent; h; l]); [exists h, l; auto|]. exists a, b. reflexivity.
  - intros H t (h & l & Ih & Il & ->) (a & b & ->). apply (H a h l b Ih Il). reflexivity.
Qed.

Lemma letter_iff x : is_letter x = true <-> In x (lit "abcdefghijklmnopqrstuvwxyzABCDEFGHIJKLMNOPQRSTUVWXYZ").
Proof.
  split.
  - unfold is_letter. intros H. apply orb_true_iff in H. rewrite !andb_true_iff, !N.leb_le in H.
    assert (K : exists k, (k < 26)%nat /\ (x = 65 + N.of_nat k \/ x = 97 + N.of_nat k)%N).
    { destruct H as [H|H]; [exists (N.to_nat (x - 65))|exists (N.to_nat (x - 97))]; lia. }
    destruct K as (k & Hk & E). apply mem_char_iff.
    do 26 (destruct k as [|k]; [destruct E as [-> | ->]; reflexivity|]). lia.
  - intros H. cbv in H. repeat (destruct H as [<-|H]; [reflexivity|]). destruct H.
Qed.

Lemma drive_self s : drive s = s <-> (forall x, is_letter x = true -> s <> [x; c_pipe]).
Proof.
  split.
  - intros E x L ->. cbn [drive] in E. rewrite L, ceq_refl in E. discriminate.
  - intros H. destruct s as [|x [|y [|z s]]]; try reflexivity. cbn [drive].
    destruct (is_letter x) eqn:L; [|reflexivity]. destruct (ceq y c_pipe) eqn:E; [|reflexivity].
    apply ceq_eq in E. subst y. destruct (H x L eq_refl).
Qed.

Lemma Forall_last {A} (P : A -> Prop) d x : Forall P (d ++ [x]) <-> Forall P d /\ P x.
Proof.
  rewrite Forall_app. split; intros [H K]; (split; [exact H|]).
  - inversion K. assumption.
  - apply Forall_cons; [exact K|apply Forall_nil].
Qed.

Lemma tmp_proper : proper_name tmp_name.
Proof.
  split; [discriminate|]. split; [discriminate|]. split; [discriminate|].
  split; [vm_compute; intuition discriminate|]. split; [vm_compute; intuition discriminate|].
  apply Forall_forall. intros c H. left. revert c H. apply Forall_forall. vm_compute.
  repeat (apply Forall_cons; [reflexivity|]). apply Forall_nil.
Qed.
Lemma tmp_itself : means_itself_in_url tmp_name.
Proof.
  split.
  - intros c H K. vm_compute in H, K. repeat (destruct H as [<-|H]; [intuition discriminate|]). destruct H.
  - intros a h l b _ _ E. assert (K : In 37%N tmp_name) by (rewrite E; apply in_or_app; right; left; reflexivity).
    vm_compute in K. intuition discriminate.
Qed.

Lemma special_iff c : (ordinary c /\ ~ In c breaks) <-> ~ In c (lit "#?\" ++ [c_tab; c_nl; c_cr]).
Proof.
  unfold ordinary, ends_path. split.
  - intros [[E B] K] H. cbn in H. destruct H as [<-|[<-|[<-|H]]]; [discriminate E|discriminate E|apply B; reflexivity|].
    apply K. exact H.
  - intros H. split; [split|].
    + apply not_true_is_false. intros K. apply mem_char_iff in K. apply H.
      destruct K as [<-|[<-|[]]]; vm_compute; auto.
    + intros ->. apply H. vm_compute. auto.
    + intros K. apply H. apply in_or_app. right. exact K.
Qed.

(** Names that are no dots, separate nothing and lose nothing. *)
Lemma visited_plain d : Forall proper_name d ->
  Forall (fun n => forall c, In c (lit "#?\" ++ [c_tab; c_nl; c_cr]) -> ~ In c n) d ->
  Forall (fun n => dotted n = false) d ->
  (forall x r, is_letter x = true -> d <> [x; c_pipe] :: r) ->
  visited (d ++ [tmp_name]) = all_names (d ++ [tmp_name]).
Proof.
  intros Pr Sp Dt Dr. rewrite visited_tmp.
  assert (Sp' : Forall (fun n => forall c, In c (lit "#?\" ++ [c_tab; c_nl; c_cr]) -> ~ In c n) (d ++ [tmp_name])).
  { apply Forall_last. split; [exact Sp|apply tmp_itself]. }
  assert (Pr' : Forall proper_name (d ++ [tmp_name])) by (apply Forall_last; split; [exact Pr|apply tmp_proper]).
  assert (Dt' : Forall (fun n => dotted n = false) (d ++ [tmp_name])) by (apply Forall_last; split; [exact Dt|reflexivity]).
  replace (map without_breaks (d ++ [tmp_name])) with (d ++ [tmp_name]).
  2: { symmetry. rewrite <- (map_id (d ++ [tmp_name])) at 2. apply map_ext_in. intros n Hn. apply without_id.
       intros c Hc. rewrite Forall_forall in Sp'. apply (Sp' n Hn). apply in_or_app. right. exact Hc. }
  assert (W : Forall (Forall wordy) (d ++ [tmp_name])).
  { apply Forall_forall. intros n Hn. apply Forall_forall. intros c Hc. apply wordy_of.
    - apply special_iff. intros K. rewrite Forall_forall in Sp'. apply (Sp' n Hn c K Hc).
    - rewrite Forall_forall in Pr'. destruct (Pr' n Hn) as (_ & _ & _ & S & _). intros ->. apply S. exact Hc. }
  assert (E : exists n p, d ++ [tmp_name] = n :: p /\ drive n = n).
  { destruct d as [|n p]; [exists tmp_name, []; split; reflexivity|]. exists n, (p ++ [tmp_name]).
    split; [reflexivity|]. apply drive_self. intros x L ->. apply (Dr x p L). reflexivity. }
  destruct E as (n & p & E & Dn). rewrite E in *.
  rewrite segments_names by exact W. rewrite normal_plain by exact Dt'. rewrite Dn, filter_full; [reflexivity|].
  apply Forall_forall. intros x Hx. rewrite Forall_forall in Pr'. apply (Pr' x Hx).
Qed.

Lemma safe_not_dotted n : proper_name n -> triple_free n -> dotted n = false.
Proof.
  intros (Ne & D1 & D2 & S & Z & V) T. apply not_true_is_false. intros D.
  apply dotted_names in D. rewrite (segment_self n V T S Z) in D. destruct D as [D|D]; congruence.
Qed.

(** The browser opens the file that was written if and only if all names of the directory mean themselves. *)
Lemma visited_exact d : Forall proper_name d ->
  (visited (d ++ [tmp_name]) = Some (d ++ [tmp_name]) <-> url_safe d).
Proof.
  intros Pr. assert (Pr' : Forall proper_name (d ++ [tmp_name])) by (apply Forall_last; split; [exact Pr|apply tmp_proper]).
  split.
  - intros E. rewrite visited_tmp in E.
    set (p := d ++ [tmp_name]) in *. set (p1 := map without_breaks p) in *.
    assert (Sl : Forall (fun n => ~ In c_slash n) p).
    { apply Forall_forall. intros n Hn. rewrite Forall_forall in Pr'. apply (Pr' n Hn). }
    assert (Sl1 : Forall (fun n => ~ In c_slash n) p1).
    { apply Forall_forall. intros n Hn. unfold p1 in Hn. apply in_map_iff in Hn. destruct Hn as (x & <- & Hx).
      intros K. apply filter_In in K. rewrite Forall_forall in Sl. apply (Sl x Hx). apply K. }
    assert (Ul : forall q, Forall (fun n => ~ In c_slash n) q -> length (unslash (rest_of q)) = total q).
    { intros q F. unfold total. rewrite <- (unslash_slashed q F). unfold rest_of. destruct q; reflexivity. }
    destruct (all_names_length _ _ E) as [T4 T4']. rewrite filter_total in T4, T4'.
    pose proof (normal_total (segments (rest_of p1)) []) as T3. change (total []) with 0 in T3.
    pose proof (segments_total (rest_of p1)) as T2. rewrite (Ul p1 Sl1) in T2.
    pose proof (without_total p) as T1. fold p1 in T1.
    assert (E1 : p1 = p) by (apply without_total_same; unfold p1 in *; lia).
    assert (Wb : forall s, In s p -> without_breaks s = s).
    { apply (proj1 (@map_ext_in_iff _ _ without_breaks (fun x => x) p)). rewrite map_id. exact E1. }
    assert (O : forall c, In c (rest_of p) -> ordinary c).
    { intros c Hc. destruct (ends_path c) eqn:Ec; [|destruct (N.eq_dec c c_bslash) as [->|Nb]; [|split; assumption]].
      - exfalso. assert (No : ~ ordinary c) by (intros [K _]; congruence). rewrite <- E1 in Hc.
        pose proof (segments_strict (rest_of p1) c No Hc) as K. rewrite (Ul p1 Sl1) in K. lia.
      - exfalso. assert (No : ~ ordinary c_bslash) by (intros [_ K]; congruence). rewrite <- E1 in Hc.
        pose proof (segments_strict (rest_of p1) c_bslash No Hc) as K. rewrite (Ul p1 Sl1) in K. lia. }
    rewrite E1 in *.
    assert (Hin : forall n c, In n p -> In c n -> In c (rest_of p)).
    { intros n c Hn Hc.
      assert (K : In c (slashed p)) by (apply in_flat_map; exists n; split; [exact Hn|right; exact Hc]).
      unfold rest_of. destruct p as [|m q]; [destruct Hn|]. rewrite slashed_cons in *. cbn [tl].
      destruct K as [K|K]; [|exact K]. subst c. rewrite Forall_forall in Sl. destruct (Sl n Hn Hc). }
    assert (W : Forall (Forall wordy) p).
    { apply Forall_forall. intros n Hn. apply Forall_forall. intros c Hc.
      apply wordy_of; [apply O; apply (Hin n); assumption|].
      intros ->. rewrite Forall_forall in Sl. apply (Sl n Hn Hc). }
    assert (Ep : exists n q, p = n :: q) by (unfold p; destruct d; eexists; eexists; reflexivity).
    destruct Ep as (n & q & Ep).
    assert (Es : segments (rest_of p) = p) by (rewrite Ep in *; apply segments_names; exact W).
    rewrite Es in *.
    assert (Dt : Forall (fun s => dotted s = false) p).
    { apply Forall_forall. intros s Hs. apply not_true_is_false. intros D.
      pose proof (normal_strict p s Hs D []) as K. change (total []) with 0 in K. lia. }
    assert (En : normal [] p = drive n :: q) by (rewrite Ep in *; apply normal_plain; exact Dt).
    assert (Fn : filter (fun x => negb (is_empty x)) (normal [] p) = drive n :: q).
    { rewrite En. apply filter_full. apply Forall_cons.
      - intros K. assert (L : length (drive n) = 0) by (rewrite K; reflexivity). rewrite drive_length in L.
        rewrite Forall_forall in Pr'. destruct (Pr' n) as (Ne & _); [rewrite Ep; left; reflexivity|].
        destruct n; [congruence|discriminate].
      - apply Forall_forall. intros x Hx. rewrite Forall_forall in Pr'. apply Pr'. rewrite Ep. right. exact Hx. }
    assert (Tf : forall s, In s (drive n :: q) -> triple_free s).
    { intros s Hs t Ht If. rewrite <- Fn in Hs.
      assert (K : total p < total (normal [] p)) by (apply T4'; eauto). lia. }
    assert (Vd : valid (drive n) /\ ~ In c_slash (drive n) /\ ~ In 0%N (drive n)).
    { rewrite Forall_forall in Pr'. destruct (Pr' n) as (_ & _ & _ & A & B & C); [rewrite Ep; left; reflexivity|].
      destruct n as [|x [|y [|z n]]]; try (repeat split; assumption).
      cbn [drive]. destruct (is_letter x && ceq y c_pipe) eqn:K; [|repeat split; assumption].
      split; [|split].
      - inversion_clear C. apply Forall_cons; [assumption|]. apply Forall_cons; [left; reflexivity|apply Forall_nil].
      - intros [J|[J|[]]]; [apply A; left; exact J|discriminate J].
      - intros [J|[J|[]]]; [apply B; left; exact J|discriminate J]. }
    assert (Dn : drive n = n).
    { rewrite Fn, Ep in E. cbn [all_names] in E. destruct Vd as (V & A & B).
      rewrite (segment_self (drive n) V (Tf (drive n) (or_introl eq_refl)) A B) in E.
      destruct (all_names q); [|discriminate]. injection E as K _. exact K. }
    split.
    + apply Forall_forall. intros s Hs. assert (Hp : In s p) by (unfold p; apply in_or_app; left; exact Hs). split.
      * intros c Hc Hcs. apply in_app_or in Hc. destruct Hc as [Hc|Hc].
        -- assert (Oc : ordinary c) by (apply O; apply (Hin s); assumption). destruct Oc as [O1 O2].
           cbn in Hc. destruct Hc as [<-|[<-|[<-|[]]]]; [discriminate O1|discriminate O1|apply O2; reflexivity].
        -- assert (Ws : without_breaks s = s).
           { apply Wb. exact Hp. }
           apply (proj1 (without_id s) Ws c Hc Hcs).
      * apply triple_self_free. apply Tf. rewrite Dn, <- Ep. exact Hp.
    + intros x r Lx Ed. apply letter_iff in Lx. unfold p in Ep. rewrite Ed in Ep. injection Ep as Ep _.
      apply (proj1 (drive_self n) Dn x Lx). symmetry. exact Ep.
  - intros [Si Dr]. rewrite visited_plain.
    + apply all_names_self. apply Forall_forall. intros n Hn. rewrite Forall_forall in Pr'.
      destruct (Pr' n Hn) as (_ & _ & _ & A & B & C). apply segment_self; try assumption.
      apply triple_self_free. apply in_app_or in Hn. destruct Hn as [Hn|[<-|[]]]; [|apply tmp_itself].
      rewrite Forall_forall in Si. apply (Si n Hn).
    + exact Pr.
    + apply Forall_forall. intros n Hn. rewrite Forall_forall in Si. apply (Si n Hn).
    + apply Forall_forall. intros n Hn. rewrite Forall_forall in Si, Pr. apply safe_not_dotted; [apply (Pr n Hn)|].
      apply triple_self_free. apply (Si n Hn).
    + intros x r L Ed. apply letter_iff in L. apply (Dr x r L). exact Ed.
Qed.

(** ** Directories with a hash, a question mark or an encoded character *)

Lemma segments_cut u x v : Forall (fun c => ends_path c = false) u -> ends_path x = true ->
  segments (u ++ x :: v) = segments u.
Proof.
  intros F Hx. induction F as [|c u E F IH]; cbn [app segments]; [rewrite Hx; reflexivity|].
  rewrite E, IH. reflexivity.
Qed.

Lemma visited_cut d a x b e : Forall proper_name (d ++ [a]) -> url_safe (d ++ [a]) -> In x (lit "#?") ->
  visited ((d ++ [a ++ [x] ++ b] ++ e) ++ [tmp_name]) = Some (d ++ [a]).
Proof.
  intros Pr Sf Hx. rewrite visited_tmp.
  assert (Ex : ends_path x = true) by (cbn in Hx; destruct Hx as [<-|[<-|[]]]; reflexivity).
  destruct Sf as [Si Dr].
  assert (Wb : forall n, In n (d ++ [a]) -> without_breaks n = n).
  { intros n Hn. apply without_id. intros c Hc. rewrite Forall_forall in Si. apply (Si n Hn). apply in_or_app. auto. }
  assert (Wd : map without_breaks d = d).
  { rewrite <- (map_id d) at 2. apply map_ext_in. intros n Hn. apply Wb. apply in_or_app. auto. }
  assert (Wa : without_breaks a = a) by (apply Wb; apply in_or_app; right; left; reflexivity).
  assert (Wx : without_breaks [x] = [x]) by (cbn in Hx; destruct Hx as [<-|[<-|[]]]; reflexivity).
  assert (E : exists y, rest_of (map without_breaks ((d ++ [a ++ [x] ++ b] ++ e) ++ [tmp_name])) =
                        rest_of (d ++ [a]) ++ x :: y).
  { exists (without_breaks b ++ slashed (map without_breaks e ++ map without_breaks [tmp_name])).
    assert (K : slashed (map without_breaks ((d ++ [a ++ [x] ++ b] ++ e) ++ [tmp_name])) =
      slashed (d ++ [a]) ++ x :: without_breaks b ++ slashed (map without_breaks e ++ map without_breaks [tmp_name])).
    { rewrite !map_app, Wd. cbn [map]. rewrite !without_app, Wa, Wx, !slashed_app.
      rewrite !slashed_one, <- !app_assoc. cbn [app]. rewrite <- !app_assoc. reflexivity. }
    unfold rest_of. rewrite K. destruct (slashed (d ++ [a])) as [|z w] eqn:N; [destruct d; discriminate|]. reflexivity. }
  destruct E as [y ->].
  assert (Sl : forall n c, In n (d ++ [a]) -> In c n -> wordy c).
  { intros n c Hn Hc. rewrite Forall_forall in Si, Pr. apply wordy_of.
    - apply special_iff. intros K. apply (proj1 (Si n Hn) c K Hc).
    - intros ->. destruct (Pr n Hn) as (_ & _ & _ & S & _). apply S. exact Hc. }
  assert (F : Forall (fun c => ends_path c = false) (rest_of (d ++ [a]))).
  { apply Forall_forall. intros c Hc.
    assert (K : In c (slashed (d ++ [a]))).
    { unfold rest_of in Hc. destruct (slashed (d ++ [a])); [destruct Hc|right; exact Hc]. }
    apply in_flat_map in K. destruct K as (n & Hn & [K|K]); [subst c; reflexivity|]. apply (Sl n c Hn K). }
  rewrite segments_cut by assumption.
  assert (Ep : exists n p, d ++ [a] = n :: p) by (destruct d; eexists; eexists; reflexivity).
  destruct Ep as (n & p & Ep). rewrite Ep in *.
  rewrite segments_names.
  2: { apply Forall_forall. intros m Hm. apply Forall_forall. intros c Hc. apply (Sl m c Hm Hc). }
  rewrite normal_plain.
  2: { apply Forall_forall. intros m Hm. rewrite Forall_forall in Si, Pr. apply safe_not_dotted; [apply (Pr m Hm)|].
       apply triple_self_free. apply (Si m Hm). }
  replace (drive n) with n.
  2: { symmetry. apply drive_self. intros z L ->. apply letter_iff in L. apply (Dr z p L). reflexivity. }
  rewrite filter_full.
  2: { apply Forall_forall. intros m Hm. rewrite Forall_forall in Pr. apply (Pr m Hm). }
  apply all_names_self. apply Forall_forall. intros m Hm. rewrite Forall_forall in Si, Pr.
  destruct (Pr m Hm) as (_ & _ & _ & A & B & C). apply segment_self; try assumption.
  apply triple_self_free. apply (Si m Hm).
Qed.

Lemma percent_app (a : bytes) (h l : byte) (b : bytes) : In h digits16 -> In l digits16 -> (forall t, triple t -> ~ infix t a) ->
  exists x y, hex_value h = Some x /\ hex_value l = Some y /\
    percent_decode (a ++ ([c_percent; h; l] : bytes) ++ b) = a ++ (16 * x + y)%N :: percent_decode b.
Proof.
  intros Ih Il. pose proof (proj2 (hex_digit h) Ih) as Hh. pose proof (proj2 (hex_digit l) Il) as Hl.
  destruct (hex_value h) as [x|] eqn:Eh; [|congruence]. destruct (hex_value l) as [y|] eqn:El; [|congruence].
  intros T. exists x, y. split; [reflexivity|]. split; [reflexivity|].
  induction a as [|c a IH].
  - cbn [app percent_decode]. change (ceq c_percent c_percent) with true. cbv iota. rewrite Eh, El. reflexivity.
  - assert (T' : forall t, triple t -> ~ infix t a) by (intros t Ht I; apply (T t Ht); apply infix_cons; exact I).
    cbn [app]. destruct (decode_step c (a ++ [c_percent; h; l] ++ b)) as [(h' & l' & bs' & z & E & Ih' & Il' & _ & _)|[_ D]].
    + exfalso. injection E as -> E. destruct a as [|h1 [|l1 a]].
      * injection E as <- _. revert Ih'. vm_compute. intuition discriminate.
      * injection E as _ <- _. revert Il'. vm_compute. intuition discriminate.
      * injection E as <- <- _. apply (T [c_percent; h1; l1]); [exists h1, l1; auto|]. exists [], a. reflexivity.
    + etransitivity; [exact D|]. f_equal. apply IH. exact T'.
Qed.

Lemma segment_coded a h l b x y : In h digits16 -> In l digits16 -> triple_free a -> triple_free b ->
  hex_value h = Some x -> hex_value l = Some y -> proper_name (a ++ [(16 * x + y)%N] ++ b) -> (16 * x + y < 128)%N ->
  segment_name (a ++ [c_percent; h; l] ++ b) = Some (a ++ [(16 * x + y)%N] ++ b).
Proof.
  intros Ih Il Ta Tb Hx Hy (_ & _ & _ & S & Z & V) Lo. unfold segment_name.
  destruct (hex_ascii h Ih) as [Lh _]. destruct (hex_ascii l Il) as [Ll _].
  assert (E : encode (a ++ [c_percent; h; l] ++ b) = (encode a ++ [c_percent; h; l] ++ encode b : bytes)).
  { rewrite !encode_app. f_equal. f_equal. unfold encode. cbn [flat_map].
    rewrite (enc_low h Lh), (enc_low l Ll). reflexivity. }
  destruct (percent_app (encode a) h l (encode b) Ih Il) as (x' & y' & Hx' & Hy' & D).
  { intros t Ht I. apply (Ta t Ht). apply (triple_encode t a Ht). exact I. }
  rewrite Hx in Hx'. injection Hx' as <-. rewrite Hy in Hy'. injection Hy' as <-.
  destruct (decode_leads (length (encode b)) (encode b) (Nat.le_refl _)) as (_ & _ & C).
  rewrite C in D; [|intros t Ht I; apply (Tb t Ht); apply (triple_encode t b Ht); exact I].
  assert (K : percent_decode (encode (a ++ [c_percent; h; l] ++ b)) = encode (a ++ [(16 * x + y)%N] ++ b)).
  { eapply eq_trans; [apply (f_equal percent_decode E)|]. eapply eq_trans; [exact D|].
    rewrite !encode_app. f_equal. unfold encode at 2. cbn [flat_map]. rewrite (enc_low _ Lo). reflexivity. }
  rewrite K.
  rewrite (decode_encode _ V). replace (existsb _ _) with false; [reflexivity|]. symmetry.
  apply not_true_is_false. intros H. apply existsb_exists in H. destruct H as (c & Hc & M).
  apply mem_char_iff in M. destruct M as [<-|[<-|[]]]; contradiction.
Qed.

Lemma value_hex h x : digit16 h x -> In h digits16 /\ hex_value h = Some (N.of_nat x).
Proof.
  unfold digit16. intros [H|H]; do 16 (destruct x as [|x]; [injection H as <-; split; [vm_compute; auto 30|reflexivity]|]);
    destruct x; discriminate H.
Qed.

Lemma visited_coded d a h l b e x y : Forall proper_name (d ++ e) -> Forall means_itself_in_url (d ++ e) ->
  digit16 h x -> digit16 l y -> 16 * x + y < 128 ->
  means_itself_in_url a -> means_itself_in_url b -> proper_name (a ++ [N.of_nat (16 * x + y)] ++ b) ->
  (forall z r, In z (lit "abcdefghijklmnopqrstuvwxyzABCDEFGHIJKLMNOPQRSTUVWXYZ") -> d <> ([z] ++ lit "|") :: r) ->
  visited ((d ++ [a ++ lit "%" ++ [h; l] ++ b] ++ e) ++ [tmp_name]) =
  Some ((d ++ [a ++ [N.of_nat (16 * x + y)] ++ b] ++ e) ++ [tmp_name]).
Proof.
  intros Pr Si Hh Hl Lo Sa Sb Pn Dr.
  destruct (value_hex h x Hh) as [Ih Vh]. destruct (value_hex l y Hl) as [Il Vl].
  assert (Ev : N.of_nat (16 * x + y) = (16 * N.of_nat x + N.of_nat y)%N) by lia.
  assert (Seg : segment_name (a ++ lit "%" ++ [h; l] ++ b) = Some (a ++ [N.of_nat (16 * x + y)] ++ b)).
  { rewrite Ev in *. apply segment_coded; try assumption; [apply triple_self_free; apply Sa|apply triple_self_free; apply Sb|lia]. }
  assert (Sp : forall n, means_itself_in_url n -> forall c, In c n -> ~ In c (lit "#?\" ++ [c_tab; c_nl; c_cr])).
  { intros n [K _] c Hc Hn. apply (K c Hn Hc). }
  assert (Cn : forall c, In c (a ++ lit "%" ++ [h; l] ++ b) -> In c a \/ In c b \/ c = c_percent \/ In c digits16).
  { intros c Hc. apply in_app_or in Hc. destruct Hc as [Hc|Hc]; [auto|]. cbn in Hc.
    destruct Hc as [<-|[<-|[<-|Hc]]]; auto. }
  assert (Pm : forall c, In c a \/ In c b -> In c (a ++ [N.of_nat (16 * x + y)] ++ b)).
  { intros c [K|K]; apply in_or_app; [auto|]. right. right. exact K. }
  destruct Pn as (N1 & N2 & N3 & N4 & N5 & N6).
  assert (D16 : forall c, In c digits16 -> scalar c /\ c <> 47%N /\ c <> 0%N /\ ~ In c (lit "#?\" ++ [c_tab; c_nl; c_cr])).
  { intros c Hc. cbv in Hc.
    repeat (destruct Hc as [<-|Hc]; [split; [left; reflexivity|]; split; [discriminate|]; split; [discriminate|];
      vm_compute; intuition discriminate|]). destruct Hc. }
  assert (Pc : proper_name (a ++ lit "%" ++ [h; l] ++ b)).
  { split; [destruct a; discriminate|]. split; [|split; [|split; [|split]]].
    - intros K. rewrite K in Seg. vm_compute in Seg. injection Seg as Seg. apply N2. symmetry. exact Seg.
    - intros K. rewrite K in Seg. vm_compute in Seg. injection Seg as Seg. apply N3. symmetry. exact Seg.
    - intros K. apply Cn in K. destruct K as [K|[K|[K|K]]]; [apply N4, Pm; auto|apply N4, Pm; auto|discriminate K|].
      apply D16 in K. destruct K as (_ & K & _). congruence.
    - intros K. apply Cn in K. destruct K as [K|[K|[K|K]]]; [apply N5, Pm; auto|apply N5, Pm; auto|discriminate K|].
      apply D16 in K. destruct K as (_ & _ & K & _). congruence.
    - apply Forall_forall. intros c K. unfold valid in N6. rewrite Forall_forall in N6. apply Cn in K.
      destruct K as [K|[K|[K|K]]]; [apply N6, Pm; auto|apply N6, Pm; auto|subst; left; reflexivity|apply D16; exact K]. }
  apply Forall_app in Pr, Si. destruct Pr as [Pd Pe], Si as [Sd Se].
  assert (Dd : forall n, proper_name n -> means_itself_in_url n -> dotted n = false).
  { intros n K1 K2. apply safe_not_dotted; [exact K1|]. apply triple_self_free. apply K2. }
  rewrite Forall_forall in Sd, Se, Pd, Pe.
  rewrite visited_plain.
  - rewrite <- !app_assoc.
    assert (G : forall q, (forall n, In n q -> proper_name n /\ means_itself_in_url n) -> forall r r',
      all_names r = Some r' -> all_names (q ++ r) = Some (q ++ r')).
    { induction q as [|n q IHq]; intros Hq r r' E; [exact E|]. cbn [app all_names].
      destruct (Hq n (or_introl eq_refl)) as [(_ & _ & _ & A & B & C) [_ Tf]].
      rewrite (segment_self n C (proj2 (triple_self_free n) Tf) A B).
      rewrite (IHq (fun m Hm => Hq m (or_intror Hm)) r r' E). reflexivity. }
    apply G; [intros n Hn; split; [apply (Pd n Hn)|apply (Sd n Hn)]|].
    cbn [app all_names]. cbn [app] in Seg. rewrite Seg. rewrite (G e) with (r' := [tmp_name]); [reflexivity| |reflexivity].
    intros n Hn; split; [apply (Pe n Hn)|apply (Se n Hn)].
  - apply Forall_app. split; [apply Forall_forall; exact Pd|]. apply Forall_cons; [exact Pc|apply Forall_forall; exact Pe].
  - apply Forall_app. split; [apply Forall_forall; intros n Hn; apply (Sd n Hn)|].
    apply Forall_cons; [|apply Forall_forall; intros n Hn; apply (Se n Hn)].
    intros c Hc K. apply Cn in K. destruct K as [K|[K|[K|K]]]; [apply (Sp a Sa c K Hc)|apply (Sp b Sb c K Hc)| |].
    + subst c. revert Hc. vm_compute. intuition discriminate.
    + apply D16 in K. destruct K as (_ & _ & _ & K). apply K. exact Hc.
  - apply Forall_app. split; [apply Forall_forall; intros n Hn; apply Dd; auto|].
    apply Forall_cons; [|apply Forall_forall; intros n Hn; apply Dd; auto].
    apply not_true_is_false. intros K. apply dotted_names in K. rewrite Seg in K. destruct K as [K|K]; congruence.
  - intros z r L E. apply letter_iff in L. destruct d as [|n d].
    + injection E as E _. assert (J : In c_percent [z; c_pipe]) by (rewrite <- E; apply in_or_app; right; left; reflexivity).
      destruct J as [J|[J|[]]]; [|discriminate J]. subst z. revert L. vm_compute. intuition discriminate.
    + injection E as -> _. apply (Dr z d L). reflexivity.
Qed.

(** ** Deciding on examples *)

Definition proper_nameb (n : str) : bool :=
  negb (is_empty n) && negb (str_eqb n (lit ".")) && negb (str_eqb n (lit "..")) &&
  negb (contains_char 47%N n) && negb (contains_char 0%N n) && forallb scalarb n.
Lemma proper_nameb_ok n : proper_nameb n = true -> proper_name n.
Proof.
  unfold proper_nameb. rewrite !andb_true_iff, !negb_true_iff. intros (((((A & B) & C) & D) & E) & F).
  split; [destruct n; [discriminate|discriminate]|].
  split; [intros ->; rewrite str_eqb_refl in B; discriminate|].
  split; [intros ->; rewrite str_eqb_refl in C; discriminate|].
  split; [apply contains_char_false; exact D|]. split; [apply contains_char_false; exact E|].
  apply Forall_forall. intros c Hc. apply scalarb_spec. rewrite forallb_forall in F. apply F. exact Hc.
Qed.

Definition web_dirb (d : path) : bool :=
  forallb proper_nameb d &&
  match visited (d ++ [tmp_name]) with Some p => path_eqb p (d ++ [tmp_name]) | None => false end.
Lemma path_eqb_true p : forall q, path_eqb p q = true -> p = q.
Proof.
  induction p as [|a p IH]; intros [|b q] E; cbn [path_eqb] in E; try discriminate; [reflexivity|].
  apply andb_true_iff in E. destruct E as [E1 E2]. apply str_eqb_eq in E1. rewrite E1, (IH q E2). reflexivity.
Qed.
Lemma web_dir_iff d : web_dirb d = true -> web_dir d.
Proof.
  unfold web_dirb. rewrite andb_true_iff. intros [A B].
  assert (P : Forall proper_name d).
  { apply Forall_forall. intros n Hn. apply proper_nameb_ok. rewrite forallb_forall in A. apply A. exact Hn. }
  split; [exact P|]. apply (visited_exact d P). destruct (visited (d ++ [tmp_name])) as [p|]; [|discriminate].
  apply path_eqb_true in B. rewrite B. reflexivity.
Qed.
