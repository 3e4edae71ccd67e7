(** * LoggerFacts: what logger.rs does with one thread and with several. *)
From Coq Require Import Ascii String.
From Verif Require Import Strings StringsFacts Utf8 System Logger.
Open Scope list_scope.

(** [l] is the line of [r] with [n] spaces behind the target. *)
Definition line_with (r : record) (n : nat) : str :=
  lit " " ++ level_text (rec_level r) ++ lit " " ++ rec_target r ++ crep n c_sp ++ lit " > " ++
  rec_text r ++ [c_nl].

Lemma nth_error_firstn_lt {A} (l : list A) : forall n i, i < n -> nth_error (firstn n l) i = nth_error l i.
Proof.
  induction l as [|x l IH]; intros [|n] [|i] L; cbn; try lia; try reflexivity. apply IH. lia.
Qed.

Lemma log_line_with r w : log_line r w = line_with r (w - length (rec_target r)).
Proof. unfold log_line, line_with, padded. now rewrite <- app_assoc. Qed.

Lemma encode_longer s : length s <= length (encode s).
Proof.
  induction s as [|c s IH]; [apply le_n|]. unfold encode in *. cbn [flat_map]. rewrite app_length. cbn [length].
  assert (1 <= length (enc_char c)); [|lia]. unfold enc_char.
  destruct (c <? 128)%N; [cbn; lia|]. destruct (c <? 2048)%N; [cbn; lia|].
  destruct (c <? 65536)%N; cbn; lia.
Qed.

Lemma max_target_width_eq w t :
  max_target_width w t = (Nat.max w (length (encode t)), Nat.max w (length (encode t))).
Proof.
  unfold max_target_width. destruct (w <? length (encode t)) eqn:E.
  - apply Nat.ltb_lt in E. rewrite Nat.max_r by lia. reflexivity.
  - apply Nat.ltb_ge in E. rewrite Nat.max_l by lia. reflexivity.
Qed.

Lemma log_all_length rs : forall w, length (log_all w rs) = length rs.
Proof.
  induction rs as [|r rs IH]; intros w; cbn [log_all]; [reflexivity|].
  rewrite max_target_width_eq. cbn [length]. now rewrite IH.
Qed.

(** The width of line [i]: the maximum of the bytes of the targets so far. *)
Lemma log_all_nth rs : forall w i r, nth_error rs i = Some r ->
  nth_error (log_all w rs) i =
    Some (log_line r (fold_left Nat.max (map (fun r => length (encode (rec_target r))) (firstn (S i) rs)) w)).
Proof.
  induction rs as [|r0 rs IH]; intros w i r E; [destruct i; discriminate|].
  cbn [log_all]. rewrite max_target_width_eq. destruct i as [|i]; cbn [nth_error] in *.
  - injection E as <-. reflexivity.
  - rewrite (IH _ i r E). reflexivity.
Qed.

Lemma fold_max_ge ns : forall w, w <= fold_left Nat.max ns w /\ forall n, In n ns -> n <= fold_left Nat.max ns w.
Proof.
  induction ns as [|n ns IH]; intros w; cbn [fold_left].
  - split; [lia|intros n []].
  - destruct (IH (Nat.max w n)) as [H1 H2]. split; [lia|]. intros k [<-|I]; [lia|auto].
Qed.

Lemma fold_max_in ns : forall w, fold_left Nat.max ns w = w \/ In (fold_left Nat.max ns w) ns.
Proof.
  induction ns as [|n ns IH]; intros w; cbn [fold_left]; [auto|].
  destruct (IH (Nat.max w n)) as [->|I]; [|right; right; exact I].
  destruct (Nat.max_spec w n) as [[_ ->]|[_ ->]]; [right; left; reflexivity|left; reflexivity].
Qed.

Lemma sequential rs : length (log_all 0 rs) = length rs /\
  forall i r, nth_error rs i = Some r -> exists n,
    nth_error (log_all 0 rs) i = Some (line_with r n) /\
    forall j r', j <= i -> nth_error rs j = Some r' ->
      length (rec_target r') <= length (rec_target r) + n.
Proof.
  split; [apply log_all_length|]. intros i r E. eexists. split.
  - rewrite (log_all_nth rs 0 i r E), log_line_with. reflexivity.
  - intros j r' L E'. pose proof (encode_longer (rec_target r')).
    assert (length (encode (rec_target r')) <=
      fold_left Nat.max (map (fun r => length (encode (rec_target r))) (firstn (S i) rs)) 0); [|lia].
    apply fold_max_ge. apply in_map_iff. exists r'. split; [reflexivity|].
    apply (nth_error_In _ j). rewrite nth_error_firstn_lt by lia. exact E'.
Qed.

(** For ASCII targets the column is exactly as wide as the longest so far. *)
Lemma ascii_bytes (s : str) : Forall (fun c => (c < 128)%N) s -> encode s = s.
Proof.
  induction 1 as [|c s H _ IH]; [reflexivity|]. unfold encode in *. cbn [flat_map]. rewrite IH.
  unfold enc_char. apply N.ltb_lt in H. now rewrite H.
Qed.

Lemma ascii_length (s : str) : Forall (fun c => (c < 128)%N) s -> length (encode s) = length s.
Proof. intros H. now rewrite ascii_bytes. Qed.

Lemma sequential_exact rs i r :
  (forall r, In r rs -> Forall (fun c => (c < 128)%N) (rec_target r)) ->
  nth_error rs i = Some r -> exists n r' j,
    nth_error (log_all 0 rs) i = Some (line_with r n) /\
    j <= i /\ nth_error rs j = Some r' /\ length (rec_target r) + n = length (rec_target r').
Proof.
  intros A E. set (ns := map (fun r => length (encode (rec_target r))) (firstn (S i) rs)).
  assert (Ir : In (length (encode (rec_target r))) ns).
  { apply in_map_iff. exists r. split; [reflexivity|]. apply (nth_error_In _ i).
    rewrite nth_error_firstn_lt by lia. exact E. }
  pose proof (proj2 (fold_max_ge ns 0) _ Ir) as G.
  assert (I : In (fold_left Nat.max ns 0) ns).
  { destruct (fold_max_in ns 0) as [K|I]; [|exact I]. rewrite K in G |- *.
    assert (Z : length (encode (rec_target r)) = 0) by (apply Nat.le_0_r; exact G).
    rewrite Z in Ir. exact Ir. }
  apply in_map_iff in I. destruct I as (r' & K & I). apply In_nth_error in I. destruct I as (j & J).
  assert (Lj : j <= i).
  { assert (j < length (firstn (S i) rs)) by (apply nth_error_Some; congruence).
    rewrite firstn_length in *. lia. }
  rewrite nth_error_firstn_lt in J by lia.
  exists (fold_left Nat.max ns 0 - length (rec_target r)), r', j.
  split; [rewrite (log_all_nth rs 0 i r E), log_line_with; reflexivity|].
  split; [exact Lj|]. split; [exact J|].
  rewrite ascii_length in K by (apply A, (nth_error_In _ _ J)).
  rewrite ascii_length in G by (apply A, (nth_error_In _ _ E)). lia.
Qed.

(** ** Threads *)

(** The race: both load, the first stores, then the second; a third record is
    logged when all this is over. *)
Lemma race a b c : length (encode (rec_target a)) > length (encode (rec_target b)) ->
  length (encode (rec_target b)) > 0 ->
  length (encode (rec_target c)) <= length (encode (rec_target b)) ->
  printed (log_run [0; 1; 0; 1; 0; 1; 0; 0; 0] (log_start [[a; c]; [b]])) =
    [(a, length (encode (rec_target a))); (b, length (encode (rec_target b)));
     (c, length (encode (rec_target b)))].
Proof.
  intros H1 H2 H3. unfold log_run, log_start. cbn [fold_left map].
  unfold log_step at 9. cbn [nth_error threads shared printed set_thread firstn skipn app].
  unfold log_step at 8. cbn [nth_error threads shared printed set_thread firstn skipn app].
  unfold log_step at 7. cbn [nth_error threads shared printed set_thread firstn skipn app].
  assert (E1 : 0 <? length (encode (rec_target a)) = true) by (apply Nat.ltb_lt; lia).
  rewrite E1.
  unfold log_step at 6. cbn [nth_error threads shared printed set_thread firstn skipn app].
  assert (E2 : 0 <? length (encode (rec_target b)) = true) by (apply Nat.ltb_lt; lia).
  rewrite E2.
  unfold log_step at 5. cbn [nth_error threads shared printed set_thread firstn skipn app].
  unfold log_step at 4. cbn [nth_error threads shared printed set_thread firstn skipn app].
  unfold log_step at 3. cbn [nth_error threads shared printed set_thread firstn skipn app].
  unfold log_step at 2. cbn [nth_error threads shared printed set_thread firstn skipn app].
  assert (E3 : length (encode (rec_target b)) <? length (encode (rec_target c)) = false)
    by (apply Nat.ltb_ge; lia).
  rewrite E3.
  unfold log_step. cbn [nth_error threads shared printed set_thread firstn skipn app]. reflexivity.
Qed.

Lemma race_lines a b c :
  Forall (fun x => (x < 128)%N) (rec_target a) -> Forall (fun x => (x < 128)%N) (rec_target b) ->
  Forall (fun x => (x < 128)%N) (rec_target c) ->
  length (rec_target c) <= length (rec_target b) < length (rec_target a) -> rec_target b <> [] ->
  exists sched n m, log_lines (log_run sched (log_start [[a; c]; [b]])) =
      [line_with a 0; line_with b n; line_with c m] /\
    length (rec_target b) + n < length (rec_target a) /\
    length (rec_target c) + m < length (rec_target a).
Proof.
  intros A B C [H1 H2] H3.
  assert (L : length (rec_target b) > 0) by (destruct (rec_target b); [congruence|cbn; lia]).
  exists [0; 1; 0; 1; 0; 1; 0; 0; 0], 0, (length (rec_target b) - length (rec_target c)).
  split; [|lia]. unfold log_lines. rewrite race by (rewrite !ascii_length by assumption; lia).
  cbn [map fst snd]. rewrite !log_line_with, !ascii_length by assumption. rewrite !Nat.sub_diag. reflexivity.
Qed.

(** What holds in every interleaving: a width is at least the target's own, and
    no wider than needed by some record. *)
Definition widths_of (rss : list (list record)) : list nat :=
  0 :: map (fun r => length (encode (rec_target r))) (concat rss).

Definition good (rss : list (list record)) (g : logger) : Prop :=
  In (shared g) (widths_of rss) /\
  (forall t, In t (threads g) -> exists rs, In rs rss /\ (exists pre, rs = pre ++ todo t) /\
     match at_ t, todo t with
     | Idle, _ => True
     | Loaded w, _ => In w (widths_of rss)
     | Ready w, r :: _ => In w (widths_of rss) /\ length (encode (rec_target r)) <= w
     | Ready w, [] => False
     end) /\
  (forall r w, In (r, w) (printed g) -> In r (concat rss) /\ In w (widths_of rss) /\
     length (encode (rec_target r)) <= w).

Lemma in_set_thread ts i t u : In u (set_thread ts i t) -> u = t \/ In u ts.
Proof.
  unfold set_thread. intros I. apply in_app_or in I. destruct I as [I|I].
  - right. rewrite <- (firstn_skipn i ts). apply in_or_app. left. exact I.
  - apply in_app_or in I. destruct I as [[->|[]]|I]; [left; reflexivity|right].
    rewrite <- (firstn_skipn (S i) ts). apply in_or_app. right. exact I.
Qed.

Lemma good_step rss g i : good rss g -> good rss (log_step g i).
Proof.
  intros (Hs & Ht & Hp). unfold log_step.
  destruct (nth_error (threads g) i) as [[a [|r rest]]|] eqn:E; try (split; [|split]; assumption).
  pose proof (nth_error_In _ _ E) as I. destruct (Ht _ I) as (rs & Irs & (pre & Epre) & Ha).
  cbn [todo at_] in *.
  assert (Ir : In r (concat rss)).
  { apply in_concat. exists rs. split; [exact Irs|]. rewrite Epre. apply in_or_app. right. left. reflexivity. }
  assert (Iw : In (length (encode (rec_target r))) (widths_of rss)).
  { right. apply in_map_iff. exists r. auto. }
  assert (K : forall t, (exists rs, In rs rss /\ (exists pre, rs = pre ++ todo t) /\
     match at_ t, todo t with
     | Idle, _ => True
     | Loaded w, _ => In w (widths_of rss)
     | Ready w, r :: _ => In w (widths_of rss) /\ length (encode (rec_target r)) <= w
     | Ready w, [] => False
     end) -> forall u, In u (set_thread (threads g) i t) -> exists rs, In rs rss /\ (exists pre, rs = pre ++ todo u) /\
     match at_ u, todo u with
     | Idle, _ => True
     | Loaded w, _ => In w (widths_of rss)
     | Ready w, r :: _ => In w (widths_of rss) /\ length (encode (rec_target r)) <= w
     | Ready w, [] => False
     end).
  { intros t H u Iu. apply in_set_thread in Iu. destruct Iu as [->|Iu]; [exact H|exact (Ht u Iu)]. }
  destruct a as [|w|w].
  - split; [exact Hs|]. split; [|exact Hp]. apply K. exists rs. cbn [todo at_]. eauto.
  - destruct (w <? length (encode (rec_target r))) eqn:L.
    + split; [exact Iw|]. split; [|exact Hp]. apply K. exists rs. cbn [todo at_]. eauto 6.
    + apply Nat.ltb_ge in L. split; [exact Hs|]. split; [|exact Hp]. apply K. exists rs. cbn [todo at_]. eauto 6.
  - split; [exact Hs|]. split.
    + apply K. exists rs. cbn [todo at_]. split; [exact Irs|]. split; [|exact Logic.I].
      exists (pre ++ [r]). rewrite <- app_assoc. exact Epre.
    + intros r' w' Ip. cbn [printed] in Ip. apply in_app_or in Ip. destruct Ip as [Ip|[Ip|[]]]; [apply Hp, Ip|].
      injection Ip as <- <-. destruct Ha as [Ha Hb]. auto.
Qed.

Lemma good_start rss : good rss (log_start rss).
Proof.
  split; [left; reflexivity|]. split; [|intros r w []].
  intros t I. cbn [threads log_start] in I. apply in_map_iff in I. destruct I as (rs & <- & I).
  exists rs. cbn [todo at_]. split; [exact I|]. split; [|exact Logic.I]. exists []. reflexivity.
Qed.

Lemma good_run rss sched : good rss (log_run sched (log_start rss)).
Proof.
  unfold log_run. generalize (good_start rss). generalize (log_start rss).
  induction sched as [|i sched IH]; intros g G; cbn [fold_left]; [exact G|].
  apply IH, good_step, G.
Qed.

Lemma threads_lines rss sched l : In l (log_lines (log_run sched (log_start rss))) ->
  exists rs r n, In rs rss /\ In r rs /\ l = line_with r n /\
    (n = 0 \/ exists rs' r', In rs' rss /\ In r' rs' /\
       length (rec_target r) + n = length (encode (rec_target r'))).
Proof.
  intros I. unfold log_lines in I. apply in_map_iff in I. destruct I as ((r & w) & <- & I).
  destruct (good_run rss sched) as (_ & _ & Hp). destruct (Hp r w I) as (Ir & Iw & L).
  apply in_concat in Ir. destruct Ir as (rs & Irs & Ir). cbn [fst snd].
  exists rs, r, (w - length (rec_target r)). split; [exact Irs|]. split; [exact Ir|].
  split; [apply log_line_with|]. pose proof (encode_longer (rec_target r)).
  destruct Iw as [<-|Iw]; [left; lia|]. right. apply in_map_iff in Iw. destruct Iw as (r' & E & Ir').
  apply in_concat in Ir'. destruct Ir' as (rs' & Irs' & Ir'). exists rs', r'. split; [exact Irs'|].
  split; [exact Ir'|]. lia.
Qed.

(** The targets of all lines begin in the same column, behind the name of the level. *)
Lemma level_column g l : In l (log_lines g) ->
  exists r lv rest, In r (map fst (printed g)) /\
    l = lv ++ rec_target r ++ rest /\ length lv = 7 /\
    exists name, lv = [c_sp] ++ name ++ crep (6 - length name) c_sp /\
      In (rec_level r, name) [(LTrace, lit "TRACE"); (LDebug, lit "DEBUG"); (LInfo, lit "INFO");
                              (LWarn, lit "WARN"); (LError, lit "ERROR")].
Proof.
  unfold log_lines. intros H. apply in_map_iff in H as ([r n] & <- & H). cbn [fst snd].
  unfold log_line, padded.
  exists r, ([c_sp] ++ level_text (rec_level r) ++ [c_sp]),
    (crep (n - length (rec_target r)) c_sp ++ lit " > " ++ rec_text r ++ [c_nl]).
  split; [apply in_map_iff; now exists (r, n)|].
  split; [rewrite <- !app_assoc; reflexivity|].
  destruct (rec_level r); (split; [reflexivity|]).
  - exists (lit "ERROR"). split; [reflexivity|]. cbn. tauto.
  - exists (lit "WARN"). split; [reflexivity|]. cbn. tauto.
  - exists (lit "INFO"). split; [reflexivity|]. cbn. tauto.
  - exists (lit "DEBUG"). split; [reflexivity|]. cbn. tauto.
  - exists (lit "TRACE"). split; [reflexivity|]. cbn. tauto.
Qed.
