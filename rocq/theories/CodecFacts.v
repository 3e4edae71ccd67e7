(** * CodecFacts: what is decoded from the files that were written, and what the tests of smd-core leave. *)
From Coq Require Import Ascii String ZArith.
From Verif Require Import Strings StringsFacts Token Iter Lexer Parser Utf8 System Config Url Cli
  SpecCli SystemFacts CliFacts CliMain ConfigFacts Release NumberFacts FilterFacts Args ArgsFacts Codec.
Open Scope list_scope.

(** ** Storing and decoding *)

Section Object.
Variable T : Type.
Variable serialize : T -> result str.
Variable deserialize : str -> result T.

Definition round (p : path) (v : T) : prog (result T) :=
  try (store T serialize p v) (fun _ => decode_from_file T deserialize p).

(** What [decode_from_file] finds in a file with these bytes. *)
Definition found (b : bytes) : result T :=
  match decode b with Some s => deserialize s | None => inr (IoError not_utf8) end.

Lemma safe_encode P m (I : fs -> local -> Prop) (Q : result str -> fs -> local -> Prop) v f l :
  (forall l', fresh l' = fresh l -> tabs l' = tabs l -> I f l') ->
  (forall l', fresh l' = fresh l -> tabs l' = tabs l -> Q (serialize v) f l') ->
  safe P m I Q (encode_to_string T serialize v) f l.
Proof.
  intros Hi Hq. unfold encode_to_string. apply safe_say; [apply Hi; reflexivity|].
  destruct (serialize v) as [s|e]; (apply safe_say; [apply Hi; reflexivity|]); split; auto.
Qed.

Lemma safe_decode P m (I : fs -> local -> Prop) (Q : result T -> fs -> local -> Prop) p f l :
  (forall l', I f l') ->
  (forall r l', (exists b s, contents f p = Some b /\ decode b = Some s /\ r = deserialize s) \/
     (exists t, r = inr (IoError t)) -> Q r f l') ->
  safe P m I Q (decode_from_file T deserialize p) f l.
Proof.
  intros Hi Hq. unfold decode_from_file. apply safe_say; [apply Hi|].
  apply (safe_try P m I (fun r f' _ => f' = f /\
    match r with
    | inl s => exists b, contents f p = Some b /\ decode b = Some s
    | inr e => exists t, e = IoError t end)).
  - apply safe_read; [intros; apply Hi|auto|]. intros t l' _. split; [reflexivity|]. exists t. reflexivity.
  - intros s f' l' _ [-> (b & C & D)].
    destruct (deserialize s) as [v|e] eqn:E; (apply safe_say; [apply Hi|]); (split; [apply Hi|]);
      apply Hq; left; exists b, s; auto.
  - intros e f' l' _ [-> (t & ->)]. apply Hq. right. exists t. reflexivity.
Qed.

Lemma round_safe m f p v : new_process m f ->
  (forall s, serialize v = inl s -> valid s /\ deserialize s = inl v) ->
  safe no_short m (fun _ _ => True) (fun r _ _ => forall w, r = inl w -> w = v) (round p v) f no_tabs.
Proof.
  intros N inverse.
  apply (safe_try no_short m _ (fun r f' _ =>
    match r with
    | inl _ => exists s, serialize v = inl s /\ contents f' p = Some (encode s)
    | inr _ => True end)).
  - unfold store. apply (safe_try no_short m _ (fun r f' l' => f' = f /\ fresh l' = fresh no_tabs /\ r = serialize v)).
    + apply safe_encode; auto.
    + intros s f' l' _ (-> & F & E). apply (safe_write_to_file no_short m); auto.
      * apply (unused_fresh m f no_tabs); [apply unused_start; exact N|exact F].
      * intros w f1 l1 [->|(n & [] & _)] W _ _. exists s. split; [auto|]. apply (wr_here _ _ _ _ W).
    + auto.
  - intros _ f1 l1 _ (s & E & C). apply safe_decode; [auto|].
    intros r l' [(b & s' & C' & D & ->)|(t & ->)] w Hw; [|discriminate Hw].
    rewrite C in C'. injection C' as <-. destruct (inverse s E) as [V I].
    rewrite (decode_encode s V) in D. injection D as <-. rewrite I in Hw. congruence.
  - intros e f1 l1 _ _ w Hw. discriminate Hw.
Qed.

Lemma round_decoded m f p v xs f' p' w :
  (forall s, serialize v = inl s -> valid s /\ deserialize s = inl v) ->
  new_process m f -> Forall no_short xs ->
  exec xs f (start m (round p v)) = (f', p') -> code p' = Done (inl w) -> w = v.
Proof.
  intros Iv N F E D.
  destruct (safe_exec no_short m _ _ xs f (start m (round p v)) eq_refl F (round_safe m f p v N Iv)) as [_ S].
  rewrite E in S. cbn [fst snd] in S. rewrite D in S. apply (proj2 S w eq_refl).
Qed.

(** If it cannot be serialized, that is what is said, and no file is touched. *)
Definition refusal (e : error) : list record :=
  [{| rec_level := LDebug; rec_target := lit "smd_core::fs"; rec_text := lit "Serializing object..." |};
   {| rec_level := LError; rec_target := lit "smd_core::fs"; rec_text := lit "Serialization failed: " ++ display_error e |}].
Lemma store_refused m f p v e xs f' p' : serialize v = inr e ->
  exec xs f (start m (store T serialize p v)) = (f', p') ->
  f' = f /\ forall r, code p' = Done r -> r = inr e /\ logged (here p') = refusal e.
Proof.
  intros E Ex.
  assert (S : safe anything m (fun f' _ => f' = f) (fun r _ l' => r = inr e /\ logged l' = refusal e) (store T serialize p v) f no_tabs).
  { unfold store. apply (safe_try anything m _ (fun r _ l' => r = inr e /\ logged l' = refusal e)).
    - unfold encode_to_string. rewrite E. apply safe_say; [reflexivity|]. apply safe_say; [reflexivity|].
      split; [reflexivity|]. split; reflexivity.
    - intros a f1 l1 _ [H _]. discriminate H.
    - intros e' f1 l1 _ [H L]. split; [congruence|exact L]. }
  destruct (safe_exec anything m _ _ xs f (start m (store T serialize p v)) eq_refl (anything_all xs) S) as [_ S'].
  rewrite Ex in S'. cbn [fst snd] in S'. split; [apply (safe_inv _ _ _ _ _ _ _ S')|].
  intros r D. rewrite D in S'. apply (proj2 S').
Qed.

Lemma runs_encode m f l v s : serialize v = inl s ->
  exists l', logged_only l l' /\ runs_to m [Ok; Ok] f l (encode_to_string T serialize v) f l' (inl s).
Proof.
  intros E. unfold encode_to_string. rewrite E. eexists. split; [|do 2 apply runs_say; constructor]. split; reflexivity.
Qed.

Lemma runs_decode m f l p b : contents f p = Some b ->
  exists xs l', Forall (eq Ok) xs /\ runs_to m xs f l (decode_from_file T deserialize p) f l' (found b).
Proof.
  intros C. unfold decode_from_file, found. destruct (decode b) as [s|] eqn:D.
  - destruct (runs_read m p f (logs l {| rec_level := LDebug; rec_target := t_fs;
       rec_text := lit "Decoding object from file: " ++ display p |}) b s C D) as (l1 & _ & R).
    destruct (deserialize s) as [v|e] eqn:E; eexists (Ok :: [Ok; Ok; Ok] ++ [Ok]), _;
      (split; [repeat constructor|]); apply runs_say; (eapply runs_try; [exact R|]); rewrite E; apply runs_say; constructor.
  - assert (R : exists l', runs_to m [Ok; Ok; Ok] f (logs l {| rec_level := LDebug; rec_target := t_fs;
       rec_text := lit "Decoding object from file: " ++ display p |}) (read_to_string p) f l' (inr (IoError not_utf8))).
    { eexists. unfold read_to_string. apply runs_say. eapply rt_do; [cbn [System.answer]; rewrite C; reflexivity|].
      cbv beta iota zeta. rewrite D. apply runs_say. constructor. }
    destruct R as [l1 R]. exists (Ok :: [Ok; Ok; Ok] ++ []), l1. split; [repeat constructor|]. apply runs_say.
    unfold try. eapply runs_to_bind; [exact R|]. constructor.
Qed.

Lemma runs_round m f p v s x : serialize v = inl s -> new_process m f -> creatable f p ->
  x = Ok \/ (exists k, x = Short k) ->
  exists xs f' p', Forall (fun y => y = Ok \/ y = x) xs /\
    exec xs f (start m (round p v)) = (f', p') /\
    contents f' p = Some (took x (encode s)) /\ code p' = Done (found (took x (encode s))).
Proof.
  intros E N C Hx. destruct (runs_encode m f no_tabs v s E) as (l1 & [F1 _] & R1).
  assert (U1 : unused m f l1) by (apply (unused_fresh m f no_tabs); [apply unused_start; exact N|exact F1]).
  destruct (runs_write m f l1 p s x U1 C Hx) as (f2 & l2 & W & _ & _ & R2).
  destruct (runs_decode m f2 l2 p _ (wr_here _ _ _ _ W)) as (xs & l3 & Fx & R3).
  assert (R : runs_to m (([Ok; Ok] ++ [Ok; Ok; x; Ok]) ++ xs) f no_tabs (round p v) f2 l3 (found (took x (encode s)))).
  { unfold round. eapply runs_try; [|exact R3]. unfold store. eapply runs_try; [exact R1|exact R2]. }
  eexists _, f2, _. split; [|split; [apply (runs_to_exec m _ _ _ _ _ _ _ R)|split; [apply (wr_here _ _ _ _ W)|reflexivity]]].
  apply Forall_app. split; [repeat (constructor; auto)|].
  apply (Forall_impl (fun y => y = Ok \/ y = x)) with (2 := Fx). intros y <-. auto.
Qed.
End Object.

(** ** The objects of the tests *)

Lemma fold_number s : forall a, forallb is_digit s = true ->
  fold_left (fun n c => 10 * n + (Z.of_N c - 48))%Z s (Z.of_nat a) = Z.of_nat (number_go a s).
Proof.
  induction s as [|c s IH]; intros a D; [reflexivity|]. cbn [forallb] in D. apply andb_true_iff in D. destruct D as [D1 D2].
  cbn [fold_left number_go].
  assert (E : (10 * Z.of_nat a + (Z.of_N c - 48) = Z.of_nat (10 * a + N.to_nat (c - 48)))%Z).
  { unfold is_digit in D1. apply andb_true_iff in D1. destruct D1 as [L _]. apply N.leb_le in L. lia. }
  rewrite E. apply IH. exact D2.
Qed.

Lemma digits_dec n : digits_value (dec n) = Some (Z.of_nat n) /\ exists c r, dec n = c :: r /\ is_digit c = true.
Proof.
  pose proof (proj2 (number_of_dec (dec n) n) eq_refl) as H. unfold number_of in H.
  destruct (dec n) as [|c r] eqn:E; [discriminate|]. destruct (numeric (c :: r)) eqn:Nu; [|discriminate].
  cbn [andb] in H. destruct (negb _ || _) eqn:Z0; [|discriminate]. injection H as H.
  split; [|exists c, r; split; [reflexivity|]; unfold numeric in Nu; cbn [forallb] in Nu; apply andb_true_iff in Nu; apply Nu].
  unfold digits_value. unfold numeric in Nu. rewrite Nu. cbn [is_empty negb andb].
  f_equal. rewrite <- H. apply (fold_number (c :: r) 0 Nu).
Qed.

Lemma digit_sign c : is_digit c = true -> ceq c c_minus = false /\ ceq c c_plus = false /\ c <> c_colon.
Proof.
  unfold is_digit. intros H. apply andb_true_iff in H. destruct H as [L G]. apply N.leb_le in L, G.
  repeat split; try (apply N.eqb_neq; unfold c_minus, c_plus; lia). unfold c_colon. lia.
Qed.

Lemma parse_show z : in_i32 z = true -> parse_int (show_int z) = Some z.
Proof.
  intros R. unfold show_int. destruct (Z.ltb z 0) eqn:Ng.
  - apply Z.ltb_lt in Ng. unfold parse_int. replace (ceq c_minus c_minus) with true by reflexivity.
    destruct (digits_dec (Z.to_nat (- z))) as [-> _]. cbn [option_map]. rewrite Z2Nat.id by lia.
    rewrite Z.opp_involutive, R. reflexivity.
  - apply Z.ltb_ge in Ng. destruct (digits_dec (Z.to_nat z)) as [V (c & r & E & D)].
    destruct (digit_sign c D) as (M & P & _). unfold parse_int. rewrite E in *. rewrite M, P, V.
    rewrite Z2Nat.id by lia. rewrite R. reflexivity.
Qed.

Lemma show_no_colon z : ~ In c_colon (show_int z).
Proof.
  assert (D : forall n, ~ In c_colon (dec n)).
  { intros n H. pose proof (proj2 (number_of_dec (dec n) n) eq_refl) as K. unfold number_of in K.
    destruct (dec n) as [|c r]; [destruct H|]. destruct (numeric (c :: r)) eqn:Nu; [|discriminate].
    unfold numeric in Nu. rewrite forallb_forall in Nu. apply Nu in H. discriminate H. }
  unfold show_int. destruct (Z.ltb z 0); [|apply D]. intros [H|H]; [discriminate H|apply (D _ H)].
Qed.

Lemma split_two a b : ~ In c_colon a -> ~ In c_colon b -> split [c_colon] (a ++ lit ":" ++ b) = [a; b].
Proof.
  intros A B. unfold split. change (lit ":" ++ b) with (c_colon :: b). rewrite split_at by exact A.
  rewrite split_free by exact B. reflexivity.
Qed.

Lemma my_inverse v s : in_i32 (ms_value v) = true -> ~ In c_colon (ms_name v) ->
  my_serialize v = inl s -> my_deserialize s = inl v.
Proof.
  intros R Nc. unfold my_serialize. destruct (is_empty (ms_name v)); [discriminate|]. intros H.
  assert (Es : s = ms_name v ++ lit ":" ++ show_int (ms_value v)) by congruence. subst s. clear H.
  unfold my_deserialize. rewrite split_two by (try exact Nc; apply show_no_colon).
  rewrite (parse_show _ R). destruct v. reflexivity.
Qed.

Lemma split_count c s : forall acc, length (split_go [c] 0 acc s) = S (count_occ N.eq_dec s c).
Proof.
  induction s as [|x s IH]; intros acc; [reflexivity|].
  cbn [count_occ]. destruct (N.eq_dec x c) as [->|Ne].
  - pose proof (split_at c [] s acc (fun K => match K with end)) as E. cbn [app] in E. rewrite E. cbn [length].
    rewrite IH. reflexivity.
  - cbn [split_go starts_with]. unfold ceq. apply N.eqb_neq in Ne. rewrite N.eqb_sym, Ne. cbn [andb]. apply IH.
Qed.

Lemma my_colon v : In c_colon (ms_name v) ->
  my_deserialize (ms_name v ++ lit ":" ++ show_int (ms_value v)) =
  inr (DeserializeError (lit "Input string is not properly formatted")).
Proof.
  intros I. unfold my_deserialize.
  assert (L : 2 < length (split [c_colon] (ms_name v ++ lit ":" ++ show_int (ms_value v)))).
  { unfold split. rewrite split_count, !count_occ_app. apply (count_occ_In N.eq_dec) in I.
    change (count_occ N.eq_dec (lit ":") c_colon) with 1. unfold str, char in *. lia. }
  destruct (split [c_colon] _) as [|x [|y [|z l]]]; cbn [length] in L; try lia. reflexivity.
Qed.

(** What is serialized is deserialized exactly if there is no colon in the name. *)
Lemma my_exact v : in_i32 (ms_value v) = true ->
  ((exists s, my_serialize v = inl s /\ my_deserialize s = inl v) <-> ms_name v <> [] /\ ~ In c_colon (ms_name v)).
Proof.
  intros R. split.
  - intros (s & S & D). unfold my_serialize in S. destruct (is_empty (ms_name v)) eqn:Em; [discriminate|].
    split; [intros E; rewrite E in Em; discriminate|]. intros I. pose proof (my_colon v I) as K.
    assert (Es : s = ms_name v ++ lit ":" ++ show_int (ms_value v)) by congruence. subst s. rewrite K in D. discriminate D.
  - intros [Ne Nc]. unfold my_serialize. destruct (is_empty (ms_name v)) eqn:Em; [exfalso; destruct (ms_name v); [apply Ne; reflexivity|discriminate Em]|].
    eexists. split; [reflexivity|]. apply my_inverse; [exact R|exact Nc|]. unfold my_serialize. rewrite Em. reflexivity.
Qed.

Lemma my_valid v s : valid (ms_name v) -> my_serialize v = inl s -> valid s.
Proof.
  intros V. unfold my_serialize. destruct (is_empty (ms_name v)); [discriminate|]. intros H.
  assert (Es : s = ms_name v ++ lit ":" ++ show_int (ms_value v)) by congruence. subst s. clear H.
  apply Forall_app. split; [exact V|]. apply Forall_app. split; [repeat constructor|].
  assert (D : forall n, valid (dec n)).
  { intros n. apply Forall_forall. intros c Hc. pose proof (proj2 (number_of_dec (dec n) n) eq_refl) as K. unfold number_of in K.
    destruct (dec n) as [|x r]; [destruct Hc|]. destruct (numeric (x :: r)) eqn:Nu; [|discriminate].
    unfold numeric in Nu. rewrite forallb_forall in Nu. apply Nu in Hc. unfold is_digit in Hc.
    apply andb_true_iff in Hc. destruct Hc as [L G]. apply N.leb_le in L, G. left. lia. }
  unfold show_int. destruct (Z.ltb (ms_value v) 0); [|apply D]. constructor; [left; reflexivity|apply D].
Qed.

(** ** The tests of files *)

(** Whether nothing can be told apart. *)
Definition same_files (f f' : fs) : Prop := forall q, names f' q = names f q /\ contents f' q = contents f q.

Lemma written_removed f p w f1 f2 : names f p = None -> written f p w f1 -> removed f1 p f2 -> same_files f f2.
Proof.
  intros Np W R.
  assert (NL : not_link (names f p)) by (rewrite Np; intros t; discriminate).
  assert (Rp : resolve max_links f p = Some p) by (apply resolve_self; exact NL).
  assert (R1 : resolve max_links f1 p = Some p) by (rewrite (wr_resolve _ _ _ _ W); exact Rp).
  assert (Rs : forall k q, resolve k f2 q = resolve k f q).
  { intros k q. rewrite (removed_resolve f1 p f2 R R1). apply (wr_resolve _ _ _ _ W). }
  assert (Nm : forall q, names f2 q = names f q).
  { intros q. destruct (path_eqb q p) eqn:E.
    - apply path_eqb_eq in E. subst q. rewrite Np. destruct R as (-> & _). cbn [names set_name].
      rewrite path_eqb_refl. reflexivity.
    - assert (Ne : q <> p) by (intros ->; rewrite path_eqb_refl in E; discriminate).
      rewrite (removed_names f1 p f2 q R Ne). apply (wr_names _ _ _ _ W). rewrite Rp. congruence. }
  intros q. split; [apply Nm|].
  destruct (resolve max_links f q) as [r|] eqn:Rq.
  - destruct (path_eqb r p) eqn:E.
    + apply path_eqb_eq in E. subst r. unfold contents, inode_of. rewrite (Rs max_links q), Rq, Nm, Np. reflexivity.
    + assert (Ne : r <> p) by (intros ->; rewrite path_eqb_refl in E; discriminate).
      rewrite (removed_contents f1 p f2 q R R1); [|rewrite (wr_resolve _ _ _ _ W); congruence].
      apply (wr_other _ _ _ _ W). intros [A|(i & A & _)]; [rewrite Rp, Rq in A; congruence|].
      unfold inode_of in A. rewrite Rp, Np in A. discriminate A.
  - unfold contents, inode_of. rewrite (Rs max_links q), Rq. reflexivity.
Qed.

Lemma runs_expect m {A} xs ys f l (p : prog (result A)) f1 l1 a (k : A -> prog unit) f2 l2 b :
  runs_to m xs f l p f1 l1 (inl a) -> runs_to m ys f1 l1 (k a) f2 l2 b ->
  runs_to m (xs ++ ys) f l (expect p k) f2 l2 b.
Proof. intros H K. apply (runs_to_bind m xs ys f l p f1 l1 (inl a)); assumption. Qed.

Lemma absent_creatable f d n : names f d = Some NDir -> names f (d ++ [n]) = None -> creatable f (d ++ [n]).
Proof.
  intros D N. exists (d ++ [n]). split; [apply resolve_self; rewrite N; intros t; discriminate|].
  right. split; [exact N|]. unfold parent. rewrite removelast_last. exact D.
Qed.

Lemma written_there f p w f' : names f p = None -> written f p w f' -> exists i, names f' p = Some (NFile i).
Proof.
  intros Np W. destruct (wr_file _ _ _ _ W) as (q & i & R & N).
  rewrite resolve_self in R by (rewrite Np; intros t; discriminate). injection R as <-. exists i. exact N.
Qed.

(** A test that writes a text, looks at it in some way and removes the file. *)
Lemma runs_cleaned m f n s {A} (look : path -> prog (result A)) (good : A -> bool) :
  let p := cwd m ++ [n] in
  new_process m f -> names f (cwd m) = Some NDir -> names f p = None ->
  (forall f1 l1, contents f1 p = Some (encode s) ->
     exists xs l2 a, Forall (eq Ok) xs /\ runs_to m xs f1 l1 (look p) f1 l2 (inl a) /\ good a = true) ->
  exists xs f' p', Forall (eq Ok) xs /\
    exec xs f (start m (expect (write_to_file p s) (fun _ => expect (look p) (fun a => assert (good a)
      (expect_io (Remove p) (fun _ => Done tt)))))) = (f', p') /\
    code p' = Done tt /\ same_files f f'.
Proof.
  intros p N D Np L. assert (C : creatable f p) by (apply absent_creatable; assumption).
  destruct (runs_write m f no_tabs p s Ok (unused_start m f N) C (or_introl eq_refl)) as (f1 & l1 & W & _ & _ & R1).
  destruct (L f1 l1 (wr_here _ _ _ _ W)) as (ys & l2 & a & Fy & R2 & G).
  destruct (written_there f p _ f1 Np W) as [i Ni].
  assert (Rm : removed f1 p (set_name f1 p None)).
  { split; [reflexivity|]. rewrite Ni. split; discriminate. }
  assert (R : runs_to m ([Ok; Ok; Ok; Ok] ++ ys ++ [Ok]) f no_tabs (expect (write_to_file p s) (fun _ => expect (look p)
     (fun a => assert (good a) (expect_io (Remove p) (fun _ => Done tt))))) (set_name f1 p None) l2 tt).
  { eapply runs_expect; [exact R1|]. eapply runs_expect; [exact R2|]. rewrite G. cbn [assert]. unfold expect_io.
    eapply rt_do; [cbn [System.answer]; rewrite Ni; reflexivity|]. constructor. }
  eexists _, _, _. split; [|split; [apply (runs_to_exec m _ _ _ _ _ _ _ R)|split; [reflexivity|]]].
  - repeat constructor. apply Forall_app. split; [exact Fy|repeat constructor].
  - apply (written_removed f p _ f1 _ Np W Rm).
Qed.

Lemma read_cleaned m f : new_process m f -> names f (cwd m) = Some NDir ->
  names f (cwd m ++ [lit "test_file.txt"]) = None ->
  exists xs f' p', Forall (eq Ok) xs /\ exec xs f (start m (test_read_to_string (cwd m))) = (f', p') /\
    code p' = Done tt /\ same_files f f'.
Proof.
  intros N D Np. apply (runs_cleaned m f (lit "test_file.txt") (lit "Test Content") read_to_string
    (fun c => str_eqb c (lit "Test Content"))); try assumption.
  intros f1 l1 C. destruct (runs_read m _ f1 l1 _ (lit "Test Content") C) as (l2 & _ & R); [vm_compute; reflexivity|].
  exists [Ok; Ok; Ok], l2, (lit "Test Content"). split; [repeat constructor|]. split; [exact R|reflexivity].
Qed.

Lemma decode_cleaned m f : new_process m f -> names f (cwd m) = Some NDir ->
  names f (cwd m ++ [lit "decode_test_file.txt"]) = None ->
  exists xs f' p', Forall (eq Ok) xs /\ exec xs f (start m (test_decode_from_file (cwd m))) = (f', p') /\
    code p' = Done tt /\ same_files f f'.
Proof.
  intros N D Np. apply (runs_cleaned m f (lit "decode_test_file.txt") (lit "Test:42")
    (decode_from_file my_struct my_deserialize) is_test42); try assumption.
  intros f1 l1 C. destruct (runs_decode my_struct my_deserialize m f1 l1 _ _ C) as (xs & l2 & Fx & R).
  assert (E : found my_struct my_deserialize (encode (lit "Test:42")) = inl test42) by (vm_compute; reflexivity).
  rewrite E in R. exists xs, l2, test42. split; [exact Fx|]. split; [exact R|reflexivity].
Qed.

(** A file that was there before is lost. *)
Lemma safe_expect P m (I : fs -> local -> Prop) {A} (Q : A -> fs -> local -> Prop) (R : unit -> fs -> local -> Prop)
  (p : prog (result A)) k f l :
  safe P m I (fun r f' l' => match r with inl a => Q a f' l' | inr _ => True end) p f l ->
  (forall a f' l', I f' l' -> Q a f' l' -> safe P m I R (k a) f' l') ->
  safe P m I R (expect p k) f l.
Proof.
  intros H K. unfold expect.
  apply (safe_bind P m I (fun r f' l' => match r with inl a => Q a f' l' | inr _ => True end) R); [exact H|].
  intros [a|e] f' l' Hi Hq; [apply K; assumption|exact Hi].
Qed.

Lemma safe_anything P m {A} (Q : A -> fs -> local -> Prop) (p : prog A) : (forall a f l, Q a f l) ->
  forall f l, safe P m (fun _ _ => True) Q p f l.
Proof. intros H. induction p as [a| | |B c k IH]; intros f l; cbn [safe]; auto. Qed.

Lemma safe_removal P m p f l :
  safe P m (fun _ _ => True) (fun _ f' _ => names f' p = None) (expect_io (Remove p) (fun _ => Done tt)) f l.
Proof.
  unfold expect_io. split; [auto|]. intros x _. cbv zeta.
  destruct x; cbn [System.answer]; try exact I;
    (destruct (names f p) as [[j|t|]|] eqn:E; cbn [fst snd safe]; try exact I);
    (split; [exact I|]; cbn [names set_name]; rewrite path_eqb_refl; reflexivity).
Qed.

Lemma cleaned_lost m f xs f' p' n t :
  In (n, t) [(lit "test_file.txt", test_read_to_string (cwd m)); (lit "decode_test_file.txt", test_decode_from_file (cwd m))] ->
  exec xs f (start m t) = (f', p') -> code p' = Done tt -> names f' (cwd m ++ [n]) = None.
Proof.
  intros H E D.
  assert (S : safe anything m (fun _ _ => True) (fun _ f' _ => names f' (cwd m ++ [n]) = None) t f no_tabs).
  { assert (K : forall s A (look : prog (result A)) good, safe anything m (fun _ _ => True) (fun _ f' _ => names f' (cwd m ++ [n]) = None)
      (expect (write_to_file (cwd m ++ [n]) s) (fun _ => expect look (fun a => assert (good a)
        (expect_io (Remove (cwd m ++ [n])) (fun _ => Done tt))))) f no_tabs).
    { intros s A look good. apply (safe_expect anything m _ (fun _ _ _ => True)).
      { apply safe_anything. intros [a|e]; auto. }
      intros _ f1 l1 _ _. apply (safe_expect anything m _ (fun _ _ _ => True)).
      { apply safe_anything. intros [a|e]; auto. }
      intros a f2 l2 _ _. unfold assert. destruct (good a); [apply safe_removal|exact I]. }
    destruct H as [H|[H|[]]]; injection H as <- <-; apply K. }
  destruct (safe_exec anything m _ _ xs f (start m t) eq_refl (anything_all xs) S) as [_ S'].
  rewrite E in S'. cbn [fst snd] in S'. rewrite D in S'. apply (proj2 S').
Qed.

(** ** The tests of the browser *)

Lemma safe_opening P m p f l :
  safe P m (fun _ _ => True) (fun _ f' _ => f' = f) (open_file p) f l.
Proof.
  unfold open_file, try_io, try_browser. apply safe_pure; [apply pure_cwd|exact I|]. intros [d|e] l1 _; [|split; [exact I|reflexivity]].
  apply safe_pure; [apply pure_newtab|exact I|]. intros [t|e] l2 _; [|split; [exact I|reflexivity]].
  destruct (visited p) as [q|]; [|split; [exact I|reflexivity]].
  apply safe_pure; [apply pure_navigate|exact I|]. intros [u|e] l3 _; [|split; [exact I|reflexivity]].
  apply safe_pure; [apply pure_wait|exact I|]. intros [v|e] l4 _; split; try exact I; reflexivity.
Qed.

Lemma page_left m f xs f' p' t : In t [test_open_file (cwd m); test_print_to_pdf (cwd m)] ->
  new_process m f -> Forall no_short xs ->
  exec xs f (start m t) = (f', p') -> code p' = Done tt ->
  contents f' (cwd m ++ [lit "test.html"]) = Some (encode (lit "<html><body>Test</body></html>")).
Proof.
  intros Ht N F E D. set (p := cwd m ++ [lit "test.html"]).
  assert (S : safe no_short m (fun _ _ => True) (fun _ f' _ => contents f' p = Some (encode page_text)) t f no_tabs).
  { assert (K : forall k, (forall n f1 l1, contents f1 p = Some (encode page_text) ->
      safe no_short m (fun _ _ => True) (fun _ f' _ => contents f' p = Some (encode page_text)) (k n) f1 l1) ->
      safe no_short m (fun _ _ => True) (fun _ f' _ => contents f' p = Some (encode page_text)) (with_page (cwd m) k) f no_tabs).
    { intros k Hk. unfold with_page. apply (safe_expect no_short m _ (fun _ f' l' => f' = f /\ fresh l' = fresh no_tabs)).
      - unfold launch, try_browser. apply safe_pure; [apply pure_launch|exact I|].
        intros [u|e] l1 Fl; split; try exact I. split; [reflexivity|exact Fl].
      - intros _ f0 l0 _ [-> Fl]. unfold expect_io. split; [exact I|]. intros x Px. cbv zeta. fold p.
        assert (U : unused m f l0) by (apply (unused_fresh m f no_tabs); [apply unused_start; exact N|exact Fl]).
        assert (Ea : (exists e, System.answer m (Create p) x f l0 = (inr e, (f, l0))) \/
              (exists i f1 l1, System.answer m (Create p) x f l0 = (inl i, (f1, l1)) /\ created m p f l0 i f1 l1)).
        { assert (Dc : (exists e, do_create m p f l0 = (inr e, (f, l0))) \/
              (exists i f1 l1, do_create m p f l0 = (inl i, (f1, l1)) /\ created m p f l0 i f1 l1)).
          { destruct (do_create m p f l0) as [[i|e] [f1 l1]] eqn:Dc.
            - right. exists i, f1, l1. split; [reflexivity|]. apply create_spec; assumption.
            - left. apply create_fail in Dc as [-> ->]. exists e. reflexivity. }
          destruct x; cbn [System.answer]; try exact Dc. left. eexists. reflexivity. }
        destruct Ea as [[e ->]|(i & f1 & l1 & -> & Cr)]; cbn [fst snd]; [exact I|].
        split; [exact I|]. intros y Py. cbv zeta.
        assert (Eb : (exists e, System.answer m (Write i 0 (encode page_text)) y f1 l1 = (inr e, (f1, l1))) \/
          exists n, System.answer m (Write i 0 (encode page_text)) y f1 l1 =
           (inl n, (set_data f1 i (write_at 0 (encode page_text) (data f1 i)), l1))).
        { destruct y; cbn [System.answer]; try (right; eexists; reflexivity); [left; eexists; reflexivity|destruct Py]. }
        destruct Eb as [[e ->]|[n ->]]; cbn [fst snd]; [exact I|].
        pose proof (created_wrote _ _ _ _ _ _ _ (encode page_text) Cr) as W.
        set (f2 := set_data f1 i _) in *.
        apply (safe_expect no_short m _ (fun _ f' _ => f' = f2)).
        + apply (safe_weaken no_short m _ (fun _ f' _ => f' = f2)); [apply safe_opening|]. intros [a|e]; auto.
        + intros a f3 l3 _ ->. apply Hk. apply (wr_here _ _ _ _ W). }
    destruct Ht as [<-|[<-|[]]]; apply K; intros t f1 l1 C.
    - split; [exact I|exact C].
    - unfold expect_io. apply safe_pure; [apply pure_print|exact I|]. intros [b|e] l2 _; [split; [exact I|exact C]|exact I]. }
  destruct (safe_exec no_short m _ _ xs f (start m t) eq_refl F S) as [_ S'].
  rewrite E in S'. cbn [fst snd] in S'. rewrite D in S'. apply (proj2 S').
Qed.

(** ** The tests of the configuration *)

Definition abort_table : table := [(key_action, VString (lit "abort")); (key_keep, VBool true)].

Lemma abort_passes toml env : toml abort_toml = inl abort_table ->
  (forall name v, In (name, v) env -> ~ sets name key_action /\ ~ sets name key_keep) ->
  test_parse_from_toml toml env = true.
Proof.
  intros T H. unfold test_parse_from_toml, parse_from_str, Config.field. rewrite T. cbv zeta.
  rewrite !lookup_file by (intros name v Hv; apply (H name v Hv)). reflexivity.
Qed.

Lemma keep_false toml env c name : parse_from_str toml env abort_toml = inl c ->
  In (name, lit "false") env -> sets name key_keep -> (forall name' v, In (name', v) env -> sets name' key_keep -> v = lit "false") ->
  keep_temp_files c = false.
Proof.
  intros E Hn Hs U. apply parse_ok in E. destruct E as (t & va & vb & _ & _ & _ & L & B).
  rewrite (lookup_env t env key_keep name (lit "false") Hn Hs U) in L. assert (Ev : vb = VString (lit "false")) by congruence. subst vb.
  change (to_bool (VString (lit "false"))) with (Some false) in B. congruence.
Qed.

Lemma abort_fails toml env name :
  In (name, lit "false") env -> sets name key_keep -> (forall name' v, In (name', v) env -> sets name' key_keep -> v = lit "false") ->
  test_parse_from_toml toml env = false.
Proof.
  intros Hn Hs U. unfold test_parse_from_toml. destruct (parse_from_str toml env abort_toml) as [c|e] eqn:E; [|reflexivity].
  rewrite (keep_false toml env c name E Hn Hs U). apply andb_false_r.
Qed.

(** The text of the other test lacks a setting: whatever stands in it for the first one, it is refused. *)
Lemma invalid_blind toml env v : toml invalid_toml = inl [(key_action, v)] ->
  (forall name w, In (name, w) env -> ~ sets name key_keep) -> test_invalid_toml toml env = true.
Proof.
  intros T H. unfold test_invalid_toml. destruct (parse_from_str toml env invalid_toml) as [c|e] eqn:E; [|reflexivity].
  apply parse_ok in E. destruct E as (t & va & vb & Et & _ & _ & L & _). rewrite T in Et. injection Et as <-.
  rewrite lookup_file in L by exact H. discriminate L.
Qed.

(** ** Ready to be stated *)

Lemma my_range v : (-2147483648 <= ms_value v <= 2147483647)%Z ->
  ((exists s, my_serialize v = inl s /\ my_deserialize s = inl v) <-> ms_name v <> [] /\ ~ In c_colon (ms_name v)).
Proof. intros R. apply my_exact. unfold in_i32. apply andb_true_iff. split; apply Z.leb_le; apply R. Qed.

Lemma my_stored v : In c_colon (ms_name v) ->
  exists s, my_serialize v = inl s /\
    my_deserialize s = inr (DeserializeError (lit "Input string is not properly formatted")).
Proof.
  intros I. eexists. split; [|apply (my_colon v I)]. unfold my_serialize.
  destruct (ms_name v); [destruct I|]. reflexivity.
Qed.

Lemma files_pass m f name t :
  In (name, t) [(lit "test_file.txt", test_read_to_string (cwd m)); (lit "decode_test_file.txt", test_decode_from_file (cwd m))] ->
  new_process m f -> names f (cwd m) = Some NDir -> names f (cwd m ++ [name]) = None ->
  exists xs f' p', Forall (eq Ok) xs /\ exec xs f (start m t) = (f', p') /\ code p' = Done tt /\
    (forall q, names f' q = names f q /\ contents f' q = contents f q) /\
    (test_serialize = Done tt /\ test_deserialize = Done tt).
Proof.
  intros H N D A.
  assert (K : exists xs f' p', Forall (eq Ok) xs /\ exec xs f (start m t) = (f', p') /\ code p' = Done tt /\ same_files f f').
  { destruct H as [H|[H|[]]]; injection H as <- <-; [apply read_cleaned|apply decode_cleaned]; assumption. }
  destruct K as (xs & f' & p' & F & E & C & S). exists xs, f', p'. do 4 (split; [assumption|]). vm_compute. auto.
Qed.

Lemma absent_exact m f x : exists p', exec [x] f (start m (throw_parse_error (cwd m))) = (f, p') /\
  (code p' = Done tt <->
   match x with
   | Fail e => e = lit "No such file or directory"
   | _ => contents f (cwd m ++ [lit "path_that_does_not_exist"]) = None
   end).
Proof.
  assert (A : forall b : bool, assert b (Done tt) = Done tt <-> b = true) by (intros [|]; cbn; split; congruence).
  unfold start, throw_parse_error. cbn [System.exec]. unfold System.step. cbn [code mach here].
  destruct x as [|e| |]; cbn [System.answer].
  2: { eexists. split; [reflexivity|]. cbn [code fst snd]. rewrite A. apply str_eqb_eq. }
  all: destruct (contents f (cwd m ++ [lit "path_that_does_not_exist"])) as [b|]; cbn [fst snd];
    eexists; (split; [reflexivity|]); cbn [code]; split; intros H; first [discriminate H | reflexivity].
Qed.

Lemma my_within s v : my_deserialize s = inl v -> (-2147483648 <= ms_value v <= 2147483647)%Z.
Proof.
  unfold my_deserialize. destruct (split [c_colon] s) as [|x [|y [|? ?]]]; try discriminate.
  destruct (parse_int y) as [z|] eqn:P; [|discriminate]. intros H. injection H as <-. cbn [ms_value].
  unfold parse_int in P. destruct (match y with [] => None | _ => _ end) as [k|]; [|discriminate].
  destruct (in_i32 k) eqn:R; [|discriminate]. injection P as <-. unfold in_i32 in R. apply andb_true_iff in R.
  destruct R as [A B]. apply Z.leb_le in A, B. lia.
Qed.

Lemma config_pass toml env v : toml abort_toml = inl abort_table -> toml invalid_toml = inl [(key_action, v)] ->
  (forall name w, In (name, w) env -> ~ sets name key_action /\ ~ sets name key_keep) ->
  test_default_config = true /\ test_parse_from_toml toml env = true /\ test_invalid_toml toml env = true.
Proof.
  intros A B H. split; [reflexivity|]. split; [apply abort_passes; assumption|].
  apply (invalid_blind toml env v B). intros name w Hn. apply (H name w Hn).
Qed.

(** The test of the home directory passes exactly if that is a directory and no link. *)
Lemma walk_app f a : forall cur b, walk f cur (a ++ b) = match walk f cur a with Some q => walk f q b | None => None end.
Proof.
  induction a as [|c a IH]; intros cur b; [reflexivity|]. cbn [app walk].
  destruct (is_dir f cur); [|reflexivity]. destruct (is_empty c || str_eqb c (lit ".")); [apply IH|].
  destruct (str_eqb c (lit "..")); [apply IH|]. destruct (resolve max_links f (cur ++ [c])) as [q|]; [|reflexivity].
  destruct (names f q); [apply IH|reflexivity].
Qed.

Lemma components_end r : components (r ++ [c_slash]) = components r ++ [[]].
Proof.
  induction r as [|c r IH]; [reflexivity|]. cbn [app components]. rewrite IH. destruct (ceq c c_slash); [reflexivity|].
  destruct (components r) as [|x xs] eqn:E; [destruct r as [|y r]; cbn [components] in E; [discriminate|];
    destruct (ceq y c_slash); [discriminate|destruct (components r); discriminate]|]. reflexivity.
Qed.

Lemma home_exact f dir h : tidy f -> h <> [] -> Forall proper h ->
  (path_tilde_expansion (Some h) f dir = true <-> names f h = Some NDir).
Proof.
  intros T Ne Pr. destruct (components_display h Pr Ne) as (r & E & C).
  assert (K : parse_dir (Some (display h)) f dir (lit "~/") =
    match walk f [] h with Some q => if is_dir f q then Some q else None | None => None end).
  { rewrite E. change (parse_dir (Some (c_slash :: r)) f dir (lit "~/")) with (walk f [] (components (r ++ [c_slash]))).
    rewrite components_end, C, walk_app. reflexivity. }
  unfold path_tilde_expansion. rewrite K. split.
  - intros H. destruct (walk f [] h) as [q|]; [|discriminate]. destruct (is_dir f q) eqn:D; [|discriminate].
    apply path_eqb_eq in H. subst q. apply is_dir_iff. exact D.
  - intros D.
    assert (W : parse_dir None f dir (display h) = Some h).
    { apply parse_path; [exact T|congruence| |congruence]. apply real_resolve. exists NDir. split; [exact D|discriminate]. }
    rewrite E in W. change (parse_dir None f dir (c_slash :: r)) with (walk f [] (components r)) in W. rewrite C in W.
    rewrite W. apply is_dir_iff in D. rewrite D. apply path_eqb_refl.
Qed.
