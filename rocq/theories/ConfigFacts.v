(** * ConfigFacts: facts about Config.v. *)
From Coq Require Import Ascii String Permutation.
From Verif Require Import Strings StringsFacts Config SpecCli.
Open Scope list_scope.

Lemma lookup_app k t u :
  lookup k (t ++ u) = match lookup k u with Some w => Some w | None => lookup k t end.
Proof.
  induction t as [|[k' v] t IH]; cbn [app lookup].
  - destruct (lookup k u); reflexivity.
  - rewrite IH. destruct (lookup k u); reflexivity.
Qed.

Lemma lookup_in k t v : lookup k t = Some v -> In (k, v) t.
Proof.
  induction t as [|[k' w] t IH]; cbn [lookup]; [discriminate|].
  destruct (lookup k t) as [w'|].
  - intros E. right. apply IH. exact E.
  - destruct (str_eqb k' k) eqn:E; [|discriminate]. apply str_eqb_eq in E. subst k'.
    intros K. injection K as ->. left. reflexivity.
Qed.

Lemma lookup_none k t : lookup k t = None <-> forall v, ~ In (k, v) t.
Proof.
  split.
  - intros E v I. induction t as [|[k' w] t IH]; [destruct I|]. cbn [lookup] in E.
    destruct (lookup k t) as [w'|]; [discriminate|].
    destruct I as [K|I]; [|apply IH; auto]. injection K as -> ->.
    rewrite str_eqb_refl in E. discriminate.
  - intros H. destruct (lookup k t) as [v|] eqn:E; [|reflexivity].
    apply lookup_in in E. destruct (H v E).
Qed.

Lemma lookup_unique k t v : In (k, v) t -> (forall w, In (k, w) t -> w = v) -> lookup k t = Some v.
Proof.
  intros I U. destruct (lookup k t) as [w|] eqn:E.
  - apply lookup_in in E. f_equal. apply U. exact E.
  - apply lookup_none with (v := v) in E. destruct (E I).
Qed.

Lemma env_table_in e k w : In (k, w) (env_table e) <->
  exists name v, In (name, v) e /\ sets name k /\ w = VString v.
Proof.
  unfold env_table. rewrite in_flat_map. split.
  - intros ([name v] & I & H). cbn [fst snd] in H. exists name, v. split; [exact I|].
    unfold env_key in H. destruct (strip_prefix (lit "smd__") (to_lowercase name)) as [rest|] eqn:Sp;
      [|destruct H]. destruct H as [K|[]]. injection K as <- <-. split; [|reflexivity].
    exists rest. split; [|reflexivity]. apply strip_prefix_iff. exact Sp.
  - intros (name & v & I & (rest & E & <-) & ->). exists (name, v). split; [exact I|].
    cbn [fst snd]. unfold env_key. apply strip_prefix_iff in E. rewrite E. left. reflexivity.
Qed.

Lemma parse_ok tm e s c : parse_from_str tm e s = inl c ->
  exists t va vb, tm s = inl t /\ lookup key_action (t ++ env_table e) = Some va /\
    to_action va = Some (on_parse_error c) /\
    lookup key_keep (t ++ env_table e) = Some vb /\ to_bool vb = Some (keep_temp_files c).
Proof.
  unfold parse_from_str, field. destruct (tm s) as [t|x]; [|discriminate].
  destruct (lookup key_action (t ++ env_table e)) as [va|] eqn:La; [|discriminate].
  destruct (to_action va) as [a|] eqn:Ta; [|discriminate].
  destruct (lookup key_keep (t ++ env_table e)) as [vb|] eqn:Lb; [|discriminate].
  destruct (to_bool vb) as [b|] eqn:Tb; [|discriminate].
  intros K. injection K as <-. exists t, va, vb. auto 10.
Qed.

(** The value of a key: the environment's, else the file's. *)
Lemma lookup_env t e k name v : In (name, v) e -> sets name k ->
  (forall name' v', In (name', v') e -> sets name' k -> v' = v) ->
  lookup k (t ++ env_table e) = Some (VString v).
Proof.
  intros I Hs U. rewrite lookup_app, (lookup_unique k (env_table e) (VString v)); [reflexivity| |].
  - apply env_table_in. exists name, v. auto.
  - intros w Iw. apply env_table_in in Iw. destruct Iw as (n' & v' & I' & S' & ->).
    f_equal. apply (U n' v' I' S').
Qed.

Lemma lookup_file t e k : (forall name v, In (name, v) e -> ~ sets name k) ->
  lookup k (t ++ env_table e) = lookup k t.
Proof.
  intros H. rewrite lookup_app. destruct (lookup k (env_table e)) as [w|] eqn:E; [|reflexivity].
  apply lookup_in, env_table_in in E. destruct E as (n & v & I & Sn & _). destruct (H n v I Sn).
Qed.

Lemma to_action_means v a : to_action v = Some a -> means_action v a.
Proof.
  destruct v as [b|s|]; cbn [to_action]; try discriminate.
  destruct (str_eqb s (lit "abort")) eqn:E1.
  { apply str_eqb_eq in E1. subst s. intros K. injection K as <-. constructor. }
  destruct (str_eqb s (lit "skip")) eqn:E2.
  { apply str_eqb_eq in E2. subst s. intros K. injection K as <-. constructor. }
  destruct (str_eqb s (lit "serialize")) eqn:E3; [|discriminate].
  apply str_eqb_eq in E3. subst s. intros K. injection K as <-. constructor.
Qed.

Lemma existsb_str_in x l : existsb (str_eqb x) l = true -> In x l.
Proof.
  intros H. apply existsb_exists in H. destruct H as (y & I & E). apply str_eqb_eq in E. subst y. exact I.
Qed.

Lemma to_bool_means v b : to_bool v = Some b -> means_bool v b.
Proof.
  destruct v as [b0|s|]; cbn [to_bool]; try discriminate.
  - intros K. injection K as <-. constructor.
  - cbv zeta. destruct (existsb _ [lit "1"; _; _; _]) eqn:E1.
    + intros K. injection K as <-. constructor. apply existsb_str_in. exact E1.
    + destruct (existsb _ [lit "0"; _; _; _]) eqn:E2; [|discriminate].
      intros K. injection K as <-. constructor. apply existsb_str_in. exact E2.
Qed.

(** C49, the environment. *)
Lemma env_action tm e s c name v : parse_from_str tm e s = inl c ->
  In (name, v) e -> sets name (lit "parse.on_parse_error") ->
  (forall name' v', In (name', v') e -> sets name' (lit "parse.on_parse_error") -> v' = v) ->
  means_action (VString v) (on_parse_error c).
Proof.
  intros Pe I Hs U. destruct (parse_ok tm e s c Pe) as (t & va & vb & _ & La & Ta & _ & _).
  rewrite (lookup_env t e key_action name v I Hs U) in La. injection La as <-.
  apply to_action_means. exact Ta.
Qed.

Lemma env_keep tm e s c name v : parse_from_str tm e s = inl c ->
  In (name, v) e -> sets name (lit "parse.keep_temp_files") ->
  (forall name' v', In (name', v') e -> sets name' (lit "parse.keep_temp_files") -> v' = v) ->
  means_bool (VString v) (keep_temp_files c).
Proof.
  intros Pe I Hs U. destruct (parse_ok tm e s c Pe) as (t & va & vb & _ & _ & _ & Lb & Tb).
  rewrite (lookup_env t e key_keep name v I Hs U) in Lb. injection Lb as <-.
  apply to_bool_means. exact Tb.
Qed.

(** C49, the file. *)
Lemma file_action tm e s c t v : parse_from_str tm e s = inl c -> tm s = inl t ->
  (forall name w, In (name, w) e -> ~ sets name (lit "parse.on_parse_error")) ->
  In (lit "parse.on_parse_error", v) t ->
  (forall w, In (lit "parse.on_parse_error", w) t -> w = v) ->
  means_action v (on_parse_error c).
Proof.
  intros Pe T N I U. destruct (parse_ok tm e s c Pe) as (t' & va & vb & T' & La & Ta & _ & _).
  rewrite T in T'. injection T' as <-. rewrite (lookup_file t e key_action N) in La.
  rewrite (lookup_unique key_action t v I U) in La. injection La as <-.
  apply to_action_means. exact Ta.
Qed.

Lemma file_keep tm e s c t v : parse_from_str tm e s = inl c -> tm s = inl t ->
  (forall name w, In (name, w) e -> ~ sets name (lit "parse.keep_temp_files")) ->
  In (lit "parse.keep_temp_files", v) t ->
  (forall w, In (lit "parse.keep_temp_files", w) t -> w = v) ->
  means_bool v (keep_temp_files c).
Proof.
  intros Pe T N I U. destruct (parse_ok tm e s c Pe) as (t' & va & vb & T' & _ & _ & Lb & Tb).
  rewrite T in T'. injection T' as <-. rewrite (lookup_file t e key_keep N) in Lb.
  rewrite (lookup_unique key_keep t v I U) in Lb. injection Lb as <-.
  apply to_bool_means. exact Tb.
Qed.

(** C49, neither. *)
Lemma missing_key tm e s t k : k = lit "parse.on_parse_error" \/ k = lit "parse.keep_temp_files" ->
  tm s = inl t -> (forall name w, In (name, w) e -> ~ sets name k) -> (forall w, ~ In (k, w) t) ->
  exists why, parse_from_str tm e s = inr why.
Proof.
  intros K T N I. destruct (parse_from_str tm e s) as [c|why] eqn:Pe; [|eauto].
  destruct (parse_ok tm e s c Pe) as (t' & va & vb & T' & La & _ & Lb & _).
  rewrite T in T'. injection T' as <-. apply lookup_none in I.
  destruct K as [->| ->].
  - rewrite (lookup_file t e key_action N) in La. unfold key_action in La. congruence.
  - rewrite (lookup_file t e key_keep N) in Lb. unfold key_keep in Lb. congruence.
Qed.

Lemma missing_names_it tm e s t k why : k = lit "parse.on_parse_error" \/ k = lit "parse.keep_temp_files" ->
  tm s = inl t -> (forall name w, In (name, w) e -> ~ sets name k) -> (forall w, ~ In (k, w) t) ->
  parse_from_str tm e s = inr why ->
  why = lit "missing field `" ++ k ++ lit "`" \/
  k = lit "parse.keep_temp_files" /\ exists a, why = a ++ lit " `parse.on_parse_error`".
Proof.
  intros K T N I. unfold parse_from_str. rewrite T. unfold field. apply lookup_none in I.
  destruct K as [-> | ->].
  - assert (L : lookup key_action (t ++ env_table e) = None) by (rewrite (lookup_file t e key_action N); exact I).
    rewrite L. intros H. injection H as <-. now left.
  - assert (L : lookup key_keep (t ++ env_table e) = None) by (rewrite (lookup_file t e key_keep N); exact I).
    rewrite L. destruct (lookup key_action _) as [v|]; [destruct (to_action v)|]; intros H; injection H as <-.
    + now left.
    + right. split; [reflexivity|]. now exists (lit "invalid value for").
    + right. split; [reflexivity|]. now exists (lit "missing field").
Qed.

(** C49, a value that means nothing. *)
Lemma wrong_value tm e s t k name v : k = lit "parse.on_parse_error" \/ k = lit "parse.keep_temp_files" ->
  tm s = inl t -> In (name, v) e -> sets name k ->
  (forall name' v', In (name', v') e -> sets name' k -> v' = v) ->
  (k = lit "parse.on_parse_error" -> forall a, ~ means_action (VString v) a) ->
  (k = lit "parse.keep_temp_files" -> forall b, ~ means_bool (VString v) b) ->
  exists why, parse_from_str tm e s = inr why.
Proof.
  intros K T I S_ U A B. destruct (parse_from_str tm e s) as [c|why] eqn:E; [exfalso|now exists why].
  destruct K as [-> | ->].
  - exact (A eq_refl _ (env_action tm e s c name v E I S_ U)).
  - exact (B eq_refl _ (env_keep tm e s c name v E I S_ U)).
Qed.

(** C49, the order of the variables. *)
Lemma env_table_perm e e' : Permutation e e' -> Permutation (env_table e) (env_table e').
Proof. intros P. unfold env_table. apply Permutation_flat_map. exact P. Qed.

Lemma lookup_perm k u u' : Permutation u u' ->
  (forall v w, In (k, v) u -> In (k, w) u -> v = w) -> lookup k u = lookup k u'.
Proof.
  intros P U. destruct (lookup k u) as [v|] eqn:E.
  - apply lookup_in in E. symmetry. apply lookup_unique; [apply (Permutation_in _ P E)|].
    intros w I. apply (U w v); [|exact E]. apply (Permutation_in _ (Permutation_sym P) I).
  - symmetry. apply lookup_none. intros v I. apply (proj1 (lookup_none k u) E v).
    apply (Permutation_in _ (Permutation_sym P) I).
Qed.

Lemma parse_perm tm e e' s : Permutation e e' ->
  (forall n1 v1 n2 v2 k, In (n1, v1) e -> In (n2, v2) e -> sets n1 k -> sets n2 k -> v1 = v2) ->
  parse_from_str tm e s = parse_from_str tm e' s.
Proof.
  intros P U. unfold parse_from_str, field. destruct (tm s) as [t|why]; [|reflexivity].
  assert (L : forall k, lookup k (t ++ env_table e) = lookup k (t ++ env_table e')).
  { intros k. rewrite !lookup_app, (lookup_perm k (env_table e) (env_table e')); [reflexivity| |].
    - apply env_table_perm. exact P.
    - intros v w Iv Iw. apply env_table_in in Iv. apply env_table_in in Iw.
      destruct Iv as (n1 & v1 & I1 & S1 & ->). destruct Iw as (n2 & v2 & I2 & S2 & ->).
      f_equal. apply (U n1 v1 n2 v2 k); assumption. }
  rewrite !L. reflexivity.
Qed.
