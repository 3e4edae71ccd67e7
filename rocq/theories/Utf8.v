(** * Utf8: the encoding behind Rust's [&str] and [fs::read_to_string].

    A Rust string is the UTF-8 encoding of its chars.  [encode] is RFC 3629,
    section 3; [decode] is the strict decoder of [String::from_utf8] (used by
    [std::fs::read_to_string], smd-core/src/fs.rs:30), written independently of
    [encode]; the lemmas below say that they are inverse to each other. *)
From Coq Require Import ZArith ZifyBool ZifyN ZifyNat.
From Verif Require Import Strings StringsFacts.
Local Ltac Zify.zify_post_hook ::= Z.div_mod_to_equations.
Local Open Scope N_scope.
Open Scope list_scope.

Definition byte := N.
Definition bytes := list byte.

(** The values a Rust [char] can have. *)
Definition scalar (c : char) : Prop := c < 55296 \/ (57344 <= c /\ c < 1114112).
Definition valid (s : str) : Prop := Forall scalar s.

Definition scalarb (c : char) : bool := (c <? 55296) || ((57344 <=? c) && (c <? 1114112)).

Definition enc_char (c : char) : bytes :=
  if c <? 128 then [c]
  else if c <? 2048 then [192 + c / 64; 128 + c mod 64]
  else if c <? 65536 then [224 + c / 4096; 128 + (c / 64) mod 64; 128 + c mod 64]
  else [240 + c / 262144; 128 + (c / 4096) mod 64; 128 + (c / 64) mod 64; 128 + c mod 64].

Definition encode (s : str) : bytes := flat_map enc_char s.

(** A continuation byte, 10xxxxxx. *)
Definition cont (b : byte) : bool := (128 <=? b) && (b <? 192).

(** The first char of a byte string and the rest, if it is well formed. *)
Definition dec_char (bs : bytes) : option (char * bytes) :=
  match bs with
  | [] => None
  | b :: r =>
      if b <? 128 then Some (b, r)
      else if (194 <=? b) && (b <? 224) then
        match r with
        | b1 :: r1 =>
            if cont b1 then Some ((b - 192) * 64 + (b1 - 128), r1) else None
        | _ => None
        end
      else if (224 <=? b) && (b <? 240) then
        match r with
        | b1 :: b2 :: r2 =>
            let c := (b - 224) * 4096 + (b1 - 128) * 64 + (b2 - 128) in
            if cont b1 && cont b2 && (2048 <=? c) && scalarb c then Some (c, r2) else None
        | _ => None
        end
      else if (240 <=? b) && (b <? 245) then
        match r with
        | b1 :: b2 :: b3 :: r3 =>
            let c := (b - 240) * 262144 + (b1 - 128) * 4096 + (b2 - 128) * 64 + (b3 - 128) in
            if cont b1 && cont b2 && cont b3 && (65536 <=? c) && scalarb c
            then Some (c, r3) else None
        | _ => None
        end
      else None
  end.

(** [n] bounds the number of chars. *)
Fixpoint dec_go (n : nat) (bs : bytes) : option str :=
  match bs, n with
  | [], _ => Some []
  | _ :: _, O => None
  | _ :: _, S n' =>
      match dec_char bs with
      | Some (c, r) => match dec_go n' r with Some s => Some (c :: s) | None => None end
      | None => None
      end
  end.
Definition decode (bs : bytes) : option str := dec_go (length bs) bs.

Lemma scalarb_spec c : scalarb c = true <-> scalar c.
Proof. unfold scalarb, scalar. lia. Qed.

(** Shape of an encoded char: a leading byte, then continuation bytes. *)
Lemma enc_shape c : scalar c ->
  exists b r, enc_char c = b :: r /\ cont b = false /\ forallb cont r = true /\
    (length r <= 3)%nat.
Proof.
  intros H. unfold scalar in H. unfold enc_char.
  destruct (c <? 128) eqn:E1; [|destruct (c <? 2048) eqn:E2; [|destruct (c <? 65536) eqn:E3]];
    (eexists; eexists; split; [reflexivity|split; [|split; [|cbn; lia]]]);
    unfold cont; cbn [forallb]; try lia.
Qed.

Lemma enc_nonempty c : enc_char c <> [].
Proof.
  unfold enc_char. destruct (c <? 128), (c <? 2048), (c <? 65536); discriminate.
Qed.

Lemma enc_length c : (1 <= length (enc_char c) <= 4)%nat.
Proof.
  unfold enc_char. destruct (c <? 128), (c <? 2048), (c <? 65536); cbn; lia.
Qed.

Lemma dec_enc c r : scalar c -> dec_char (enc_char c ++ r) = Some (c, r).
Proof.
  intros H. unfold enc_char.
  destruct (c <? 128) eqn:E1; [cbn [app dec_char]; rewrite E1; reflexivity|].
  destruct (c <? 2048) eqn:E2.
  { cbn [app dec_char].
    replace (192 + c / 64 <? 128) with false by lia.
    replace ((194 <=? 192 + c / 64) && (192 + c / 64 <? 224))%bool with true by lia.
    replace (cont (128 + c mod 64)) with true by (unfold cont; lia).
    f_equal. f_equal. lia. }
  destruct (c <? 65536) eqn:E3.
  { cbn [app dec_char].
    replace (224 + c / 4096 <? 128) with false by lia.
    replace ((194 <=? 224 + c / 4096) && (224 + c / 4096 <? 224))%bool with false by lia.
    replace ((224 <=? 224 + c / 4096) && (224 + c / 4096 <? 240))%bool with true by lia.
    replace (cont (128 + (c / 64) mod 64)) with true by (unfold cont; lia).
    replace (cont (128 + c mod 64)) with true by (unfold cont; lia).
    cbv zeta.
    replace ((224 + c / 4096 - 224) * 4096 + (128 + (c / 64) mod 64 - 128) * 64 +
             (128 + c mod 64 - 128)) with c by lia.
    replace (scalarb c) with true by (symmetry; apply scalarb_spec; exact H).
    replace (2048 <=? c) with true by lia. reflexivity. }
  assert (C : c < 1114112) by (unfold scalar in H; lia).
  cbn [app dec_char].
  replace (240 + c / 262144 <? 128) with false by lia.
  replace ((194 <=? 240 + c / 262144) && (240 + c / 262144 <? 224))%bool with false by lia.
  replace ((224 <=? 240 + c / 262144) && (240 + c / 262144 <? 240))%bool with false by lia.
  replace ((240 <=? 240 + c / 262144) && (240 + c / 262144 <? 245))%bool with true by lia.
  replace (cont (128 + (c / 4096) mod 64)) with true by (unfold cont; lia).
  replace (cont (128 + (c / 64) mod 64)) with true by (unfold cont; lia).
  replace (cont (128 + c mod 64)) with true by (unfold cont; lia).
  cbv zeta.
  replace ((240 + c / 262144 - 240) * 262144 + (128 + (c / 4096) mod 64 - 128) * 4096 +
           (128 + (c / 64) mod 64 - 128) * 64 + (128 + c mod 64 - 128)) with c by lia.
  replace (scalarb c) with true by (symmetry; apply scalarb_spec; exact H).
  replace (65536 <=? c) with true by lia. reflexivity.
Qed.

Lemma enc_dec bs c r : dec_char bs = Some (c, r) -> bs = enc_char c ++ r /\ scalar c.
Proof.
  destruct bs as [|b bs]; [discriminate|]. cbn [dec_char].
  destruct (b <? 128) eqn:E1.
  { intros K. injection K as <- <-. unfold enc_char. rewrite E1. split; [reflexivity|].
    unfold scalar. lia. }
  destruct ((194 <=? b) && (b <? 224))%bool eqn:E2.
  { destruct bs as [|b1 r1]; [discriminate|]. destruct (cont b1) eqn:C1; [|discriminate].
    intros K. injection K as Ec <-. unfold cont in C1.
    assert (B : 128 <= c < 2048) by lia.
    unfold enc_char. replace (c <? 128) with false by lia.
    replace (c <? 2048) with true by lia. split; [|unfold scalar; lia].
    cbn [app]. f_equal; [lia|f_equal; lia]. }
  destruct ((224 <=? b) && (b <? 240))%bool eqn:E3.
  { destruct bs as [|b1 [|b2 r2]]; try discriminate. cbv zeta.
    remember ((b - 224) * 4096 + (b1 - 128) * 64 + (b2 - 128)) as d eqn:Ed.
    destruct (cont b1 && cont b2 && (2048 <=? d) && scalarb d)%bool eqn:C; [|discriminate].
    intros K. injection K as -> <-.
    apply andb_true_iff in C as [C Sc]. apply andb_true_iff in C as [C L].
    apply andb_true_iff in C as [C1 C2].
    unfold cont in *. apply scalarb_spec in Sc. split; [|exact Sc].
    unfold enc_char. replace (c <? 128) with false by lia.
    replace (c <? 2048) with false by lia. replace (c <? 65536) with true by lia.
    cbn [app]. f_equal; [lia|f_equal; [lia|f_equal; lia]]. }
  destruct ((240 <=? b) && (b <? 245))%bool eqn:E4; [|discriminate].
  destruct bs as [|b1 [|b2 [|b3 r3]]]; try discriminate. cbv zeta.
  remember ((b - 240) * 262144 + (b1 - 128) * 4096 + (b2 - 128) * 64 + (b3 - 128)) as d eqn:Ed.
  destruct (cont b1 && cont b2 && cont b3 && (65536 <=? d) && scalarb d)%bool eqn:C;
    [|discriminate].
  intros K. injection K as -> <-.
  apply andb_true_iff in C as [C Sc]. apply andb_true_iff in C as [C L].
  apply andb_true_iff in C as [C C3]. apply andb_true_iff in C as [C1 C2].
  unfold cont in *. apply scalarb_spec in Sc. split; [|exact Sc].
  unfold enc_char. replace (c <? 128) with false by lia.
  replace (c <? 2048) with false by lia. replace (c <? 65536) with false by lia.
  cbn [app]. f_equal; [lia|f_equal; [lia|f_equal; [lia|f_equal; lia]]].
Qed.

Lemma encode_app a b : encode (a ++ b) = encode a ++ encode b.
Proof. apply flat_map_app. Qed.

Lemma encode_cons c s : encode (c :: s) = enc_char c ++ encode s.
Proof. reflexivity. Qed.

Lemma dec_go_encode s n : valid s -> (length s <= n)%nat -> dec_go n (encode s) = Some s.
Proof.
  revert n. induction s as [|c s IH]; intros n V L.
  - destruct n; reflexivity.
  - inversion V as [|c0 s0 Hc V']; subst. rewrite encode_cons.
    destruct (enc_char c ++ encode s) as [|b bs] eqn:E.
    { apply app_eq_nil in E as [E _]. destruct (enc_nonempty _ E). }
    destruct n as [|n]; [cbn in L; lia|].
    cbn [dec_go]. rewrite <- E, dec_enc by exact Hc.
    rewrite IH; [reflexivity|exact V'|cbn in L; lia].
Qed.

Lemma length_encode s : (length s <= length (encode s))%nat.
Proof.
  induction s as [|c s IH]; [cbn; lia|]. rewrite encode_cons, app_length.
  pose proof (enc_length c). cbn [length]. lia.
Qed.

(** What was written is read back. *)
Theorem decode_encode s : valid s -> decode (encode s) = Some s.
Proof. intros V. apply dec_go_encode; [exact V|apply length_encode]. Qed.

Lemma dec_go_sound n bs s : dec_go n bs = Some s -> encode s = bs /\ valid s.
Proof.
  revert bs s. induction n as [|n IH]; intros bs s; cbn [dec_go].
  - destruct bs; [|discriminate]. intros K. injection K as <-. split; [reflexivity|constructor].
  - destruct bs as [|b bs]; [intros K; injection K as <-; split; [reflexivity|constructor]|].
    destruct (dec_char (b :: bs)) as [[c r]|] eqn:E; [|discriminate].
    destruct (dec_go n r) as [s'|] eqn:E'; [|discriminate].
    intros K. injection K as <-. apply enc_dec in E as [-> Hc]. apply IH in E' as [<- V].
    split; [reflexivity|constructor; assumption].
Qed.

(** What was read is what stands in the file. *)
Theorem encode_decode bs s : decode bs = Some s -> encode s = bs /\ valid s.
Proof. apply dec_go_sound. Qed.

Lemma encode_inj a b : valid a -> valid b -> encode a = encode b -> a = b.
Proof.
  intros Va Vb E. apply decode_encode in Va, Vb. rewrite E, Vb in Va.
  injection Va as ->. reflexivity.
Qed.
