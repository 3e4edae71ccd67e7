(** * DecodeFacts: decoding the escaped text. *)
From Coq Require Import Ascii String.
From Verif Require Import Strings StringsFacts Parser SanitizeFacts Decode.
Open Scope list_scope.

(** What the references that the renderer emits for a character stand for. *)
Definition shown (c : char) : str :=
  if ceq c c_bslash then [] else if ceq c c_pipe then [8739%N]
  else if ceq c c_tilde then [732%N] else [c].
Lemma decode_esc named c s : html5 named -> decode named (esc c ++ s) = shown c ++ decode named s.
Proof.
  intros H. apply (esc_cases (fun c e => decode named (e ++ s) = shown c ++ decode named s));
    try reflexivity;
    try (match goal with |- decode _ (?l ++ _) = ?t ++ _ =>
      let n := eval cbv in (removelast (tl l)) in
      apply (decode_ref named n t); [reflexivity | apply (H (n, t)); cbv; tauto] end).
  intros c' N1 N2 N3 N4 N5 N6 N7 N8 N9 N10 N11 N12 N13 N14. cbn [app].
  rewrite decode_plain by exact N1. unfold shown.
  apply ceq_neq in N10, N11, N12. now rewrite N10, N11, N12.
Qed.
Lemma decode_sanitize named s : html5 named -> decode named (sanitize s) = flat_map shown s.
Proof.
  intros H. induction s as [|c s IH]; [reflexivity|].
  rewrite sanitize_cons, decode_esc by exact H. cbn [flat_map]. now rewrite IH.
Qed.
Lemma shown_lossless s : ~ In c_pipe s -> ~ In c_tilde s ->
  flat_map shown s = filter (fun c => negb (ceq c c_bslash)) s.
Proof.
  induction s as [|c s IH]; intros N1 N2; [reflexivity|]. cbn [flat_map filter]. unfold shown at 1.
  rewrite IH by (intros I; first [now apply N1; right | now apply N2; right]).
  assert (E1 : ceq c c_pipe = false) by (apply ceq_neq; intros ->; apply N1; now left).
  assert (E2 : ceq c c_tilde = false) by (apply ceq_neq; intros ->; apply N2; now left).
  rewrite E1, E2. destruct (ceq c c_bslash); reflexivity.
Qed.
