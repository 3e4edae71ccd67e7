(** * MetaFacts: from equal runs to equal outcomes (C78, C79). *)
From Coq Require Import Ascii String.
From Verif Require Import Strings StringsFacts Token Iter Lexer Parser LexMono Alike Lead.
Open Scope list_scope.

Lemma letters_alike : forall pi : char -> char,
  (forall c, (c < 128)%N \/ is_whitespace c = true -> pi c = c) ->
  (forall c, (128 <= c)%N -> is_whitespace c = false ->
     (128 <= pi c)%N /\ is_whitespace (pi c) = false) ->
  pi 8617%N = 8617%N ->
  forall s,
  (forall h, renders s h -> renders (map pi s) (map pi h)) /\
  (forall h, renders (map pi s) h -> exists h0, renders s h0 /\ h = map pi h0) /\
  (crashes (map pi s) <-> crashes s) /\
  (runs_forever (map pi s) <-> runs_forever s).
Proof.
  intros pi P1 P2 P3 s.
  assert (forall f, render f (map pi s) = rmap (map pi) (render f s)) as R.
  { intros f. apply render_m; [| |exact P3].
    - intros c F. apply P1. unfold foreign in F. apply andb_false_iff in F as [F|F].
      + left. now apply N.leb_gt.
      + right. now apply negb_false_iff.
    - intros c F. apply andb_true_iff in F as [F1 F2]. apply N.leb_le in F1. apply negb_true_iff in F2.
      destruct (P2 c F1 F2) as [A B]. unfold foreign. rewrite B. apply N.leb_le in A. now rewrite A. }
  split; [|split; [|split]].
  - intros h [f E]. exists f. now rewrite R, E.
  - intros h [f E]. rewrite R in E. destruct (render f s) as [h0| |] eqn:Q; try discriminate E.
    injection E as <-. exists h0. split; [now exists f|reflexivity].
  - split; intros [f E]; exists f.
    + rewrite R in E. now destruct (render f s).
    + now rewrite R, E.
  - split; intros H f; specialize (H f).
    + rewrite R in H. now destruct (render f s).
    + now rewrite R, H.
Qed.

Definition swap (c : char) : char :=
  if N.eqb c 233 then 26085%N else if N.eqb c 26085 then 233%N else c.
Lemma swap_ex :
  (forall c, (c < 128)%N \/ is_whitespace c = true -> swap c = c) /\
  (forall c, (128 <= c)%N -> is_whitespace c = false ->
     (128 <= swap c)%N /\ is_whitespace (swap c) = false) /\
  swap 8617%N = 8617%N /\
  renders (lit "# " ++ [233%N] ++ lit " [^" ++ [26085%N] ++ lit "]")
          (lit "<h1>" ++ [233%N] ++ lit "<sup id=""fnref:" ++ [26085%N]
           ++ lit """ role=""doc-noteref""><a href=""#fn:" ++ [26085%N]
           ++ lit """ class=""footnote"" rel=""footnote"">1</a></sup></h1>" ++ [c_nl]).
Proof.
  unfold swap. split; [|split; [|split]].
  - intros c H. destruct (N.eqb_spec c 233) as [->|_]; [destruct H as [H|H]; [lia|discriminate H]|].
    destruct (N.eqb_spec c 26085) as [->|_]; [destruct H as [H|H]; [lia|discriminate H]|reflexivity].
  - intros c H W. destruct (N.eqb c 233); [split; [lia|reflexivity]|].
    destruct (N.eqb c 26085); [split; [lia|reflexivity]|auto].
  - reflexivity.
  - exists 9. vm_compute. reflexivity.
Qed.

Lemma not_alike (pi : char -> char) s h0 h1 f : render f s = Ret h0 -> render f (map pi s) = Ret h1 ->
  str_eqb h1 (map pi h0) = false -> forall h, renders s h -> ~ renders (map pi s) (map pi h).
Proof.
  intros E0 E1 D h H G.
  assert (h = h0) as -> by exact (renders_unique _ _ _ H (ex_intro _ f E0)).
  assert (map pi h0 = h1) as Q by exact (renders_unique _ _ _ G (ex_intro _ f E1)).
  rewrite Q in D. assert (str_eqb h1 h1 = true) by now apply str_eqb_eq. congruence.
Qed.
Lemma ascii_not_alike h : let pi c := if N.eqb c 120 then 121%N else c in
  renders (lit "- [x] a") h -> ~ renders (map pi (lit "- [x] a")) (map pi h).
Proof. intros pi. eapply (not_alike pi _ _ _ 9); vm_compute; reflexivity. Qed.
Lemma space_not_alike h : let pi c := if N.eqb c 233 then 160%N else c in
  renders (233%N :: lit "b") h -> ~ renders (map pi (233%N :: lit "b")) (map pi h).
Proof. intros pi. eapply (not_alike pi _ _ _ 9); vm_compute; reflexivity. Qed.
Lemma arrow_not_alike h : let pi c := if N.eqb c 8617 then 233%N else c in
  renders (lit "[^a]: b") h -> ~ renders (map pi (lit "[^a]: b")) (map pi h).
Proof. intros pi. eapply (not_alike pi _ _ _ 9); vm_compute; reflexivity. Qed.

Definition same_end (s t : str) : Prop :=
  (forall h, renders s h <-> renders t h) /\ (crashes s <-> crashes t) /\ (runs_forever s <-> runs_forever t).
Lemma same_runs s t : (forall f, render f s = render f t) -> same_end s t.
Proof.
  intros R. unfold same_end, renders, crashes, runs_forever.
  split; [|split]; [intros h| |]; split; intros H.
  all: try (destruct H as [f E]; exists f; rewrite ?R in *; congruence).
  all: intros f; specialize (H f); rewrite ?R in *; congruence.
Qed.
Lemma lead_alike k s : ~ indented s -> same_end (crep k c_nl ++ s) s.
Proof. intros D. apply same_runs. intros f. now apply render_lead. Qed.
Lemma number_alike k s : 1 <= k -> same_end (crep k c_nl ++ s) (c_nl :: s).
Proof.
  intros K. apply same_runs. intros f. destruct (nls_or_not s) as (j & t & -> & H).
  rewrite app_assoc. change (c_nl :: crep j c_nl ++ t) with (crep (S j) c_nl ++ t).
  replace (crep k c_nl ++ crep j c_nl) with (crep (k + j) c_nl) by apply repeat_app.
  rewrite (render_nls f (S j) t), (render_nls f (k + j) t) by (auto; lia). reflexivity.
Qed.
Lemma lead_differs : exists s h1 h2, renders s h1 /\ renders (c_nl :: s) h2 /\ h1 <> h2.
Proof.
  exists (lit "    # a"). eexists. eexists. split; [exists 9; vm_compute; reflexivity|].
  split; [exists 9; vm_compute; reflexivity|]. discriminate.
Qed.
Lemma lead_ex : ~ indented (lit "   # a") /\
  renders (c_nl :: c_nl :: lit "   # a") (lit "<h1>a</h1>" ++ [c_nl]) /\
  indented (lit "    # a").
Proof.
  split; [|split].
  - intros [[r E]|(k & r & K & E)]; [discriminate E|].
    destruct k as [|[|[|[|k]]]]; try discriminate E.
  - exists 9. vm_compute. reflexivity.
  - left. now exists (lit "# a").
Qed.
