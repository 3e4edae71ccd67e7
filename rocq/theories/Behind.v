(** * Behind: panics and endless runs behind prose. *)
From Coq Require Import Ascii String.
From Verif Require Import Strings StringsFacts Token Iter Lexer Parser Lead SpecRobust DetailsFacts NoPanic Termination Outcome.
From Verif Require Import Sections.
Open Scope list_scope.

Lemma calm_not c s : forallb calm s = true -> calm c = false -> ~ In c s.
Proof. intros F C I. rewrite forallb_forall in F. specialize (F c I). congruence. Qed.
Lemma calm_renders s : forallb calm s = true -> ~ infix (lit "{#") s -> exists hs, renders s hs.
Proof.
  intros F N. apply result_of with (310 + 10 * length s).
  - intros f L. apply render_nh_closed; [|exact L]. intros a b -> _. exfalso. apply (calm_not c_lt _ F); [reflexivity|].
    apply in_or_app. right. now left.
  - apply id_safe_never_crashes, no_custom_id_safe. now left.
Qed.
Lemma hashes_not_indented n r : 1 <= n -> ~ indented (crep n c_hash ++ r).
Proof.
  intros L. destruct n as [|n]; [lia|]. intros [(r' & E)|(k & r' & _ & E)]; [discriminate E|]. destruct k; discriminate E.
Qed.
Theorem prose_panics s q n line rest :
  forallb calm s = true -> ~ infix (lit "    ") s -> ~ infix (lit "{#") s -> s = q ++ [c_nl; c_nl] ->
  1 <= n <= 6 -> ~ In c_nl line -> (rest = [] \/ exists r, rest = c_nl :: r) ->
  infix (lit "{#") line -> In c_rbrace line ->
  (forall a b, line = a ++ lit "{#" ++ b ++ lit "}" -> In c_lbrace a) ->
  crashes (s ++ crep n c_hash ++ c_sp :: line ++ rest).
Proof.
  intros F W N E L A R I J K. destruct (calm_renders s F N) as [hs H].
  apply (sections_prose s q hs); auto using hashes_not_indented.
  - now apply hashes_not_indented.
  - apply heading_crashes; unfold misplaced_id; auto.
Qed.
Theorem prose_hangs s q summary blocks z :
  forallb calm s = true -> ~ infix (lit "    ") s -> ~ infix (lit "{#") s -> s = q ++ [c_nl; c_nl] ->
  ~ In c_nl summary -> ~ In c_cr summary -> blocks <> [] ->
  Forall (fun p => ~ In c_lt (fst p) /\ ~ In c_lt (snd p)) blocks -> ~ In c_lt z ->
  runs_forever (s ++ lit "<details>" ++ [c_nl] ++ lit "<summary>" ++ summary ++ lit "</summary>" ++ [c_nl]
                ++ flat_map (fun p => fst p ++ lit "<details>" ++ snd p ++ lit "</details>") blocks ++ z).
Proof.
  intros F W N E A B C D G. destruct (calm_renders s F N) as [hs H].
  apply (sections_prose s q hs); auto.
  - intros [(r' & X)|(k & r' & _ & X)]; [discriminate X|]. destruct k; discriminate X.
  - now apply unclosed_details_hangs.
Qed.
Lemma behind_ex :
  let s := lit "# Title" ++ [c_nl] ++ lit "some words, and (more)." ++ [c_nl; c_nl] in
  forallb calm s = true /\ ~ infix (lit "    ") s /\ ~ infix (lit "{#") s /\
  crashes (s ++ crep 2 c_hash ++ c_sp :: lit "Install {#install} now" ++ []).
Proof.
  cbv zeta. split; [reflexivity|]. split; [rewrite <- contains_iff; vm_compute; discriminate|].
  split; [rewrite <- contains_iff; vm_compute; discriminate|]. exists 9. vm_compute. reflexivity.
Qed.
