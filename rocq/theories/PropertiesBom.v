(** * C130: a byte order mark in front of a document makes no difference. *)
From Coq Require Import Ascii String.
From Verif Require Import Strings StringsFacts Parser Utf8 System Cli SpecCli CliProps Markdown SpecText TextFacts BomFacts.
Open Scope list_scope.

(** Refuted for every document: the page begins with a paragraph that begins with the mark, *)
Theorem C130_shown_refuted : forall s h, renders (bom :: s) h -> exists r, h = lit "<p>" ++ [bom] ++ r.
Proof. exact bom_shown. Qed.
Print Assumptions C130_shown_refuted.
Example C130_shown_case : exists h, renders (bom :: lit "- item") h.
Proof. eexists. exists 9. vm_compute. reflexivity. Qed.

(** which the page of the document without it does not. *)
Theorem C130_differs_refuted : forall s h h', ~ In bom s -> renders s h -> renders (bom :: s) h' -> ~ In bom h /\ h <> h'.
Proof. intros s h h' N R R'. split; [exact (no_bom s h N R)|exact (bom_differs s h h' N R R')]. Qed.
Print Assumptions C130_differs_refuted.
Example C130_differs_case : ~ In bom (lit "> a") /\ (exists h, renders (lit "> a") h) /\ exists h', renders (bom :: lit "> a") h'.
Proof. split; [vm_compute; intuition discriminate|]. split; eexists; exists 20; vm_compute; reflexivity. Qed.

(** In front of a heading the mark is a paragraph of its own. *)
Theorem C130_heading_refuted : forall n t e qs, 1 <= n <= 6 -> heading_ordinary t -> heading_end e -> paragraphs qs ->
  renders (bom :: heading_src n t e ++ after qs) (p_tag [bom] ++ h_tag n (txt t) ++ p_tags qs).
Proof. exact bom_heading. Qed.
Print Assumptions C130_heading_refuted.
Example C130_heading_case : renders (bom :: lit "# Title") (p_tag [bom] ++ lit "<h1>Title</h1>" ++ [c_nl]).
Proof.
  assert (O : heading_ordinary (lit "Title")).
  { split; [reflexivity|]. split; [vm_compute; intuition discriminate|]. split; [vm_compute; intuition discriminate|]. now exists (lit "Titl"), 101%N. }
  exact (C130_heading_refuted 1 (lit "Title") [] [] ltac:(repeat constructor) O (he_blanks [] (incl_nil_l _)) (Forall_nil _)).
Qed.

(** True of paragraphs but for the mark itself: the others are the same, and so is the first without it. *)
Theorem C130_paragraph_partial : forall p qs, paragraph p = true -> paragraphs qs ->
  renders (bom :: p ++ after qs) (p_tag (bom :: txt p) ++ p_tags qs).
Proof. exact bom_paragraph. Qed.
Print Assumptions C130_paragraph_partial.
Example C130_paragraph_case : renders (bom :: lit "one") (p_tag (bom :: lit "one")).
Proof. exact (C130_paragraph_partial (lit "one") [] eq_refl (Forall_nil _)). Qed.

(** The mark is read from the file: three bytes in front of it are one char in front of the document, *)
Theorem C130_bytes_refuted : forall bs s, decode (bom_bytes ++ bs) = Some s <-> exists s', s = bom :: s' /\ decode bs = Some s'.
Proof. exact bom_decoded. Qed.
Print Assumptions C130_bytes_refuted.
Example C130_bytes_case : decode (bom_bytes ++ lit "# A") = Some (bom :: lit "# A").
Proof. vm_compute. reflexivity. Qed.

(** so that every file that begins with them is converted to one that does not begin with the block that was first. *)
Theorem C130_written_refuted : forall n st m f xs input f' p' b, new_process m f -> Forall no_short xs ->
  exec xs f (start m (main n st (CParse input Html))) = (f', p') -> status p' = Some 0 ->
  contents f input = Some (bom_bytes ++ b) ->
  exists out r, replaced (lit "html") input out /\ contents f' out = Some (lit "<p>" ++ bom_bytes ++ r).
Proof. exact bom_written. Qed.
Print Assumptions C130_written_refuted.
Example C130_written_case : new_process (sample_machine 1) marked_disk /\ Forall no_short (oks 9) /\ status (snd marked_run) = Some 0 /\
  contents marked_disk [lit "w"; lit "m.md"] = Some (bom_bytes ++ lit "# A") /\
  contents (fst marked_run) [lit "w"; lit "m.html"] = Some (lit "<p>" ++ bom_bytes ++ lit "</p>" ++ [10%N] ++ lit "<h1>A</h1>" ++ [10%N]).
Proof.
  split; [apply disk_new; reflexivity|]. split; [repeat constructor|]. repeat split; vm_compute; reflexivity.
Qed.
