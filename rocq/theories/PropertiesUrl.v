(** * PropertiesUrl: the page that the browser opens and how it begins (C116, C117).

    Runs are as in PropertiesCli.v.  [visited p] is the file a browser opens for file:// and the path [p]
    (browser.rs:35); [web_dir] and [url_safe] are in SpecCli.v. *)
From Coq Require Import Ascii String.
From Verif Require Import Strings StringsFacts Token Iter Lexer Parser Utf8 System Config Url Cli
  SpecCli SystemFacts CliFacts CliMain UrlFacts CliRuns CliProps SpecPage BeginFacts UrlProps.
Open Scope list_scope.

(** C116: the file that is opened is the one that was written, exactly if the names of the directory mean themselves *)
Theorem C116_exact_partial : forall d, Forall proper_name d ->
  (visited (d ++ [lit "tmp.html"]) = Some (d ++ [lit "tmp.html"]) <-> url_safe d).
Proof. exact visited_exact. Qed.
Print Assumptions C116_exact_partial.

Example C116_exact_case : web_dir [lit "home"; lit "My documents (100%)"; lit "a&b=c+d;e"] /\
  visited [lit "home"; lit "C#"; lit "tmp.html"] = Some [lit "home"; lit "C"] /\
  visited [lit "home"; lit "what?"; lit "x"; lit "tmp.html"] = Some [lit "home"; lit "what"] /\
  visited [lit "home"; lit "a%20b"; lit "tmp.html"] = Some [lit "home"; lit "a b"; lit "tmp.html"] /\
  visited [lit "home"; lit "a\b"; lit "tmp.html"] = Some [lit "home"; lit "a"; lit "b"; lit "tmp.html"] /\
  visited [lit "home"; lit "%2e%2E"; lit "tmp.html"] = Some [lit "tmp.html"] /\
  visited [lit "home"; lit "%FF"; lit "tmp.html"] = None.
Proof. split; [apply web_dir_iff; vm_compute; reflexivity|]. vm_compute. auto 10. Qed.

(** C116 as stated is false: in every other directory a conversion that succeeds has printed another file *)
Theorem C116_unsafe_refuted : forall n st m f xs input out f' p',
  new_process m f -> Forall no_short xs -> replaced (lit "pdf") input out ->
  Forall proper_name (cwd m) -> ~ url_safe (cwd m) ->
  (forall t, names f (cwd m ++ [lit "tmp.html"]) <> Some (NLink t)) ->
  ~ aliases f (cwd m ++ [lit "tmp.html"]) out ->
  exec xs f (start m (main n st (CParse input Pdf))) = (f', p') -> status p' = Some 0 ->
  exists q, q <> cwd m ++ [lit "tmp.html"] /\
    (~ aliases f (cwd m ++ [lit "tmp.html"]) q ->
     exists c, contents f q = Some c /\ contents f' out = Some (pdf_of m c)).
Proof. exact unsafe_other. Qed.
Print Assumptions C116_unsafe_refuted.

(** C116: with a hash or a question mark in a name it is the file with the name before that; without such a file the
    conversion cannot succeed *)
Theorem C116_cut_refuted : forall n st m f xs input out f' p' d a x b e,
  new_process m f -> Forall no_short xs -> replaced (lit "pdf") input out ->
  cwd m = d ++ [a ++ [x] ++ b] ++ e -> In x (lit "#?") -> web_dir (d ++ [a]) ->
  (forall t, names f (cwd m ++ [lit "tmp.html"]) <> Some (NLink t)) ->
  ~ aliases f (cwd m ++ [lit "tmp.html"]) out -> ~ aliases f (cwd m ++ [lit "tmp.html"]) (d ++ [a]) ->
  exec xs f (start m (main n st (CParse input Pdf))) = (f', p') -> status p' = Some 0 ->
  exists c, contents f (d ++ [a]) = Some c /\ contents f' out = Some (pdf_of m c).
Proof. exact cut_other. Qed.
Print Assumptions C116_cut_refuted.

(** C116: a percent sign and two hexadecimal digits in a name are taken for a character *)
Theorem C116_coded_refuted : forall n st m f xs input out f' p' d a h l b e x y,
  new_process m f -> Forall no_short xs -> replaced (lit "pdf") input out ->
  cwd m = d ++ [a ++ lit "%" ++ [h; l] ++ b] ++ e -> digit16 h x -> digit16 l y -> 16 * x + y < 128 ->
  web_dir d -> Forall proper_name e -> Forall means_itself_in_url e ->
  means_itself_in_url a -> means_itself_in_url b -> proper_name (a ++ [N.of_nat (16 * x + y)] ++ b) ->
  (forall t, names f (cwd m ++ [lit "tmp.html"]) <> Some (NLink t)) ->
  ~ aliases f (cwd m ++ [lit "tmp.html"]) out ->
  let other := (d ++ [a ++ [N.of_nat (16 * x + y)] ++ b] ++ e) ++ [lit "tmp.html"] in
  ~ aliases f (cwd m ++ [lit "tmp.html"]) other ->
  exec xs f (start m (main n st (CParse input Pdf))) = (f', p') -> status p' = Some 0 ->
  exists c, contents f other = Some c /\ contents f' out = Some (pdf_of m c).
Proof. exact coded_other. Qed.
Print Assumptions C116_coded_refuted.

(** C116: names that are one or two dots with percent signs are left out, those of two together with the name before *)
Theorem C116_dots_refuted : forall n st m f xs input out f' p' d a x e,
  new_process m f -> Forall no_short xs -> replaced (lit "pdf") input out ->
  cwd m = d ++ a ++ [x] ++ e ->
  (a = [] /\ In x [lit "%2e"; lit "%2E"] \/
   (exists k, a = [k]) /\ In x [lit ".%2e"; lit ".%2E"; lit "%2e."; lit "%2E."; lit "%2e%2e"; lit "%2e%2E"; lit "%2E%2e"; lit "%2E%2E"]) ->
  web_dir (d ++ a) -> web_dir (d ++ e) ->
  (forall z, In z (lit "abcdefghijklmnopqrstuvwxyzABCDEFGHIJKLMNOPQRSTUVWXYZ") -> d ++ a <> [[z] ++ lit ":"]) ->
  (forall t, names f (cwd m ++ [lit "tmp.html"]) <> Some (NLink t)) ->
  ~ aliases f (cwd m ++ [lit "tmp.html"]) out ->
  let other := (d ++ e) ++ [lit "tmp.html"] in
  ~ aliases f (cwd m ++ [lit "tmp.html"]) other ->
  exec xs f (start m (main n st (CParse input Pdf))) = (f', p') -> status p' = Some 0 ->
  exists c, contents f other = Some c /\ contents f' out = Some (pdf_of m c).
Proof. exact dots_other. Qed.
Print Assumptions C116_dots_refuted.

(** In /w/%2e%2E with a file /tmp.html: the PDF shows that. *)
Example C116_dots_case :
  let here := [lit "w"; lit "%2e%2E"] in
  let m := {| pid := 1; cwd := here; pdf_of := fun b => lit "%PDF" ++ b |} in
  let f := disk [([], NDir); ([lit "w"], NDir); (here, NDir); (here ++ [lit "a.md"], NFile (0, 1));
                 ([lit "tmp.html"], NFile (0, 2))] [((0, 1), lit "# A"); ((0, 2), lit "private")] in
  let r := exec (oks 21) f (start m (main 100 sample_settings (CParse (here ++ [lit "a.md"]) Pdf))) in
  web_dir [lit "w"] /\ web_dir [] /\ status (snd r) = Some 0 /\
  contents (fst r) (here ++ [lit "a.pdf"]) = Some (lit "%PDFprivate").
Proof. split; [apply web_dir_iff; reflexivity|]. split; [apply web_dir_iff; reflexivity|]. vm_compute. auto. Qed.

(** In /w# with a file /w: the PDF shows /w; without it smd fails. *)
Example C116_case :
  let m := {| pid := 1; cwd := [lit "w#"]; pdf_of := fun b => lit "%PDF" ++ b |} in
  let run f := exec (oks 21) f (start m (main 100 sample_settings (CParse [lit "w#"; lit "a.md"] Pdf))) in
  let files := [([], NDir); ([lit "w#"], NDir); ([lit "w#"; lit "a.md"], NFile (0, 1))] in
  let f := disk (files ++ [([lit "w"], NFile (0, 2))]) [((0, 1), lit "# A"); ((0, 2), lit "private")] in
  let g := disk files [((0, 1), lit "# A")] in
  status (snd (run f)) = Some 0 /\
  contents (fst (run f)) [lit "w#"; lit "a.pdf"] = Some (lit "%PDFprivate") /\
  status (snd (run g)) = Some 1 /\
  contents (fst (run g)) [lit "w#"; lit "tmp.html"] = Some (lit "<h1>A</h1>" ++ [10%N]).
Proof. vm_compute. auto. Qed.


(** C117 as stated is false: no output is a whole document; every one begins with one of these elements or white space *)
Theorem C117_begins : forall s h, renders s h -> begins h.
Proof. exact renders_begins. Qed.
Print Assumptions C117_begins.

Theorem C117_document_refuted : forall s h t r, renders s h ->
  In t [lit "<!DOCTYPE"; lit "<!doctype"; lit "<html"; lit "<head"; lit "<meta"] -> h <> t ++ r.
Proof. exact no_document. Qed.
Print Assumptions C117_document_refuted.

Example C117_case : renders (lit "<!DOCTYPE html>" ++ [10%N] ++ lit "# T") (lit "<p>&lt;!DOCTYPE html&gt;</p>" ++ [10%N] ++ lit "<h1>T</h1>" ++ [10%N]).
Proof. exists 9. vm_compute. reflexivity. Qed.
