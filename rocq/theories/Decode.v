(** * Decode: decoding of HTML character references.

    Specification vocabulary, independent of the renderer: not code of /repo. *)
From Coq Require Import Ascii String.
From Verif Require Import Strings StringsFacts.
Open Scope list_scope.

(** [named] is the table of references, without the leading ampersand and the
    final semicolon.  A reference that is not in the table, or has no semicolon,
    stands for itself. [skip] counts the characters of a reference still to be
    skipped. *)
Definition ref_end (c : char) : bool := negb (ceq c 59%N).
Fixpoint decode_go (named : str -> option str) (skip : nat) (s : str) : str :=
  match s with
  | [] => []
  | c :: s' =>
      match skip with
      | S k => decode_go named k s'
      | O =>
          if ceq c c_amp then
            let name := take_while ref_end s' in
            match drop_while ref_end s' with
            | [] => c :: decode_go named 0 s'
            | _ => match named name with
                   | Some t => t ++ decode_go named (S (length name)) s'
                   | None => c :: decode_go named 0 s'
                   end
            end
          else c :: decode_go named 0 s'
      end
  end.
Definition decode (named : str -> option str) (s : str) : str := decode_go named 0 s.

(** The entries of the HTML standard that matter here
    (https://html.spec.whatwg.org/entities.json); the rest of the table is left
    open. *)
Definition html5_entries : list (str * str) :=
  [ (lit "amp", [c_amp]); (lit "lt", [c_lt]); (lit "gt", [c_gt]); (lit "quot", [c_quot]);
    (lit "apos", [c_apos]); (lit "lbrack", [c_lbrk]); (lit "rbrack", [c_rbrk]);
    (lit "lbrace", [c_lbrace]); (lit "rbrace", [c_rbrace]);
    (lit "mid", [8739%N]);   (* U+2223 DIVIDES, not '|' *)
    (lit "tilde", [732%N]);  (* U+02DC SMALL TILDE, not '~' *)
    (lit "#41", [c_rpar]); (lit "#40", [c_lpar]) ].
Definition html5 (named : str -> option str) : Prop :=
  forall e, In e html5_entries -> named (fst e) = Some (snd e).

(** The table with just these entries is one. *)
Definition html5_min (n : str) : option str :=
  match find (fun e => str_eqb (fst e) n) html5_entries with Some e => Some (snd e) | None => None end.
Lemma html5_min_ok : html5 html5_min.
Proof. unfold html5. apply (proj1 (Forall_forall (fun e => html5_min (fst e) = Some (snd e)) _)). repeat constructor. Qed.

Section Facts.
Variable named : str -> option str.
Lemma decode_skip a s : decode_go named (length a) (a ++ s) = decode_go named 0 s.
Proof. induction a as [|c a IH]; [reflexivity | exact IH]. Qed.
Lemma decode_plain c s : c <> c_amp -> decode named (c :: s) = c :: decode named s.
Proof. intros H. unfold decode. cbn [decode_go]. apply ceq_neq in H. now rewrite H. Qed.
Lemma decode_ref n t s : forallb ref_end n = true -> named n = Some t ->
  decode named (c_amp :: n ++ 59%N :: s) = t ++ decode named s.
Proof.
  intros F E. unfold decode. cbn [decode_go]. change (ceq c_amp c_amp) with true. cbn iota.
  rewrite take_while_app, drop_while_app by exact F. cbn [take_while drop_while].
  change (ref_end 59%N) with false. cbn iota. rewrite app_nil_r, E. f_equal.
  change (n ++ 59%N :: s) with (n ++ [59%N] ++ s). rewrite app_assoc.
  replace (S (length n)) with (length (n ++ [59%N])) by (rewrite app_length; cbn; lia).
  apply decode_skip.
Qed.
End Facts.
