(** * PropertiesIter: the byte iterator (C07). *)
From Coq Require Import Ascii String.
From Verif Require Import Strings StringsFacts Token Iter Lexer Utf8 IterBytes IterBytesFacts.
Open Scope list_scope.

(** C07: for every text and every sequence of operations of iter.rs, the byte
    iterator gives exactly the answers of the iterator on chars, and ends where
    that one ends.  Not covered: [peek_until_end] on the empty text. *)
Theorem C07_iterator_partial : forall s os, valid s -> ops_ok s os ->
  b_run os (b_new (encode s)) =
    Ret (map encoded (fst (c_run os (c_new s))), at_place (snd (c_run os (c_new s)))) /\
  passed (snd (c_run os (c_new s))) ++ ahead (snd (c_run os (c_new s))) = s.
Proof. exact iterator_refines. Qed.
Print Assumptions C07_iterator_partial.

(** C07: whatever was done, the index stands between two chars. *)
Theorem C07_boundary_partial : forall s os answers it, valid s -> ops_ok s os ->
  b_run os (b_new (encode s)) = Ret (answers, it) ->
  exists a b, s = a ++ b /\ the_str it = encode s /\ index it = length (encode a) /\
    Forall (fun x => match x with AText (Some t) => exists u, decode t = Some u | _ => True end)
      answers.
Proof. exact boundary_kept. Qed.
Print Assumptions C07_boundary_partial.

(** C07 as stated is false: [peek_until_end] on the empty text subtracts one
    from its length 0. *)
Theorem C07_peek_until_end_refuted : exists s os, valid s /\ Forall op_ok os /\
  b_run os (b_new (encode s)) = Panic.
Proof. exact peek_until_end_empty. Qed.
Print Assumptions C07_peek_until_end_refuted.

(** A text with chars of one to four bytes, and what some operations give. *)
Example C07_text : str := [97; 233; 10; 8364; 128512; 98]%N.
Example C07_operations : list op :=
  [ONext; OPeek; OConsumeLine; OSubstringFrom 1; OSubstringAhead 2; OSubstringAhead 3;
   OFindNext [98]%N; ONextIfEq [8364]%N; OConsumeUntilTail [98]%N; OGetIndex; ONext].
Example C07_hypotheses : valid C07_text /\ ops_ok C07_text C07_operations.
Proof.
  unfold valid, scalar, C07_text, ops_ok, C07_operations.
  repeat split; repeat constructor; intros; try discriminate;
    unfold scalar; vm_compute; intuition congruence.
Qed.
Example C07_answers :
  b_run C07_operations (b_new (encode C07_text)) =
  Ret ([AText (Some [97]); AText (Some [195; 169]); AText (Some [195; 169; 10]);
        AText (Some [195; 169; 10]); AText None; AText (Some [226; 130; 172]);
        AOffset (Some 7%nat); AText (Some [226; 130; 172]); AText (Some [240; 159; 152; 128; 98]);
        AOffset (Some 12%nat); AText None],
       {| the_str := encode C07_text; index := 12 |})%N.
Proof. vm_compute. reflexivity. Qed.
