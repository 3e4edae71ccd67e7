(** * Balance: how many start and end tags the output has (C30). *)
From Coq Require Import Ascii String ZArith.
From Verif Require Import Strings StringsFacts Token Iter Lexer Parser SanitizeFacts LexerFacts
  LexMono Master Html HtmlFacts LinkFacts Safety SafeClasses.
Open Scope list_scope.

(** ** Tag names and their ends *)
Definition name_end (c : char) : bool := ceq c c_sp || ceq c c_gt.
Definition ended (s : str) : bool := match s with c :: _ => name_end c | [] => false end.

(** Every '<' is followed by a complete name. *)
Fixpoint whole (h : str) : bool :=
  match h with
  | [] => true
  | c :: h' => (if ceq c c_lt then ended (drop_while name_char h') else true) && whole h'
  end.

Lemma name_end_not c : name_end c = true -> name_char c = false.
Proof.
  unfold name_end. intros H. apply orb_true_iff in H as [H|H]; apply ceq_eq in H as ->; reflexivity.
Qed.

(** What follows a '<', decomposed. *)
Lemma ended_split s : ended (drop_while name_char s) = true ->
  exists n c z, s = n ++ c :: z /\ forallb name_char n = true /\ name_end c = true.
Proof.
  induction s as [|x s IH]; [discriminate|]. cbn [drop_while]. destruct (name_char x) eqn:E.
  - intros H. destruct (IH H) as (n & c & z & -> & F & N). exists (x :: n), c, z.
    cbn [app forallb]. rewrite E. auto.
  - cbn [ended]. intros H. exists [], x, s. auto.
Qed.
Lemma ended_join n c z : forallb name_char n = true -> name_end c = true ->
  ended (drop_while name_char (n ++ c :: z)) = true.
Proof.
  intros F N. induction n as [|x n IH]; cbn [app drop_while].
  - rewrite (name_end_not c N). exact N.
  - cbn [forallb] in F. apply andb_true_iff in F as [E F]. rewrite E. auto.
Qed.

Lemma whole_app a b : whole a = true -> whole b = true -> whole (a ++ b) = true.
Proof.
  intros A B. induction a as [|c a IH]; [exact B|]. cbn [app whole] in *.
  apply andb_true_iff in A as [A1 A2]. rewrite (IH A2), andb_true_r.
  destruct (ceq c c_lt); [|reflexivity].
  apply ended_split in A1 as (n & d & z & -> & F & N). rewrite <- app_assoc. now apply ended_join.
Qed.
Lemma whole_text s : ~ In c_lt s -> whole s = true.
Proof.
  induction s as [|c s IH]; intros H; [reflexivity|]. cbn [whole].
  rewrite IH by (intros I; apply H; now right).
  destruct (ceq c c_lt) eqn:E; [|reflexivity]. apply ceq_eq in E. exfalso. apply H. now left.
Qed.
(** Before a '<' or at the end of the text nothing is missing. *)
Lemma whole_before a b : whole (a ++ c_lt :: b) = true -> whole a = true.
Proof.
  induction a as [|c a IH]; [reflexivity|]. cbn [app whole]. intros H.
  apply andb_true_iff in H as [H1 H2]. rewrite (IH H2), andb_true_r.
  destruct (ceq c c_lt); [|reflexivity]. clear -H1.
  apply ended_split in H1 as (n & d & z & E & F & N).
  revert n F E; induction a as [|x a IH]; intros n F E.
  - destruct n as [|y n]; cbn [app] in E; injection E as <- E.
    + discriminate N.
    + cbn [forallb] in F. discriminate F.
  - cbn [drop_while]. destruct n as [|y n]; cbn [app] in E; injection E as <- E.
    + rewrite (name_end_not _ N). exact N.
    + cbn [forallb] in F. apply andb_true_iff in F as [F1 F2]. rewrite F1. exact (IH n F2 E).
Qed.
Lemma whole_after a b : whole (a ++ b) = true -> whole b = true.
Proof.
  induction a as [|c a IH]; [auto|]. cbn [app whole]. intros H. apply andb_true_iff in H as [_ H]. auto.
Qed.

(** No whitespace at the end is needed, unless it is the space of a name. *)
Lemma whole_no_sp a w : (forall c, In c w -> is_whitespace c = true) -> whole (a ++ w) = true ->
  whole a = true \/ exists x n, a = x ++ c_lt :: n /\ forallb name_char n = true.
Proof.
  intros F. induction a as [|c a IH]; [now left|]. cbn [app whole]. intros H.
  apply andb_true_iff in H as [H1 H2]. destruct (IH H2) as [->|(x & n & -> & Fn)].
  2:{ right. now exists (c :: x), n. }
  rewrite andb_true_r. destruct (ceq c c_lt) eqn:E; [|now left]. apply ceq_eq in E as ->.
  apply ended_split in H1 as (n & d & z & E & Fn & D).
  destruct (forallb name_char a) eqn:FA; [right; now exists [], a|]. left.
  clear -E Fn D FA F. revert n Fn E; induction a as [|y a IH]; intros n Fn E; [discriminate|].
  cbn [drop_while]. destruct n as [|u n]; cbn [app] in E; injection E as <- E.
  - rewrite (name_end_not _ D). exact D.
  - cbn [forallb] in *. apply andb_true_iff in Fn as [F1 F2]. rewrite F1 in *. exact (IH FA n F2 E).
Qed.

(** Every tag is ended before the next one and before the end; [i]: inside a tag. *)
Fixpoint shut (i : bool) (h : str) : bool :=
  match h with
  | [] => negb i
  | c :: h' => if ceq c c_lt then negb i && shut true h' else if ceq c c_gt then shut false h' else shut i h'
  end.
Lemma shut_app i a b : shut i a = true -> shut false b = true -> shut i (a ++ b) = true.
Proof.
  intros A B. revert i A; induction a as [|c a IH]; intros i; cbn [app shut].
  - destruct i; [discriminate | auto].
  - destruct (ceq c c_lt). { intros H. apply andb_true_iff in H as [-> H]. now apply IH. }
    destruct (ceq c c_gt); apply IH.
Qed.
Lemma shut_out b : shut true b = true -> shut false b = true.
Proof.
  induction b as [|c b IH]; [discriminate|]. cbn [shut]. destruct (ceq c c_lt); [discriminate|].
  destruct (ceq c c_gt); auto.
Qed.
Lemma shut_text i s b : ~ In c_lt s -> shut i b = true -> shut i (s ++ b) = true.
Proof.
  intros N H. revert i H; induction s as [|c s IH]; intros i H; [exact H|]. cbn [app shut].
  assert (ceq c c_lt = false) as -> by (apply ceq_neq; intros ->; apply N; now left).
  assert (N' : ~ In c_lt s) by (intros I; apply N; now right).
  destruct (ceq c c_gt); [|now apply IH]. apply IH; [auto|]. destruct i; [now apply shut_out | auto].
Qed.
Lemma shut_skip i a s b : ~ In c_lt s -> shut i (a ++ b) = true -> shut i (a ++ s ++ b) = true.
Proof.
  intros N. revert i; induction a as [|c a IH]; intros i; cbn [app shut]; [now apply shut_text|].
  destruct (ceq c c_lt). { intros H. apply andb_true_iff in H as [-> H]. now apply IH. }
  destruct (ceq c c_gt); apply IH.
Qed.
Lemma shut_before i a b : shut i (a ++ c_lt :: b) = true -> shut i a = true.
Proof.
  revert i; induction a as [|c a IH]; intros i; cbn [app shut].
  - intros H. apply andb_true_iff in H as [H _]. exact H.
  - destruct (ceq c c_lt). { intros H. apply andb_true_iff in H as [-> H]. eapply IH; eauto. }
    destruct (ceq c c_gt); apply IH.
Qed.
Lemma shut_blank i s b : (forall c, In c s -> is_whitespace c = true) -> shut i (s ++ b) = shut i b.
Proof.
  intros F. induction s as [|c s IH]; [reflexivity|]. cbn [app shut].
  assert (W : is_whitespace c = true) by (apply F; now left).
  destruct (ceq c c_lt) eqn:E1; [apply ceq_eq in E1 as ->; discriminate|].
  destruct (ceq c c_gt) eqn:E2; [apply ceq_eq in E2 as ->; discriminate|].
  apply IH. intros x I. apply F. now right.
Qed.
Lemma shut_blank_end i a w : (forall c, In c w -> is_whitespace c = true) -> shut i (a ++ w) = shut i a.
Proof.
  intros F. revert i; induction a as [|c a IH]; intros i; cbn [app shut].
  - rewrite <- (app_nil_r w) at 1. now rewrite shut_blank.
  - destruct (ceq c c_lt); [now rewrite IH|]. destruct (ceq c c_gt); apply IH.
Qed.
Lemma shut_names i x n : forallb name_char n = true -> shut i (x ++ c_lt :: n) = false.
Proof.
  intros F. revert i; induction x as [|c x IH]; intros i; cbn [app shut].
  - change (ceq c_lt c_lt) with true. cbn iota. apply andb_false_intro2.
    induction n as [|c n IH]; [reflexivity|]. cbn [shut forallb] in *. apply andb_true_iff in F as [F1 F2].
    destruct (ceq c c_lt) eqn:E1; [apply ceq_eq in E1 as ->; discriminate|].
    destruct (ceq c c_gt) eqn:E2; [apply ceq_eq in E2 as ->; discriminate|]. auto.
  - destruct (ceq c c_lt); [rewrite IH; apply andb_false_r|]. destruct (ceq c c_gt); apply IH.
Qed.
Lemma whole_blank a w : (forall c, In c w -> is_whitespace c = true) -> shut false a = true ->
  whole (a ++ w) = true -> whole a = true.
Proof.
  intros F S_ W. destruct (whole_no_sp a w F W) as [H|(x & n & -> & Fn)]; [exact H|].
  rewrite shut_names in S_ by exact Fn. discriminate.
Qed.
Lemma shut_untab i s : shut i (untab s) = shut i s.
Proof.
  revert i; induction s as [|c s IH]; intros i; [reflexivity|]. rewrite untab_cons.
  destruct (ceq c c_tab) eqn:E.
  - apply ceq_eq in E as ->. rewrite (shut_blank i (lit "  ")); [apply IH|].
    intros c [<-|[<-|[]]]; reflexivity.
  - cbn [app shut]. now rewrite !IH.
Qed.

(** ** Occurrences of tags *)
Definition tag (n : str) (t : char) : str := c_lt :: n ++ [t].

Lemma starts_name n t m d z : forallb name_char n = true -> name_end t = true ->
  forallb name_char m = true -> name_end d = true ->
  starts_with (n ++ [t]) (m ++ d :: z) = str_eqb n m && ceq t d.
Proof.
  intros N T. revert m; induction n as [|x n IH]; intros m M D.
  - destruct m as [|y m]; cbn [app starts_with str_eqb].
    + now rewrite andb_true_r.
    + cbn [forallb] in M. apply andb_true_iff in M as [M _].
      destruct (ceq t y) eqn:E; [|reflexivity]. apply ceq_eq in E as <-.
      rewrite (name_end_not t T) in M. discriminate.
  - cbn [forallb] in N. apply andb_true_iff in N as [N1 N2].
    destruct m as [|y m]; cbn [app starts_with str_eqb].
    + destruct (ceq x d) eqn:E; [|reflexivity]. apply ceq_eq in E as ->.
      rewrite (name_end_not d D) in N1. discriminate.
    + cbn [forallb] in M. apply andb_true_iff in M as [M1 M2]. rewrite (IH N2 m M2 D). now rewrite andb_assoc.
Qed.

Section Count.
Variables (n : str) (t : char).
Hypothesis N : forallb name_char n = true.
Hypothesis T : name_end t = true.
Local Notation tg := (tag n t).

Lemma starts_other c s : ceq c c_lt = false -> starts_with tg (c :: s) = false.
Proof. intros H. cbn [tag starts_with]. rewrite ceq_sym, H. reflexivity. Qed.

Lemma occurs_app a b : whole a = true -> occurs tg (a ++ b) = occurs tg a + occurs tg b.
Proof.
  induction a as [|c a IH]; [reflexivity|]. intros W. cbn [whole] in W. apply andb_true_iff in W as [W1 W2].
  change ((c :: a) ++ b) with (c :: (a ++ b)). cbn [occurs]. rewrite (IH W2).
  enough (starts_with tg (c :: a ++ b) = starts_with tg (c :: a)) as -> by lia.
  destruct (ceq c c_lt) eqn:E; [|now rewrite !starts_other].
  apply ended_split in W1 as (m & d & z & -> & F & D).
  cbn [tag starts_with]. rewrite ceq_sym, E, <- app_assoc. cbn [app].
  now rewrite !starts_name.
Qed.
Lemma occurs_text s : ~ In c_lt s -> occurs tg s = 0.
Proof.
  induction s as [|c s IH]; intros H; [reflexivity|]. cbn [occurs].
  rewrite IH by (intros I; apply H; now right). rewrite starts_other; [reflexivity|].
  apply ceq_neq. intros ->. apply H. now left.
Qed.
(** A '<' begins afresh. *)
Lemma occurs_lt a b : occurs tg (a ++ c_lt :: b) = occurs tg a + occurs tg (c_lt :: b).
Proof.
  induction a as [|c a IH]; [reflexivity|].
  change ((c :: a) ++ c_lt :: b) with (c :: (a ++ c_lt :: b)). cbn [occurs] in *. rewrite IH.
  enough (starts_with tg (c :: a ++ c_lt :: b) = starts_with tg (c :: a)) as -> by lia.
  cbn [tag starts_with]. f_equal. clear IH.
  assert (NL : ~ In c_lt (n ++ [t])).
  { intros I. apply in_app_iff in I as [I|[I|[]]].
    - apply (proj1 (forallb_forall _ _) N) in I. discriminate.
    - subst t. discriminate. }
  revert NL. generalize (n ++ [t]). induction a as [|x a IH]; intros [|y p] NL; cbn [app starts_with]; auto.
  - destruct (ceq y c_lt) eqn:E; [|reflexivity]. apply ceq_eq in E as ->. exfalso. apply NL. now left.
  - f_equal. apply IH. intros I. apply NL. now right.
Qed.

Lemma occurs_untab s : whole s = true -> occurs tg (untab s) = occurs tg s.
Proof.
  induction s as [|c s IH]; [reflexivity|]. intros W. cbn [whole] in W. apply andb_true_iff in W as [W1 W2].
  rewrite untab_cons. destruct (ceq c c_tab) eqn:E.
  - apply ceq_eq in E as ->. cbn [occurs app lit]. rewrite (IH W2), !starts_other by reflexivity. reflexivity.
  - cbn [app occurs]. rewrite (IH W2). f_equal.
    destruct (ceq c c_lt) eqn:L; [|now rewrite !starts_other].
    apply ended_split in W1 as (m & d & z & -> & F & D).
    cbn [tag starts_with]. rewrite ceq_sym, L. cbn [andb].
    assert (U : untab (m ++ d :: z) = m ++ d :: untab z).
    { rewrite untab_app, untab_cons. assert (ceq d c_tab = false) as ->.
      { destruct (ceq d c_tab) eqn:X; [|reflexivity]. apply ceq_eq in X as ->. discriminate. }
      f_equal. clear -F. induction m as [|x m IH]; [reflexivity|]. cbn [forallb] in F.
      apply andb_true_iff in F as [F1 F2]. rewrite untab_cons, (IH F2).
      destruct (ceq x c_tab) eqn:X; [apply ceq_eq in X as ->; discriminate | reflexivity]. }
    rewrite U. now rewrite !starts_name.
Qed.
End Count.

Lemma whole_untab s : whole s = true -> whole (untab s) = true.
Proof.
  induction s as [|c s IH]; [reflexivity|]. intros W. cbn [whole] in W. apply andb_true_iff in W as [W1 W2].
  rewrite untab_cons. destruct (ceq c c_tab) eqn:E; [exact (IH W2)|].
  cbn [app whole]. rewrite (IH W2), andb_true_r. destruct (ceq c c_lt); [|reflexivity].
  apply ended_split in W1 as (m & d & z & -> & F & D). rewrite untab_app, untab_cons.
  assert (ceq d c_tab = false) as ->.
  { destruct (ceq d c_tab) eqn:X; [|reflexivity]. apply ceq_eq in X as ->. discriminate. }
  replace (untab m) with m; [now apply ended_join|].
  clear -F. induction m as [|x m IH]; [reflexivity|]. cbn [forallb] in F.
  apply andb_true_iff in F as [F1 F2]. rewrite untab_cons, <- (IH F2).
  destruct (ceq x c_tab) eqn:X; [apply ceq_eq in X as ->; discriminate | reflexivity].
Qed.

(** ** The surplus of start tags of one element *)
Open Scope Z_scope.
Definition bal (e h : str) : Z := Z.of_nat (opens e h) - Z.of_nat (closes e h).

Section Element.
Variable e : str.
Hypothesis E : In e elements.

Lemma e_name : forallb name_char e = true.
Proof.
  revert e E. apply Forall_forall. repeat constructor.
Qed.
Lemma e_close : forallb name_char (47%N :: e) = true.
Proof. cbn [forallb]. rewrite e_name. reflexivity. Qed.
Lemma open_tag1 : lit "<" ++ e ++ lit ">" = tag e c_gt. Proof. reflexivity. Qed.
Lemma open_tag2 : lit "<" ++ e ++ lit " " = tag e c_sp. Proof. reflexivity. Qed.
Lemma close_tag : lit "</" ++ e ++ lit ">" = tag (47%N :: e) c_gt. Proof. reflexivity. Qed.

Lemma bal_app a b : whole a = true -> bal e (a ++ b) = bal e a + bal e b.
Proof.
  intros W. unfold bal, opens, closes. rewrite open_tag1, open_tag2, close_tag.
  rewrite !occurs_app by (assumption || reflexivity || apply e_name || apply e_close). lia.
Qed.
Lemma bal_lt a b : bal e (a ++ c_lt :: b) = bal e a + bal e (c_lt :: b).
Proof.
  unfold bal, opens, closes. rewrite open_tag1, open_tag2, close_tag.
  rewrite !occurs_lt by (assumption || reflexivity || apply e_name || apply e_close). lia.
Qed.
Lemma bal_text s : ~ In c_lt s -> bal e s = 0.
Proof.
  intros W. unfold bal, opens, closes. rewrite open_tag1, open_tag2, close_tag.
  rewrite !occurs_text by (assumption || reflexivity || apply e_name || apply e_close). lia.
Qed.
Lemma bal_untab s : whole s = true -> bal e (untab s) = bal e s.
Proof.
  intros W. unfold bal, opens, closes. rewrite open_tag1, open_tag2, close_tag.
  rewrite !occurs_untab by (assumption || reflexivity || apply e_name || apply e_close). lia.
Qed.
(** Literals are checked by computation, for all elements. *)
Lemma bal_lit a b : forallb (fun x => bal x a =? bal x b) elements = true -> bal e a = bal e b.
Proof. intros H. apply (proj1 (forallb_forall _ _) H) in E. now apply Z.eqb_eq. Qed.
Lemma bal_zero a : forallb (fun x => bal x a =? 0) elements = true -> bal e a = 0.
Proof. intros H. apply (proj1 (forallb_forall _ _) H) in E. now apply Z.eqb_eq. Qed.
Lemma bal_skip a s b : whole a = true -> ~ In c_lt s -> bal e (a ++ s ++ b) = bal e (a ++ b).
Proof.
  intros W S. rewrite !bal_app by (assumption || now apply whole_text). rewrite (bal_text s S). lia.
Qed.
Lemma bal_nrep n s : whole s = true -> bal e (nrep n s) = Z.of_nat n * bal e s.
Proof. intros W. induction n as [|n IH]; [reflexivity|]. cbn [nrep]. rewrite bal_app, IH by exact W. lia. Qed.
Lemma bal_neg a b : forallb (fun x => bal x (a ++ b) =? 0) elements = true -> whole a = true ->
  bal e b = - bal e a.
Proof. intros H W. apply bal_zero in H. rewrite bal_app in H by exact W. lia. Qed.

Lemma pad_split s : pad s = s \/ exists x y, s = x ++ lit "<pre><code>" ++ y /\ pad s = x ++ lit "<pre><code>  " ++ pad y.
Proof.
  induction s as [|c s IH]; [now left|].
  destruct (starts_with (lit "<pre><code>") (c :: s)) eqn:S_.
  - apply starts_with_iff in S_ as [y ->]. right. exists [], y. split; [reflexivity|].
    unfold pad. now rewrite (replace_hit c_lt (lit "pre><code>")).
  - unfold pad in *. rewrite (replace_miss _ _ _ _ S_). destruct IH as [->|(x & y & -> & ->)]; [now left|].
    right. now exists (c :: x), y.
Qed.
Lemma bal_pad n : forall s, (length s <= n)%nat -> whole s = true -> whole (pad s) = true /\ bal e (pad s) = bal e s.
Proof.
  induction n as [|n IH]; intros s L W.
  { destruct s; [now split | cbn in L; lia]. }
  destruct (pad_split s) as [->|(x & y & -> & ->)]; [now split|].
  assert (WX : whole x = true) by (apply (whole_before _ (lit "pre><code>" ++ y)); exact W).
  assert (WY : whole y = true) by (apply whole_after, whole_after in W; exact W).
  destruct (IH y) as [PW PB]; [|exact WY|].
  { rewrite !app_length in L. change (length (lit "<pre><code>")) with 11%nat in L. lia. }
  split.
  - repeat apply whole_app; auto.
  - rewrite !bal_app by (assumption || reflexivity). rewrite PB.
    rewrite (bal_lit (lit "<pre><code>  ") (lit "<pre><code>")) by reflexivity. lia.
Qed.

Lemma shut_old i x y z : shut i (x ++ lit "<pre><code>" ++ y) = true -> shut false z = true ->
  shut i (x ++ lit "<pre><code>  " ++ z) = true.
Proof. intros H Z_. apply shut_app; [now apply (shut_before i x (lit "pre><code>" ++ y)) | now apply shut_app]. Qed.
Lemma shut_after i x y : shut i (x ++ lit "<pre><code>" ++ y) = true -> shut false y = true.
Proof.
  revert i; induction x as [|c x IH]; intros i; [destruct i; [discriminate | auto]|].
  cbn [app shut]. destruct (ceq c c_lt). { intros H. apply andb_true_iff in H as [_ H]. eauto. }
  destruct (ceq c c_gt); apply IH.
Qed.
Lemma shut_pad n : forall s i, (length s <= n)%nat -> shut i s = true -> shut i (pad s) = true.
Proof.
  induction n as [|n IH]; intros s i L W.
  { destruct s; [exact W | cbn in L; lia]. }
  destruct (pad_split s) as [->|(x & y & -> & ->)]; [exact W|].
  apply (shut_old i x y); [exact W|]. apply IH; [|now apply shut_after in W].
  rewrite !app_length in L. change (length (lit "<pre><code>")) with 11%nat in L. lia.
Qed.

(** ** Complete pieces *)
Variable good : Z -> Prop.
Hypothesis g0 : good 0.
Hypothesis gadd : forall a b, good a -> good b -> good (a + b).

Definition B (h : str) : Prop := whole h = true /\ shut false h = true /\ good (bal e h).

Lemma B_zero h : whole h = true -> shut false h = true -> bal e h = 0 -> B h.
Proof. intros W S_ Z_. split; [exact W|]. split; [exact S_|]. now rewrite Z_. Qed.
Lemma B_lit h : whole h && shut false h && forallb (fun x => bal x h =? 0) elements = true -> B h.
Proof.
  intros H. apply andb_true_iff in H as [H H2]. apply andb_true_iff in H as [H H1].
  apply B_zero; auto. now apply bal_zero.
Qed.
Lemma B_app a b : B a -> B b -> B (a ++ b).
Proof.
  intros (WA & SA & GA) (WB & SB & GB). split; [now apply whole_app|]. split; [now apply shut_app|].
  rewrite bal_app by exact WA. now apply gadd.
Qed.
Lemma B_text s : ~ In c_lt s -> B s.
Proof.
  intros H. apply B_zero; [now apply whole_text | | now apply bal_text].
  rewrite <- (app_nil_r s). now apply shut_text.
Qed.
Lemma B_san s : B (sanitize s).
Proof. apply B_text, sanitize_no_lt. Qed.
(** A complete piece inside two literals. *)
Lemma B_lits a s b : whole a && whole b && shut false a && shut false b &&
  forallb (fun x => bal x a + bal x b =? 0) elements = true -> B s -> B (a ++ s ++ b).
Proof.
  intros H (WS & SS & GS). apply andb_true_iff in H as [H Z_]. apply andb_true_iff in H as [H SB].
  apply andb_true_iff in H as [H SA]. apply andb_true_iff in H as [WA WB].
  pose proof (proj1 (forallb_forall _ _) Z_ e E) as Z0. apply Z.eqb_eq in Z0.
  split; [repeat apply whole_app; auto|]. split; [repeat apply shut_app; auto|].
  rewrite !bal_app by assumption. replace (bal e a + (bal e s + bal e b)) with (bal e s) by lia. exact GS.
Qed.
Lemma B_pad s : B s -> B (pad s).
Proof.
  intros (W & S_ & G). destruct (bal_pad (length s) s) as [W' P']; auto.
  split; [exact W'|]. split; [now apply (shut_pad (length s)) | now rewrite P'].
Qed.
Lemma B_untab s : B s -> B (untab s).
Proof.
  intros (W & S_ & G). split; [now apply whole_untab|]. rewrite shut_untab, bal_untab by exact W. auto.
Qed.

(** ** The pieces of the parser *)
Variable OK : str -> Prop.
Hypothesis X : texts OK.
Hypothesis raw : forall s, OK s -> no_raw s.
Hypothesis links : forall t u h, link_at OK [] t u h ->
  ~ In c_lt (url_content u) /\ ~ In c_lt (fmt_url u) /\ forall x, h = Some x -> ~ In c_lt x.
Hypothesis autos : forall u, auto_at OK u -> url_scheme u <> None -> ~ In c_lt (fmt_url u) /\ ~ In c_lt (fmt_unsafe u).

(** Texts between the literals, out of the way. *)
Lemma B_skip a s b : whole a = true -> ~ In c_lt s -> B (a ++ b) -> whole b = true -> B (a ++ s ++ b).
Proof.
  intros W N (_ & S_ & G) WB. split; [|split; [now apply shut_skip | now rewrite bal_skip]].
  repeat apply whole_app; auto. now apply whole_text.
Qed.

Lemma dec_no_lt n : ~ In c_lt (dec n).
Proof. apply not_digit. reflexivity. Qed.

Ltac nolt := first [apply sanitize_no_lt | apply dec_no_lt | assumption].
Ltac wholes := repeat match goal with
  | |- whole (_ ++ _) = true => apply whole_app
  | |- whole (lit _) = true => reflexivity
  | |- whole (_ :: _) = true => reflexivity
  | |- _ => apply whole_text; nolt
  end.

Lemma B_footnote_ref s n : B (footnote_ref s n).
Proof.
  unfold footnote_ref. apply B_skip; [reflexivity | nolt | | wholes]. rewrite app_assoc.
  apply B_skip; [reflexivity | nolt | | wholes]. rewrite app_assoc.
  apply B_skip; [reflexivity | nolt | | wholes]. apply B_lit; reflexivity.
Qed.
Lemma B_footnote_pieces ps : (forall p, In p ps -> ~ In c_lt p) -> forall n, B (footnote_pieces n ps).
Proof.
  induction ps as [|p ps IH]; intros H n; [apply B_lit; reflexivity|]. cbn [footnote_pieces].
  assert (IHn : forall n, B (footnote_pieces n ps)) by (apply IH; intros q I; apply H; now right).
  destruct (ends_with _ _); apply B_app; auto.
  - apply B_footnote_ref.
  - apply B_text. apply H. now left.
Qed.
Lemma B_plaintext s : OK s -> B (plaintext_html s).
Proof.
  intros O. unfold plaintext_html.
  assert (O' : OK (drop_blank_tail s)) by (eapply x_infix; [exact X | apply drop_blank_tail_infix | exact O]).
  destruct (contains [c_lbrk; c_caret] _ && _) eqn:C.
  - apply andb_true_iff in C as [C _]. apply contains_iff in C. destruct (raw _ O') as [R|R].
    + apply B_footnote_pieces. intros p I J. apply R. eapply infix_In; [|exact J].
      eapply split_infix; exact I.
    + now exfalso.
  - apply B_san.
Qed.
Lemma B_ref r : B (ref_html r).
Proof.
  unfold ref_html.
  set (a := [c_tab; c_tab] ++ _). 
  change (B (([c_tab; c_tab] ++ lit "<li id=""fn:1"" role=""doc-endnote"">" ++ [c_tab; c_tab; c_tab] ++ lit "<p>")
    ++ sanitize (snd r) ++ lit "<a href=""#fnref:" ++ sanitize (fst r)
    ++ lit """ class=""reversefootnote"" role=""doc-backlink"">" ++ [8617%N]
    ++ lit "</a></p>" ++ [c_tab; c_tab] ++ lit "</li>")).
  clear a. apply B_skip; [reflexivity | nolt | | wholes]. rewrite app_assoc.
  apply B_skip; [reflexivity | nolt | | wholes]. apply B_lit; reflexivity.
Qed.
Lemma B_trim h : B h -> B (trim h).
Proof.
  intros (W & S_ & G). unfold trim, trim_end, trim_start_by.
  assert (NW : forall s, forallb is_whitespace s = true -> ~ In c_lt s).
  { intros s F I. apply (proj1 (forallb_forall _ _) F) in I. discriminate. }
  assert (H1 : B (drop_while is_whitespace h)).
  { rewrite <- (take_drop is_whitespace h) in W, S_, G. split; [now apply whole_after in W|]. split.
    - rewrite shut_blank in S_; [exact S_|]. apply forallb_forall, take_while_forall.
    - rewrite bal_app in G by (apply whole_text, NW, take_while_forall).
      rewrite bal_text in G by (apply NW, take_while_forall). exact G. }
  revert H1. generalize (drop_while is_whitespace h). clear h W S_ G. intros h H.
  destruct (trim_end_by_spec is_whitespace h) as (w & E1 & F). rewrite E1 in H.
  revert H. generalize (trim_end_by is_whitespace h). intros x (W & S_ & G).
  assert (FW : forall c, In c w -> is_whitespace c = true) by apply forallb_forall, F.
  rewrite shut_blank_end in S_ by exact FW.
  pose proof (whole_blank x w FW S_ W) as W1.
  split; [exact W1|]. split; [exact S_|]. rewrite bal_app in G by exact W1. rewrite (bal_text w) in G by apply NW, F.
  now rewrite Z.add_0_r in G.
Qed.
Lemma B_heading_text t : heading_text B t -> B t.
Proof.
  intros [->|(h & H & ->)]; [apply B_lit; reflexivity|]. unfold heading_unwrap. apply B_trim.
  destruct (strip_prefix _ h) as [r|] eqn:E1; [|apply B_lit; reflexivity]. cbn [or_empty].
  apply strip_prefix_iff in E1 as ->.
  destruct (strip_suffix _ r) as [x|] eqn:E2; [|apply B_lit; reflexivity]. cbn [or_empty].
  apply strip_suffix_iff in E2 as ->. destruct H as (W & S_ & G).
  apply whole_after in W. pose proof (whole_before x _ W) as WX.
  split; [exact WX|]. split.
  - apply (shut_before false x (lit "/p>" ++ [c_nl])). exact S_.
  - rewrite (bal_app (lit "<p>")), (bal_app x) in G by (reflexivity || exact WX).
    replace (bal e (lit "<p>") + (bal e x + bal e (lit "</p>" ++ [c_nl]))) with (bal e x) in G; [exact G|].
    rewrite (bal_neg (lit "<p>") (lit "</p>" ++ [c_nl])) by reflexivity. lia.
Qed.
Lemma B_header n t : (1 <= n <= 6)%nat -> B t -> B (header_html n t None).
Proof.
  intros N H. unfold header_html.
  change (lit "<h" ++ dec n ++ lit ">" ++ t ++ lit "</h" ++ dec n ++ lit ">" ++ [c_nl])
    with (lit "<h" ++ dec n ++ (lit ">" ++ (t ++ (lit "</h" ++ dec n ++ lit ">" ++ [c_nl])))).
  rewrite (app_assoc (dec n)), (app_assoc (lit "<h")).
  apply B_lits; [|exact H]. destruct n as [|[|[|[|[|[|[|n]]]]]]]; try lia; vm_compute; reflexivity.
Qed.
Lemma B_image u t h : link_at OK [c_bang] t u h -> B (image_html (url_content u) (Some t)).
Proof.
  intros F. destruct (links t u h (link_bang OK X _ _ _ F)) as [C _]. unfold image_html. destruct (is_empty _).
  - apply B_skip; [reflexivity | nolt | | wholes]. apply B_lit. reflexivity.
  - apply B_skip; [reflexivity | nolt | | wholes]. rewrite app_assoc.
    apply B_skip; [reflexivity | nolt | | wholes]. apply B_lit. reflexivity.
Qed.
Lemma B_link u t h : link_at OK [] t u h -> B (link_html u (Some t) h).
Proof.
  intros F. destruct (links t u h F) as (_ & C & L0). unfold link_html. destruct h as [h|].
  - pose proof (L0 h eq_refl) as L.
    apply B_skip; [reflexivity | nolt | | wholes]. rewrite app_assoc.
    apply B_skip; [reflexivity | nolt | | wholes]. rewrite app_assoc.
    apply B_skip; [reflexivity | nolt | | wholes]. apply B_lit. reflexivity.
  - apply B_skip; [reflexivity | nolt | | wholes]. rewrite app_assoc.
    apply B_skip; [reflexivity | nolt | | wholes]. apply B_lit. reflexivity.
Qed.
Lemma B_auto u : auto_at OK u -> url_scheme u <> None -> B (link_html u None None).
Proof.
  intros F N. destruct (autos u F N) as [C L]. unfold link_html.
  apply B_skip; [reflexivity | nolt | | wholes]. rewrite app_assoc.
  apply B_skip; [reflexivity | nolt | | wholes]. apply B_lit. reflexivity.
Qed.
Lemma B_detail s h : B h -> B (detail_html s h).
Proof.
  intros H. unfold detail_html.
  change (B ((lit "<details>" ++ [c_nl] ++ lit "<summary>") ++ sanitize s ++ (lit "</summary>"
    ++ [c_nl]) ++ h ++ [c_bslash; c_nl] ++ crep 7 c_tab ++ lit " n</details>")).
  rewrite (app_assoc (sanitize s)), (app_assoc (lit "<details>" ++ [c_nl] ++ lit "<summary>")).
  destruct H as (W & S_ & G). set (a := (lit "<details>" ++ [c_nl] ++ lit "<summary>") ++ sanitize s ++ (lit "</summary>" ++ [c_nl])).
  set (b := [c_bslash; c_nl] ++ crep 7 c_tab ++ lit " n</details>").
  assert (WA : whole a = true) by (subst a; wholes).
  split; [apply whole_app; [exact WA|]; apply whole_app; [exact W | reflexivity]|]. split.
  - apply shut_app; [|apply shut_app; [exact S_ | reflexivity]].
    subst a. apply shut_skip; [nolt | reflexivity].
  - rewrite (bal_app a), (bal_app h) by assumption.
    replace (bal e a + (bal e h + bal e b)) with (bal e h); [exact G|].
    assert (bal e a + bal e b = 0); [|lia]. 
    subst a. rewrite bal_skip by (reflexivity || nolt). subst b.
    rewrite <- bal_app by reflexivity. apply bal_zero. reflexivity.
Qed.
Lemma B_task c t : B (task_html c t).
Proof. unfold task_html. destruct c; (apply B_lits; [reflexivity | apply B_san]). Qed.
Lemma B_th h : B (th_html h).
Proof.
  unfold th_html. destruct h as [a t]. cbn [fst snd].
  change (B ([c_tab; c_tab] ++ (lit "<th style=""text-align: " ++ fmt_alignment a ++ lit """>" ++ (sanitize t ++ lit "</th>")))).
  rewrite (app_assoc (fmt_alignment a)), (app_assoc (lit "<th style=""text-align: ")), (app_assoc [c_tab; c_tab]).
  apply B_lits; [destruct a; reflexivity | apply B_san].
Qed.
Lemma B_td a h : B h -> B (td_html a h).
Proof.
  intros H. unfold td_html.
  rewrite (app_assoc (fmt_alignment a)), (app_assoc (lit "<td style=""text-align: ")), (app_assoc [c_nl; c_tab; c_tab]).
  apply B_lits; [destruct a; reflexivity | exact H].
Qed.
Lemma B_concat l : Forall B l -> B (concat l).
Proof. induction 1; cbn [concat]; [apply B_lit; reflexivity | now apply B_app]. Qed.

(** ** The loop: what is open is what the flags say *)
Hypothesis gul : seen_box OK -> good (bal e (lit "<ul>")).

Definition flag (b : bool) (s : str) : Z := if b then bal e s else 0.
Definition owed (p : pstate) : Z :=
  flag (in_paragraph p) (lit "<p>") + Z.of_nat (quote_level p) * bal e (lit "<blockquote>") +
  flag (in_ordered_list p) (lit "<ol>") + flag (in_unordered_list p) (lit "<ul>") +
  flag (in_task_list p) (lit "<ul>") + flag (in_code p) (lit "<pre><code>").

Definition inv (p : pstate) : Prop :=
  whole (html p) = true /\ shut false (html p) = true /\ good (bal e (html p) - owed p) /\
  (in_task_list p = true -> seen_box OK).

(** A piece whose surplus is what the flags change by. *)
Lemma inv_step s p p' : inv p -> html p' = html p ++ s -> whole s = true -> shut false s = true ->
  good (bal e s - owed p' + owed p) -> (in_task_list p' = true -> seen_box OK) -> inv p'.
Proof.
  intros (W & S_ & G & _) H WS SS GS T'. unfold inv. rewrite H.
  split; [now apply whole_app|]. split; [now apply shut_app|]. split; [|exact T'].
  rewrite bal_app by exact W.
  replace (bal e (html p) + bal e s - owed p') with ((bal e (html p) - owed p) + (bal e s - owed p' + owed p)) by lia.
  now apply gadd.
Qed.
Lemma inv_push s p : B s -> inv p -> inv (push s p).
Proof.
  intros (W & S_ & G) I. apply (inv_step s p); auto; [|apply I].
  replace (bal e s - owed (push s p) + owed p) with (bal e s); [exact G|]. change (owed (push s p)) with (owed p). lia.
Qed.

Lemma b_p : bal e (lit "</p>") = - bal e (lit "<p>"). Proof. now apply bal_neg. Qed.
Lemma b_pn : bal e (lit "</p>" ++ [c_nl]) = - bal e (lit "<p>"). Proof. now apply bal_neg. Qed.
Lemma b_q : bal e (lit "</blockquote>") = - bal e (lit "<blockquote>"). Proof. now apply bal_neg. Qed.
Lemma b_qn : bal e (lit "</blockquote>" ++ [c_nl]) = - bal e (lit "<blockquote>"). Proof. now apply bal_neg. Qed.
Lemma b_qo : bal e (lit "<blockquote>" ++ [c_nl]) = bal e (lit "<blockquote>"). Proof. now apply bal_lit. Qed.
Lemma b_ol : bal e (lit "</ol>") = - bal e (lit "<ol>"). Proof. now apply bal_neg. Qed.
Lemma b_oln : bal e (lit "</ol>" ++ [c_nl]) = - bal e (lit "<ol>"). Proof. now apply bal_neg. Qed.
Lemma b_olo : bal e (lit "<ol>" ++ [c_nl]) = bal e (lit "<ol>"). Proof. now apply bal_lit. Qed.
Lemma b_ul : bal e (lit "</ul>") = - bal e (lit "<ul>"). Proof. now apply bal_neg. Qed.
Lemma b_uln : bal e (lit "</ul>" ++ [c_nl]) = - bal e (lit "<ul>"). Proof. now apply bal_neg. Qed.
Lemma b_ulo : bal e (lit "<ul>" ++ [c_nl]) = bal e (lit "<ul>"). Proof. now apply bal_lit. Qed.
Lemma b_task : bal e (lit "<ul class=""contains-task-list"">") = bal e (lit "<ul>"). Proof. now apply bal_lit. Qed.
Lemma b_code : bal e (lit "</code></pre>") = - bal e (lit "<pre><code>"). Proof. now apply bal_neg. Qed.

Ltac sums := rewrite ?b_p, ?b_pn, ?b_q, ?b_qn, ?b_qo, ?b_ol, ?b_oln, ?b_olo, ?b_ul, ?b_uln, ?b_ulo, ?b_task, ?b_code.

Lemma whole_nrep n s : whole s = true -> whole (nrep n s) = true.
Proof. intros W. induction n; [reflexivity|]. cbn [nrep]. now apply whole_app. Qed.
Lemma shut_nrep n s : shut false s = true -> shut false (nrep n s) = true.
Proof. intros W. induction n; [reflexivity|]. cbn [nrep]. now apply shut_app. Qed.

Lemma good_zero z : z = 0 -> good z. Proof. now intros ->. Qed.

(** Opening and closing, one flag at a time. *)
Lemma inv_par_open p : inv p -> in_paragraph p = false -> inv (push (lit "<p>") (set_par true p)).
Proof.
  intros I F. apply (inv_step (lit "<p>") p); auto; [|apply I].
  apply good_zero. unfold owed. cbn. rewrite F. unfold flag. lia.
Qed.
Lemma inv_par_close s p : inv p -> in_paragraph p = true -> s = lit "</p>" \/ s = lit "</p>" ++ [c_nl] ->
  inv (push s (set_par false p)).
Proof.
  intros I F H. apply (inv_step s p); auto; [destruct H as [-> | ->]; reflexivity..| |apply I].
  apply good_zero. unfold owed. cbn [in_paragraph quote_level in_ordered_list in_unordered_list in_task_list in_code push set_par].
  rewrite F. unfold flag. destruct H as [-> | ->]; sums; lia.
Qed.
Lemma inv_quotes n p : inv p -> inv (set_quote n (push (quote_move (quote_level p) n) p)).
Proof.
  intros I. apply (inv_step (quote_move (quote_level p) n) p); auto; [..|apply I];
    unfold quote_move; destruct (n =? quote_level p)%nat eqn:E1; try reflexivity;
    try (destruct (n <? quote_level p)%nat eqn:E2; (apply whole_nrep || apply shut_nrep); reflexivity).
  - apply Nat.eqb_eq in E1. apply good_zero. unfold owed. cbn [in_paragraph quote_level in_ordered_list in_unordered_list in_task_list in_code push set_quote].
    rewrite E1. change (bal e []) with 0. lia.
  - apply good_zero. unfold owed. cbn [in_paragraph quote_level in_ordered_list in_unordered_list in_task_list in_code push set_quote].
    destruct (n <? quote_level p)%nat eqn:E2.
    + apply Nat.ltb_lt in E2. rewrite bal_nrep by reflexivity. sums. rewrite Nat2Z.inj_sub by lia. lia.
    + apply Nat.ltb_ge in E2. rewrite bal_nrep by reflexivity. sums. rewrite Nat2Z.inj_sub by lia. lia.
Qed.
Lemma inv_quotes_close p : inv p -> inv (set_quote 0 (push (nrep (quote_level p) (lit "</blockquote>")) p)).
Proof.
  intros I. apply (inv_step (nrep (quote_level p) (lit "</blockquote>")) p); auto; [..|apply I].
  - now apply whole_nrep.
  - now apply shut_nrep.
  - apply good_zero. unfold owed. cbn [in_paragraph quote_level in_ordered_list in_unordered_list in_task_list in_code push set_quote].
    rewrite bal_nrep by reflexivity. sums. lia.
Qed.
Ltac flags := cbn [in_paragraph quote_level in_ordered_list in_unordered_list in_task_list in_code push set_par set_quote set_ol set_ul set_task set_code].
Lemma inv_ol_close p : inv p -> in_ordered_list p = true -> inv (push (lit "</ol>" ++ [c_nl]) (set_ol false p)).
Proof.
  intros I F. apply (inv_step (lit "</ol>" ++ [c_nl]) p); auto; [|apply I].
  apply good_zero. unfold owed. flags. rewrite F. sums. unfold flag. lia.
Qed.
Lemma inv_ul_close p : inv p -> in_unordered_list p = true -> inv (push (lit "</ul>" ++ [c_nl]) (set_ul false p)).
Proof.
  intros I F. apply (inv_step (lit "</ul>" ++ [c_nl]) p); auto; [|apply I].
  apply good_zero. unfold owed. flags. rewrite F. sums. unfold flag. lia.
Qed.
Lemma inv_task_close p : inv p -> in_task_list p = true -> inv (push (lit "</ul>" ++ [c_nl]) (set_task false p)).
Proof.
  intros I F. apply (inv_step (lit "</ul>" ++ [c_nl]) p); auto; [|discriminate].
  apply good_zero. unfold owed. flags. rewrite F. sums. unfold flag. lia.
Qed.
Lemma inv_ol_open p : inv p -> in_ordered_list p = false -> inv (push (lit "<ol>" ++ [c_nl]) (set_ol true p)).
Proof.
  intros I F. apply (inv_step (lit "<ol>" ++ [c_nl]) p); auto; [|apply I].
  apply good_zero. unfold owed. flags. rewrite F. sums. unfold flag. lia.
Qed.
Lemma inv_ul_open p : inv p -> in_unordered_list p = false -> inv (push (lit "<ul>" ++ [c_nl]) (set_ul true p)).
Proof.
  intros I F. apply (inv_step (lit "<ul>" ++ [c_nl]) p); auto; [|apply I].
  apply good_zero. unfold owed. flags. rewrite F. sums. unfold flag. lia.
Qed.
Lemma inv_task_open p : seen_box OK -> inv p -> in_task_list p = false ->
  inv (push (lit "<ul class=""contains-task-list"">") (set_task true p)).
Proof.
  intros SB I F. apply (inv_step (lit "<ul class=""contains-task-list"">") p); auto.
  apply good_zero. unfold owed. flags. rewrite F. sums. unfold flag. lia.
Qed.
Lemma inv_code_open p : inv p -> in_code p = false -> inv (set_code true (push (lit "<pre><code>") p)).
Proof.
  intros I F. apply (inv_step (lit "<pre><code>") p); auto; [|apply I].
  apply good_zero. unfold owed. flags. rewrite F. unfold flag. lia.
Qed.

Lemma inv_open_par p : inv p -> inv (open_par p).
Proof. intros I. unfold open_par. destruct (in_paragraph p) eqn:F; [exact I | now apply inv_par_open]. Qed.
Lemma inv_inline p : inv p -> in_paragraph p = false ->
  inv (push (lit "<p>") (set_par true (set_quote 0 (push (nrep (quote_level p) (lit "</blockquote>")) p)))).
Proof. intros I F. apply inv_par_open; [now apply inv_quotes_close | exact F]. Qed.

Lemma inv_tree (l n i c q : bool) k p : inv p -> k = p \/ (in_code p = false /\ k = set_code true (push (lit "<pre><code>") p)) ->
  inv (if l && (in_ordered_list p || in_unordered_list p) then p
      else if n && in_task_list p then p
      else if i && negb (in_paragraph p)
      then push (lit "<p>") (set_par true (set_quote 0
             (push (nrep (quote_level p) (lit "</blockquote>")) p)))
      else if in_ordered_list p
      then open_par (push (lit "</ol>" ++ [c_nl]) (set_ol false p))
      else if in_unordered_list p
      then open_par (push (lit "</ul>" ++ [c_nl]) (set_ul false p))
      else if in_task_list p
      then open_par (push (lit "</ul>" ++ [c_nl]) (set_task false p))
      else if c && in_paragraph p
      then push (lit "</p>" ++ [c_nl]) (set_par false p)
      else if q && negb (quote_level p =? 0)%nat then p
      else k).
Proof.
  intros I K. destruct (l && _); [exact I|]. destruct (n && _); [exact I|].
  destruct (i && _) eqn:E1. { apply andb_true_iff in E1 as [_ E1]. apply negb_true_iff in E1. now apply inv_inline. }
  destruct (in_ordered_list p) eqn:E2. { now apply inv_open_par, inv_ol_close. }
  destruct (in_unordered_list p) eqn:E3. { now apply inv_open_par, inv_ul_close. }
  destruct (in_task_list p) eqn:E4. { now apply inv_open_par, inv_task_close. }
  destruct (c && _) eqn:E5. { apply andb_true_iff in E5 as [_ E5]. apply inv_par_close; auto. }
  destruct (q && _); [exact I|]. destruct K as [-> | [F ->]]; [exact I | now apply inv_code_open].
Qed.
Lemma inv_pre t p : inv p -> inv (pre t p).
Proof.
  intros I. destruct t.
  1:{ cbn [pre]. destruct (is_blank t); [exact I|].
      destruct (in_paragraph p) eqn:E1; cbn [negb]; [|now apply inv_inline].
      destruct (in_ordered_list p) eqn:E2. { now apply inv_open_par, inv_ol_close. }
      destruct (in_unordered_list p) eqn:E3. { now apply inv_open_par, inv_ul_close. }
      destruct (in_task_list p) eqn:E4. { now apply inv_open_par, inv_task_close. }
      exact I. }
  all: try exact I.
  all: match goal with H : inv ?q |- inv (pre ?t ?q) =>
    apply (inv_tree (is_list_or_newline t) (is_task_or_newline t) (is_inline t) (is_par_closer t) (is_quote_or_newline t)); [exact H|] end.
  all: try (now left).
  destruct (in_code p) eqn:E1; auto.
Qed.

Section Body.
Variable RENDER : str -> res str.
Variable PARSE : list token -> res str.
Local Notation tok := (tok_ok OK B).
Hypothesis HR : forall s h, OK s -> RENDER s = Ret h -> B h.
Hypothesis HP : forall ts h, Forall tok ts -> PARSE ts = Ret h -> B h.

Lemma B_nil : B []. Proof. apply B_lit. reflexivity. Qed.

Lemma list_child_B t h : tok t -> list_child RENDER t = Ret h -> B h.
Proof.
  intros H. destruct t; cbn [list_child]; try (ri; apply B_nil).
  assert (HO : OK t) by (inversion H as [? H']; inversion H'; auto).
  destruct (starts_with _ t);
    (destruct (RENDER _) as [x| |] eqn:R; cbn [bind]; try easy;
     ri; apply B_pad; eapply HR; [|exact R]).
  - eapply (x_infix _ X); [|exact HO]. eapply infix_trans; [apply infix_trim_start_by|].
    apply infix_skipn.
  - eapply (x_infix _ X); [|exact HO]. apply infix_trim_start_by.
Qed.

Lemma cell_token_B c t h : Forall tok c -> tok t -> cell_token PARSE c t = Ret h -> B h.
Proof.
  intros HE [x H]. inversion H; subst; cbn [cell_token];
    first [ apply HP; assumption
          | ri; first [apply B_san | apply B_lits; [reflexivity | apply B_san] | apply B_lit; reflexivity] ].
Qed.

Lemma table_B hs rows h :
  Forall (Forall (fun c => Forall tok (snd c))) rows -> table_html PARSE hs rows = Ret h -> B h.
Proof.
  intros HR'. unfold table_html.
  destruct (mapM _ rows) as [rs| |] eqn:M; cbn [bind]; try easy.
  assert (C : B (concat rs)).
  { apply B_concat. revert M. apply mapM_ok. intros row h' I.
    rewrite Forall_forall in HR'. specialize (HR' _ I). unfold row_html.
    destruct (mapM _ row) as [cs| |] eqn:M; cbn [bind]; try easy. ri.
    change (B (([c_nl; c_tab] ++ lit "<tr>") ++ concat cs ++ ([c_nl; c_tab] ++ lit "</tr>"))).
    apply B_lits; [reflexivity|].
    apply B_concat. revert M. apply mapM_ok. intros c h'' I'.
    rewrite Forall_forall in HR'. specialize (HR' _ I'). unfold cell_html.
    destruct (mapM _ (snd c)) as [ps| |] eqn:M; cbn [bind]; try easy. ri.
    apply B_td, B_concat. revert M. apply mapM_ok. intros t x I''.
    apply cell_token_B; auto. rewrite Forall_forall in HR'. auto. }
  ri.
  assert (H : B (flat_map th_html hs)).
  { rewrite flat_map_concat_map. apply B_concat. apply Forall_forall.
    intros x I. apply in_map_iff in I as (a & <- & _). apply B_th. }
  revert C H. generalize (concat rs) (flat_map th_html hs). intros body head (W & S_ & G) (W' & S' & G').
  change (B ((lit "<table class=""table table-bordered"">" ++ [c_nl; c_tab] ++ lit "<thead>"
         ++ [c_nl; c_tab] ++ lit "<tr>" ++ [c_nl])
         ++ head
         ++ ([c_tab] ++ lit "</tr>" ++ [c_nl; c_tab] ++ lit "</thead>" ++ [c_nl; c_tab]
             ++ lit "<tbody>") ++ body
         ++ ([c_nl; c_tab] ++ lit "</tbody>" ++ [c_nl] ++ lit "</table>"))).
  set (a := lit "<table class=""table table-bordered"">" ++ _).
  set (b := [c_tab] ++ _). set (c := [c_nl; c_tab] ++ lit "</tbody>" ++ _).
  assert (Z_ : bal e a + bal e b + bal e c = 0).
  { rewrite <- !bal_app by reflexivity. apply bal_zero. reflexivity. }
  assert (WA : whole a = true) by reflexivity. assert (WB : whole b = true) by reflexivity.
  assert (SA : shut false a = true) by reflexivity. assert (SB : shut false b = true) by reflexivity.
  assert (WC : whole c = true) by reflexivity. assert (SC : shut false c = true) by reflexivity.
  clearbody a b c. split; [repeat apply whole_app; auto|]. split; [repeat apply shut_app; auto|].
  rewrite !bal_app by assumption.
  replace (bal e a + (bal e head + (bal e b + (bal e body + bal e c)))) with (bal e head + bal e body) by lia.
  now apply gadd.
Qed.

Lemma inv_body t p p' : tok t -> inv p -> body RENDER PARSE t p = Ret p' -> inv p'.
Proof.
  intros [x H] I. inversion H; subst; cbn [body].
  - ri. destruct (is_blank t0); [exact I|]. apply inv_push; [now apply B_plaintext | exact I].
  - ri. apply inv_push; [|exact I]. apply B_header; [auto|]. now apply B_heading_text.
  - destruct (mapM _ toks) as [parts| |] eqn:M; cbn [bind]; try easy. ri.
    apply inv_push; [|destruct (in_unordered_list p) eqn:F; [exact I | now apply inv_ul_open]].
    assert (C : B (concat parts)).
    { apply B_concat. revert M. apply mapM_ok. intros x y Ix. apply list_child_B.
      match goal with F : Forall _ toks |- _ => rewrite Forall_forall in F; auto end. }
    rewrite app_assoc. apply B_lits; [|exact C]. destruct (forallb is_plaintext toks); reflexivity.
  - ri. apply inv_push; [|destruct (in_ordered_list p) eqn:F; [exact I | now apply inv_ol_open]].
    change (B ((lit "<li>" ++ [c_nl]) ++ sanitize t0 ++ (lit "</li>" ++ [c_nl]))).
    apply B_lits; [reflexivity | apply B_san].
  - ri. apply inv_push; [apply B_lits; [reflexivity | apply B_san] | exact I].
  - ri. apply inv_push; [apply B_lits; [reflexivity | apply B_san] | exact I].
  - ri. apply inv_push; [apply B_lits; [reflexivity | apply B_san] | exact I].
  - ri. exact I.
  - ri. exact I.
  - ri. apply inv_push; [apply B_lit; reflexivity | exact I].
  - ri. apply inv_push; [apply B_lits; [reflexivity | apply B_san] | exact I].
  - ri. apply inv_push; [apply B_san | exact I].
  - ri. apply inv_push; [apply B_san | exact I].
  - ri. exact I.
  - set (p1 := if in_paragraph p then _ else p).
    assert (I1 : inv p1) by (subst p1; destruct (in_paragraph p) eqn:F; [apply (inv_par_close (lit "</p>") p); auto | exact I]).
    clearbody p1. pose proof (inv_quotes n p1 I1) as I2.
    destruct (is_empty t0). { ri. exact I2. }
    destruct (RENDER _) as [h| |] eqn:R; cbn [bind]; try easy. ri.
    apply inv_push; [|exact I2]. apply B_untab. eapply HR; [|exact R].
    apply (x_sanitize _ X). eapply (x_infix _ X); [|eassumption]. apply infix_trim_start_by.
  - ri. apply inv_push; [|exact I]. match goal with H : exists h, _ |- _ => destruct H as [h L]; now apply (B_image _ _ h) end.
  - ri. apply inv_push; [now apply B_link | exact I].
  - ri. apply inv_push; [now apply B_auto | exact I].
  - destruct (PARSE toks) as [h| |] eqn:R; cbn [bind]; try easy. ri.
    apply inv_push.
    + apply B_detail. eapply HP; eauto.
    + destruct (in_paragraph p) eqn:F; [|exact I]. apply (inv_par_close (lit "</p>" ++ [c_nl]) p); auto.
  - destruct (row0_len rows); [|easy]. destruct (negb _). { ri. exact I. }
    destruct (table_html _ _ _) as [h| |] eqn:F; cbn [bind]; try easy. ri.
    apply inv_push; [|exact I]. eapply table_B; eauto.
  - ri. apply inv_push; [apply B_task|]. destruct (in_task_list p) eqn:F; [exact I | now apply inv_task_open].
  - ri. exact I.
Qed.

Lemma inv_loop ts p p' :
  Forall tok ts -> inv p -> parse_loop RENDER PARSE ts p = Ret p' -> inv p'.
Proof.
  revert p; induction ts as [|t ts IH]; intros p F I; cbn [parse_loop].
  - ri. exact I.
  - inversion F; subst. destruct (body _ _ t _) as [p1| |] eqn:Bd; cbn [bind]; try easy.
    apply IH; [auto|]. eapply inv_body; [eassumption | | exact Bd]. now apply inv_pre.
Qed.

(** The end closes everything but one of two bullet lists. *)
Lemma B_refs rs : B (refs_html rs).
Proof.
  unfold refs_html. destruct rs as [|r rs]; [apply B_nil|]. generalize (r :: rs). clear r rs. intros rs.
  change (B ((lit "<div class=""footnotes"" role=""doc-endnotes"">" ++ [c_nl] ++ [c_tab] ++ lit "<ol>" ++ [c_nl])
      ++ flat_map ref_html rs
      ++ ([c_tab] ++ lit "</ol>" ++ [c_nl] ++ lit "</div>" ++ [c_nl]))).
  apply B_lits; [reflexivity|]. rewrite flat_map_concat_map. apply B_concat. apply Forall_forall.
  intros x I. apply in_map_iff in I as (a & <- & _). apply B_ref.
Qed.

(** [h] lacks [z] end tags. *)
Definition due (h : str) (z : Z) : Prop := whole h = true /\ shut false h = true /\ good (bal e h - z).
Lemma due_add h z s y : due h z -> whole s = true -> shut false s = true -> bal e s = y - z -> due (h ++ s) y.
Proof.
  intros (W & S_ & G) WS SS E1. split; [now apply whole_app|]. split; [now apply shut_app|].
  rewrite bal_app by exact W. replace (bal e h + bal e s - y) with (bal e h - z) by lia. exact G.
Qed.
Lemma B_finish p : inv p -> B (finish p).
Proof.
  intros (W & S_ & G & T_). assert (D : due (html p) (owed p)) by (split; auto). clear W S_ G. unfold finish, owed in *.
  set (h1 := html p ++ _).
  apply (due_add _ _ (if in_paragraph p then lit "</p>" ++ [c_nl] else [])
    (Z.of_nat (quote_level p) * bal e (lit "<blockquote>") +
  flag (in_ordered_list p) (lit "<ol>") + flag (in_unordered_list p) (lit "<ul>") +
  flag (in_task_list p) (lit "<ul>") + flag (in_code p) (lit "<pre><code>"))) in D.
  2,3: destruct (in_paragraph p); reflexivity.
  2:{ destruct (in_paragraph p); unfold flag; sums; [lia|]. change (bal e []) with 0. lia. }
  match type of D with due _ ?z => assert (D1 : due h1 z) by exact D end. clear D. rename D1 into D. clearbody h1. set (h2 := h1 ++ _).
  apply (due_add _ _ (nrep (quote_level p) (lit "</blockquote>" ++ [c_nl]))
    (flag (in_ordered_list p) (lit "<ol>") + flag (in_unordered_list p) (lit "<ul>") +
  flag (in_task_list p) (lit "<ul>") + flag (in_code p) (lit "<pre><code>"))) in D.
  2: now apply whole_nrep. 2: now apply shut_nrep.
  2:{ rewrite bal_nrep by reflexivity. sums. lia. }
  match type of D with due _ ?z => assert (D1 : due h2 z) by exact D end. clear D. rename D1 into D. clearbody h2. set (h3 := h2 ++ _).
  assert (D3 : due h3 (flag (in_ordered_list p) (lit "<ol>") + flag (in_code p) (lit "<pre><code>"))).
  { destruct (in_task_list p && in_unordered_list p) eqn:Both.
    - apply andb_true_iff in Both as [B1 B2]. subst h3. rewrite B1, B2 in *. cbn [orb].
      apply (due_add _ _ (lit "</ul>")
       (flag (in_ordered_list p) (lit "<ol>") + flag true (lit "<ul>") + flag (in_code p) (lit "<pre><code>"))) in D;
        [|reflexivity..|unfold flag; sums; lia].
      destruct D as (W & S_ & G). split; [exact W|]. split; [exact S_|].
      pose proof (gadd _ _ G (gul (T_ eq_refl))) as G'. clear G. rename G' into G. unfold flag in G.
      match type of G with good ?x => match goal with |- good ?y => replace y with x; [exact G|] end end.
      unfold flag. lia.
    - apply (due_add _ _ (if in_task_list p || in_unordered_list p then lit "</ul>" else [])
       (flag (in_ordered_list p) (lit "<ol>") + flag (in_code p) (lit "<pre><code>"))) in D; [exact D|..].
      1,2: destruct (_ || _); reflexivity.
      destruct (in_task_list p), (in_unordered_list p); try discriminate; cbn [orb]; unfold flag; sums;
        try (change (bal e []) with 0); lia. }
  clear D. clearbody h3. set (h4 := h3 ++ _).
  apply (due_add _ _ (if in_ordered_list p then lit "</ol>" else []) (flag (in_code p) (lit "<pre><code>"))) in D3.
  2,3: destruct (in_ordered_list p); reflexivity.
  2:{ destruct (in_ordered_list p); unfold flag; sums; [lia|]. change (bal e []) with 0. lia. }
  match type of D3 with due _ ?z => assert (D : due h4 z) by exact D3 end. clear D3. clearbody h4.
  assert (NL : forall h z, due h z -> due (if ends_nl h then h else h ++ [c_nl]) z).
  { intros h z D0. destruct (ends_nl h); [exact D0|]. apply (due_add _ z); auto. change (bal e [c_nl]) with 0. lia. }
  apply NL in D. set (h5 := if ends_nl h4 then _ else _) in *. clearbody h5.
  set (h6 := if in_code p then _ else _).
  assert (D6 : due h6 0).
  { subst h6. destruct (in_code p); [|exact D]. apply NL in D. apply (due_add _ _ (lit "</code></pre>") 0) in D; auto.
    unfold flag. sums. lia. }
  apply B_app; [|apply B_refs]. destruct D6 as (W & S_ & G). split; [exact W|]. split; [exact S_|].
  now rewrite Z.sub_0_r in G.
Qed.

Lemma parse_body_B ts h : Forall tok ts -> parse_body RENDER PARSE ts = Ret h -> B h.
Proof.
  intros F. unfold parse_body. destruct (parse_loop _ _ ts pinit) as [p| |] eqn:L; cbn [bind]; try easy.
  ri. apply B_finish. eapply inv_loop; [exact F | | exact L].
  split; [reflexivity|]. split; [reflexivity|]. split; [|discriminate]. apply good_zero. unfold owed. cbn. lia.
Qed.
End Body.

Lemma lex_parse_B f :
  (forall s ig ts, OK s -> lex f s ig = Ret ts -> Forall (tok_ok OK B) ts) /\
  (forall ts h, Forall (tok_ok OK B) ts -> parse f ts = Ret h -> B h).
Proof.
  induction f as [|f [IHL IHP]]; [split; easy|].
  split; cbn [lex parse].
  - intros s ig ts H L.
    assert (F : Forall (tok1 OK OK B (tok_ok OK B)) ts).
    { revert L. apply lex_loop_ok; auto; try apply X.
      - intros r r' a HO S_ I. eapply (x_infix _ X); [|exact HO].
        eapply infix_trans; [exact I|]. now apply suffix_infix, ssuffix_suffix.
      - intros t HO. constructor. now constructor.
      - intros _. split; [apply B_nil|]. intros s' h H' _. destruct (lex f s' [c_hash]) as [ts'| |] eqn:L; cbn [bind]; try easy.
        apply IHP. eapply IHL; eauto. }
    revert F. apply Forall_impl. now constructor.
  - intros ts h F. apply parse_body_B; auto.
    intros s h' H'. destruct (lex f s []) as [ts'| |] eqn:L; cbn [bind]; try easy.
    apply IHP. eapply IHL; eauto.
Qed.
Lemma renders_B s h : OK s -> renders s h -> B h.
Proof.
  intros H [f R]. unfold render, render_ignore in R. destruct (lex f s []) as [ts| |] eqn:L; cbn [bind] in R; try easy.
  eapply lex_parse_B; [|exact R]. eapply lex_parse_B; eauto.
Qed.
End Element.

(** ** The classes of documents *)
Lemma boxed_lbrk s : boxed s -> In c_lbrk s.
Proof. intros [I|[I|I]]; (eapply infix_In; [exact I | now left]). Qed.
Lemma boxed_infix a s : infix a s -> boxed a -> boxed s.
Proof. intros I [J|[J|J]]; [left|right; left|right; right]; (eapply infix_trans; [exact J | exact I]). Qed.

Lemma texts_unboxed OK : texts OK -> texts (fun s => OK s /\ ~ boxed s).
Proof.
  intros X. constructor.
  - intros a s I [O N]. split; [eapply x_infix; eauto|]. intros J. apply N. eapply boxed_infix; eauto.
  - split; [apply X|]. intros J. apply boxed_lbrk in J. revert J. vm_compute. intuition discriminate.
  - split; [apply X|]. intros J. apply boxed_lbrk in J. revert J. vm_compute. intuition discriminate.
  - intros s [O N]. split; [now apply X|]. intros J. apply boxed_lbrk in J. now apply sanitize_no_special in J.
Qed.

Lemma count_class (Q : str -> Prop) e (good : Z -> Prop) s h : In e elements -> good 0 ->
  (forall a b, good a -> good b -> good (a + b)) ->
  ((exists r, Q r /\ boxed r) -> good (bal e (lit "<ul>"))) ->
  (forall OK, texts OK -> texts (fun s => OK s /\ Q s)) ->
  no_leak s -> Q s -> renders s h -> good (bal e h).
Proof.
  intros E G0 GA GU TQ (L1 & L2 & L3) HQ R. enough (B e good h) by apply H.
  set (Dt := fun d e => ~ In c_lt d /\ ~ In c_lt e). set (At := fun d => no_url d \/ ~ In c_lt d).
  apply (renders_B e E good G0 GA (fun s => urls Dt (fun _ _ => True) At s /\ Q s)) with (s := s); auto.
  - apply TQ, urls_texts.
  - intros x [Hx _]. apply Hx.
  - intros t u ht (src & c & x & V & N1 & (N2 & N3 & N4) & (_ & HD & _) & _).
    destruct (HD t src c x (infix_refl _) N1 N2 N3 ltac:(tauto)) as [D1 D2].
    destruct (url_in src u c_lt V D1 ltac:(vm_compute; intuition discriminate)) as (C1 & C2 & _).
    split; [auto|]. split; [auto|]. intros y ->. destruct N4 as [(_ & _ & Qh)|(_ & _ & Qh)]; [discriminate|].
    assert (y = c_sp :: x) as -> by congruence. intros [J|J]; [discriminate J | auto].
  - intros u (src & V & N & (_ & _ & _ & HA) & _) NS.
    specialize (HA src (infix_refl _) N). destruct HA as [[NC NA]|C].
    + exfalso. apply NS. eapply validate_no_scheme; eauto.
    + destruct (url_in src u c_lt V C ltac:(vm_compute; intuition discriminate)) as (_ & C2 & C3). auto.
  - intros (r & [_ q] & J). apply GU. now exists r.
  - split; [|exact HQ]. split; [exact L1|]. split; [exact L2|]. split; [|exact L3]. repeat intro. exact I.
Qed.

Lemma not_ul e : In e elements -> e <> lit "ul" -> bal e (lit "<ul>") = 0.
Proof.
  intros E N.
  assert (H : forallb (fun x => str_eqb x (lit "ul") || (bal x (lit "<ul>") =? 0)) elements = true) by reflexivity.
  apply (proj1 (forallb_forall _ _) H) in E. apply orb_true_iff in E as [E|E]; [|now apply Z.eqb_eq].
  exfalso. apply N. now apply str_eqb_eq.
Qed.

Lemma texts_true OK : texts OK -> texts (fun s => OK s /\ True).
Proof.
  intros X. constructor.
  - intros a s J [O _]. split; [eapply x_infix; eauto | exact I].
  - split; [apply X | exact I].
  - split; [apply X | exact I].
  - intros s [O _]. split; [now apply X | exact I].
Qed.

Lemma balanced e s h : In e elements -> e <> lit "ul" -> no_leak s -> renders s h -> opens e h = closes e h.
Proof.
  intros E N L R. enough (bal e h = 0) by (unfold bal in *; lia).
  apply (count_class (fun _ => True) e (fun z => z = 0) s h); auto; [lia | intros _; now apply not_ul | exact texts_true].
Qed.
Lemma ul_more s h : no_leak s -> renders s h -> (closes (lit "ul") h <= opens (lit "ul") h)%nat.
Proof.
  intros L R. enough (0 <= bal (lit "ul") h) by (unfold bal in *; lia).
  apply (count_class (fun _ => True) (lit "ul") (fun z => 0 <= z) s h); auto; try lia; [cbn; tauto | | exact texts_true].
  intros _. vm_compute. discriminate.
Qed.
Lemma ul_balanced s h : no_leak s -> ~ boxed s -> renders s h -> opens (lit "ul") h = closes (lit "ul") h.
Proof.
  intros L NB R. enough (bal (lit "ul") h = 0) by (unfold bal in *; lia).
  apply (count_class (fun s => ~ boxed s) (lit "ul") (fun z => z = 0) s h); auto; try lia; [cbn; tauto | | exact texts_unboxed].
  intros (r & NB' & I). contradiction.
Qed.
