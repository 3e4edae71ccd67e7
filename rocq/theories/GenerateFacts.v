(** * GenerateFacts: what smd-mangen and smd-completions leave behind. *)
From Coq Require Import Ascii String.
From Verif Require Import Strings StringsFacts Utf8 System Cli SpecCli SystemFacts CliFacts Args Generate.
Open Scope list_scope.

(** The file [i], opened as [p] in [f0], holds [w]. *)
Record holding (m : machine) (f0 : fs) (p : path) (i : handle) (w : bytes) (f : fs) (l : local) : Prop := {
  ho_written : written f0 p w f;
  ho_here : inode_of f p = Some i;
  ho_alias : forall q, aliases f0 p q -> inode_of f q = Some i;
  ho_other : forall q, ~ aliases f0 p q -> inode_of f q <> Some i;
  ho_unused : unused m f l
}.

Lemma created_holding m p f l i f' l' : created m p f l i f' l' -> holding m f p i [] f' l'.
Proof.
  intros C. constructor.
  - exact (created_written _ _ _ _ _ _ _ C).
  - exact (cr_inode _ _ _ _ _ _ _ C).
  - exact (cr_alias _ _ _ _ _ _ _ C).
  - intros q N. apply (cr_other _ _ _ _ _ _ _ C q N).
  - exact (cr_unused _ _ _ _ _ _ _ C).
Qed.
Lemma write_at_end w b : write_at (length w) b w = w ++ b.
Proof.
  unfold write_at. rewrite firstn_all, Nat.sub_diag. cbn [repeat app].
  rewrite skipn_all2 by lia. now rewrite app_nil_r.
Qed.
Lemma holding_write m f0 p i w f l b : holding m f0 p i w f l ->
  holding m f0 p i (w ++ b) (set_data f i (write_at (length w) b (data f i))) l.
Proof.
  intros [[W1 W2 W3 W4 W5 W6 W7] H A O U].
  assert (D : data f i = w). { unfold contents in W1. rewrite H in W1. cbn in W1. now injection W1. }
  rewrite D, write_at_end. constructor.
  - constructor.
    + now apply contents_set_data_eq.
    + intros q Q. apply contents_set_data_eq. now apply A.
    + intros q Q. rewrite contents_set_data_neq by now apply O. now apply W3.
    + intros q Q. rewrite inode_of_set_data. now apply W4.
    + exact W5.
    + intros n q. rewrite resolve_set_data. apply W6.
    + exact W7.
  - now rewrite inode_of_set_data.
  - intros q Q. rewrite inode_of_set_data. now apply A.
  - intros q Q. rewrite inode_of_set_data. now apply O.
  - exact U.
Qed.

Section Writes.
Variable P : choice -> Prop.
Variable m : machine.
Variable I : fs -> local -> Prop.

Lemma safe_write_all n : forall f0 p i w b f l, length b <= n -> holding m f0 p i w f l ->
  (forall f' w', holding m f0 p i w' f' l -> prefix w' (w ++ b) -> I f' l) ->
  safe P m I (fun r f' l' => l' = l /\ match r with inl _ => holding m f0 p i (w ++ b) f' l | inr _ => True end)
    (write_all n i (length w) b) f l.
Proof.
  induction n as [|n IH]; intros f0 p i w b f l L H HI.
  - destruct b; [|cbn in L; lia]. cbn [write_all safe]. rewrite app_nil_r in *.
    split; [|auto]. apply (HI f w H). apply prefix_refl.
  - destruct b as [|c b'] eqn:B; cbn [write_all].
    { cbn [safe]. rewrite app_nil_r in *. split; [|auto]. apply (HI f w H). apply prefix_refl. }
    rewrite <- B in *. assert (B0 : b <> []) by (rewrite B; discriminate). clear c b' B.
    assert (I0 : I f l) by (apply (HI f w H); exists b; reflexivity).
    cbn [safe]. split; [exact I0|]. intros x Px.
    assert (G : forall k, k <= length b ->
      safe P m I (fun r f' l' => l' = l /\ match r with inl _ => holding m f0 p i (w ++ b) f' l | inr _ => True end)
        (match k with 0 => Done (inr write_zero) | S _ => write_all n i (length w + k) (skipn k b) end)
        (set_data f i (write_at (length w) (firstn k b) (data f i))) l).
    { intros k K. pose proof (holding_write _ _ _ _ _ _ _ (firstn k b) H) as H'.
      assert (HI' : forall f' w', holding m f0 p i w' f' l -> prefix w' ((w ++ firstn k b) ++ skipn k b) -> I f' l).
      { rewrite <- app_assoc, firstn_skipn. exact HI. }
      destruct k as [|k'].
      - cbn [safe]. split; [|auto]. apply (HI' _ _ H'). exists (skipn 0 b). reflexivity.
      - remember (S k') as k. assert (LK : length (skipn k b) <= n) by (rewrite skipn_length; lia).
        pose proof (IH f0 p i (w ++ firstn k b) (skipn k b) _ l LK H' HI') as S1.
        rewrite app_length, firstn_length_le in S1 by lia. rewrite <- app_assoc, firstn_skipn in S1. exact S1. }
    destruct x as [|e|k|]; cbn [answer fst snd].
    + specialize (G (length b) (le_n _)). rewrite firstn_all in G. exact G.
    + cbn [safe]. auto.
    + assert (K : length (firstn k b) <= length b) by (rewrite firstn_length; lia).
      specialize (G _ K).
      assert (E : firstn (length (firstn k b)) b = firstn k b).
      { rewrite firstn_length. destruct (Nat.min_spec k (length b)) as [[_ ->]|[M ->]]; [reflexivity|].
        rewrite firstn_all. symmetry. now apply firstn_all2. }
      rewrite E in G. exact G.
    + specialize (G (length b) (le_n _)). rewrite firstn_all in G. exact G.
Qed.
End Writes.

(** ** mangen *)
Lemma safe_mangen m f l dir page : unused m f l ->
  safe (fun _ => True) m (fun f' _ => only_changes f (man_file dir) f')
    (fun r f' _ => r = 0 -> contents f' (man_file dir) = Some page) (mangen (Some dir) page) f l.
Proof.
  intros U. cbn [mangen]. assert (I0 : only_changes f (man_file dir) f) by (split; auto).
  assert (HI : forall i f' l' w, holding m f (man_file dir) i w f' l' -> only_changes f (man_file dir) f').
  { intros i f' l' w [[W1 W2 W3 W4 W5 W6 W7] H A O V]. split; assumption. }
  cbn [safe]. split; [exact I0|]. intros x _.
  assert (G : safe (fun _ => True) m (fun f' _ => only_changes f (man_file dir) f')
    (fun r f' _ => r = 0 -> contents f' (man_file dir) = Some page)
    (match fst (do_create m (man_file dir) f l) with
     | inr e => Done 1
     | inl h => pbind (write_all (length page) h 0 page) exit_io end)
    (fst (snd (do_create m (man_file dir) f l))) (snd (snd (do_create m (man_file dir) f l)))).
  { destruct (do_create m (man_file dir) f l) as [[h|e] [f1 l1]] eqn:C; cbn [fst snd].
    - apply (create_spec _ _ _ _ _ _ _ U), created_holding in C.
      eapply safe_bind.
      + apply (safe_write_all (fun _ => True) m _ (length page) f (man_file dir) h [] page f1 l1 (le_n _) C).
        intros f' w' H _. exact (HI _ _ _ _ H).
      + intros [u|e] f' l' I' (L & H); cbn [exit_io safe]; split; auto; [|discriminate].
        intros _. exact (wr_here _ _ _ _ (ho_written _ _ _ _ _ _ _ H)).
    - apply create_fail in C as [-> ->]. cbn [safe]. split; [exact I0|discriminate]. }
  destruct x; cbn [answer]; try exact G. cbn [fst snd safe]. split; [exact I0|discriminate].
Qed.
Lemma mangen_complete m f xs dir page f' p' : new_process m f ->
  exec xs f (start m (mangen (Some dir) page)) = (f', p') ->
  only_changes f (man_file dir) f' /\ (status p' = Some 0 -> contents f' (man_file dir) = Some page).
Proof.
  intros N E. pose proof (safe_mangen m f no_tabs dir page (unused_start _ _ N)) as S0.
  assert (FA : Forall (fun _ : choice => True) xs) by (apply Forall_forall; auto).
  destruct (safe_exec _ m _ _ xs f (start m (mangen (Some dir) page)) eq_refl FA S0) as [_ S1].
  rewrite E in S1. cbn [fst snd] in S1. split; [exact (safe_inv _ _ _ _ _ _ _ S1)|].
  unfold status. destruct (code p') as [a| | |B c k]; try discriminate; cbn [safe] in S1.
  intros K. injection K as ->. now apply S1.
Qed.

(** ** completions *)
Lemma script_name_inj s t : script_name s = script_name t -> s = t.
Proof. destruct s, t; intros H; try reflexivity; vm_compute in H; discriminate H. Qed.
Lemma script_file_inj dir s t : script_file dir s = script_file dir t -> s = t.
Proof. intros H. apply app_inv_head in H. injection H as H. now apply script_name_inj. Qed.

Section Completions.
Variable m : machine.
Variable f0 : fs.
Variable dir : path.
Variable script : shell -> bytes.
Hypothesis empty : forall s, names f0 (script_file dir s) = None.

(** Nothing but the scripts differs from [f0]. *)
Record others (f : fs) : Prop := {
  ot_resolve : forall n q, resolve n f q = resolve n f0 q;
  ot_names : forall q, (forall s, q <> script_file dir s) -> names f q = names f0 q;
  ot_contents : forall q, (forall s, resolve max_links f0 q <> Some (script_file dir s)) ->
    contents f q = contents f0 q
}.
Lemma resolve_script f s : others f -> resolve max_links f (script_file dir s) = Some (script_file dir s).
Proof.
  intros O. rewrite (ot_resolve f O). change max_links with (S 39). cbn [resolve]. now rewrite empty.
Qed.
Lemma no_inode f s : others f -> names f (script_file dir s) = None -> inode_of f (script_file dir s) = None.
Proof. intros O N. unfold inode_of. now rewrite (resolve_script _ _ O), N. Qed.
Lemma others_holding f s i w f' l : others f -> names f (script_file dir s) = None ->
  holding m f (script_file dir s) i w f' l -> others f'.
Proof.
  intros O N [[W1 W2 W3 W4 W5 W6 W7] H A Ot V]. constructor.
  - intros n q. rewrite W6. apply (ot_resolve f O).
  - intros q Q. rewrite W5; [now apply (ot_names f O)|]. rewrite (resolve_script _ _ O). intros K. injection K as K.
    exact (Q s (eq_sym K)).
  - intros q Q. rewrite W3; [now apply (ot_contents f O)|]. intros [E|[j [E1 E2]]].
    + rewrite (resolve_script _ _ O), (ot_resolve f O) in E. exact (Q s (eq_sym E)).
    + rewrite (no_inode _ _ O N) in E1. discriminate.
Qed.
Lemma others_refl : others f0.
Proof. constructor; auto. Qed.

Lemma safe_generate ss : forall ds f l, NoDup (ds ++ ss) -> others f -> unused m f l ->
  (forall s, In s ss -> names f (script_file dir s) = None) ->
  (forall d, In d ds -> contents f (script_file dir d) = Some (script d)) ->
  safe (fun _ => True) m (fun f' _ => others f')
    (fun r f' _ => r = 0 -> forall d, In d (ds ++ ss) -> contents f' (script_file dir d) = Some (script d))
    (generate dir script ss) f l.
Proof.
  induction ss as [|s ss IH]; intros ds f l ND O U F D; cbn [generate].
  { cbn [safe]. rewrite app_nil_r. auto. }
  cbn [safe]. split; [exact O|]. intros x _.
  assert (Ns : names f (script_file dir s) = None) by (apply F; left; reflexivity).
  assert (G : safe (fun _ => True) m (fun f' _ => others f')
    (fun r f' _ => r = 0 -> forall d, In d (ds ++ s :: ss) -> contents f' (script_file dir d) = Some (script d))
    (match fst (do_create m (script_file dir s) f l) with
     | inr e => Done 1
     | inl h => pbind (write_all (length (script s)) h 0 (script s)) (fun r =>
         match r with inl _ => generate dir script ss | inr _ => Stop end) end)
    (fst (snd (do_create m (script_file dir s) f l))) (snd (snd (do_create m (script_file dir s) f l)))).
  { destruct (do_create m (script_file dir s) f l) as [[h|e] [f1 l1]] eqn:C; cbn [fst snd].
    - apply (create_spec _ _ _ _ _ _ _ U), created_holding in C.
      eapply safe_bind.
      + apply (safe_write_all (fun _ => True) m _ (length (script s)) f (script_file dir s) h [] (script s) f1 l1 (le_n _) C).
        intros f' w' H _. exact (others_holding _ _ _ _ _ _ O Ns H).
      + intros [u|e] f' l' I' (L & H); [|exact I']. cbn [app] in H.
        pose proof (ho_written _ _ _ _ _ _ _ H) as W. subst l'.
        replace (ds ++ s :: ss) with ((ds ++ [s]) ++ ss) in * by now rewrite <- app_assoc.
        apply IH; auto.
        * exact (ho_unused _ _ _ _ _ _ _ H).
        * intros t T. rewrite (wr_names _ _ _ _ W); [apply F; now right|].
          rewrite (resolve_script _ _ O). intros K. injection K as K. apply script_file_inj in K. subst t.
          rewrite <- app_assoc in ND. apply NoDup_remove_2 in ND. apply ND, in_or_app. now right.
        * intros d Hd. apply in_app_or in Hd as [Hd|[<-|[]]]; [|exact (wr_here _ _ _ _ W)].
          rewrite (wr_other _ _ _ _ W); [now apply D|]. intros [E|[j [E1 E2]]].
          -- rewrite !(resolve_script _ _ O) in E. injection E as E. apply script_file_inj in E. subst d.
             rewrite <- app_assoc in ND. apply NoDup_remove_2 in ND. apply ND, in_or_app. now left.
          -- rewrite (no_inode _ _ O Ns) in E1. discriminate.
    - apply create_fail in C as [-> ->]. cbn [safe]. split; [exact O|discriminate]. }
  destruct x; cbn [answer]; try exact G. cbn [fst snd safe]. split; [exact O|discriminate].
Qed.
End Completions.

Lemma shells_all s : In s shells.
Proof. destruct s; cbn; tauto. Qed.
Lemma shells_nodup : NoDup shells.
Proof. repeat constructor; cbn; intuition discriminate. Qed.
Lemma completions_complete m f xs dir script f' p' : new_process m f ->
  (forall s, names f (script_file dir s) = None) ->
  exec xs f (start m (completions (Some dir) script)) = (f', p') ->
  (forall q, (forall s, resolve max_links f q <> Some (script_file dir s)) -> contents f' q = contents f q) /\
  (status p' = Some 0 -> forall s, contents f' (script_file dir s) = Some (script s)).
Proof.
  intros N Em E.
  pose proof (safe_generate m f dir script Em shells [] f no_tabs shells_nodup (others_refl f dir)
    (unused_start _ _ N) (fun s _ => Em s) (fun d H => match H with end)) as S0.
  assert (FA : Forall (fun _ : choice => True) xs) by (apply Forall_forall; auto).
  destruct (safe_exec _ m _ _ xs f (start m (completions (Some dir) script)) eq_refl FA S0) as [_ S1].
  rewrite E in S1. cbn [fst snd] in S1. split.
  - intros q Q. exact (ot_contents _ _ _ (safe_inv _ _ _ _ _ _ _ S1) q Q).
  - unfold status. destruct (code p') as [a| | |B c k]; try discriminate; cbn [safe] in S1.
    intros K s. injection K as ->. apply S1; [reflexivity|]. apply shells_all.
Qed.
Lemma no_out_dir m f xs page script :
  (forall f' p', exec xs f (start m (mangen None page)) = (f', p') -> f' = f /\ status p' = Some 101) /\
  (forall f' p', exec xs f (start m (completions None script)) = (f', p') -> f' = f /\ status p' = Some 101).
Proof.
  split; intros f' p' E.
  - assert (X : exec xs f (start m (mangen None page)) = (f, start m (mangen None page))).
    { induction xs as [|x xs IH]; [reflexivity|]. exact (IH E). }
    rewrite X in E. injection E as <- <-. auto.
  - assert (X : exec xs f (start m (completions None script)) = (f, start m (completions None script))).
    { induction xs as [|x xs IH]; [reflexivity|]. exact (IH E). }
    rewrite X in E. injection E as <- <-. auto.
Qed.
(** ** The Debian package *)
Lemma asset_up root a ns : split [c_slash] a = lit ".." :: ns ->
  starts_with (lit "target/release/") a = false -> asset_path root a = walk root ns.
Proof.
  intros E T. unfold asset_path. rewrite E, T. cbn [walk]. change (str_eqb (lit "..") (lit "..")) with true.
  cbn beta iota. now rewrite removelast_last.
Qed.
Lemma asset_built root a ns : split [c_slash] a = ns ->
  starts_with (lit "target/release/") a = true -> asset_path root a = root ++ ns.
Proof. intros E T. unfold asset_path. now rewrite E, T. Qed.
Lemma walk_one root n : str_eqb n (lit "..") = false -> walk root [n] = root ++ [n].
Proof. intros E. cbn [walk]. now rewrite E. Qed.
Lemma walk_two root d n : str_eqb d (lit "..") = false -> str_eqb n (lit "..") = false ->
  walk root [d; n] = (root ++ [d]) ++ [n].
Proof. intros E F. cbn [walk]. now rewrite E, F. Qed.
Lemma assets_there root : map (asset_path root) deb_assets =
  [ root ++ [lit "target"; lit "release"; lit "smd"]; root ++ [lit "LICENSE"]; root ++ [lit "README.md"];
    man_file (man_dir root) ] ++ map (script_file (completions_dir root)) [Bash; Fish; Zsh].
Proof.
  unfold deb_assets. cbn [map app].
  rewrite (asset_built root (lit "target/release/smd") _ eq_refl eq_refl).
  rewrite (asset_up root (lit "../LICENSE") [lit "LICENSE"] eq_refl eq_refl).
  rewrite (asset_up root (lit "../README.md") [lit "README.md"] eq_refl eq_refl).
  rewrite (asset_up root (lit "../man/smd.1") [lit "man"; lit "smd.1"] eq_refl eq_refl).
  rewrite (asset_up root (lit "../completions/smd.bash") [lit "completions"; lit "smd.bash"] eq_refl eq_refl).
  rewrite (asset_up root (lit "../completions/smd.fish") [lit "completions"; lit "smd.fish"] eq_refl eq_refl).
  rewrite (asset_up root (lit "../completions/_smd") [lit "completions"; lit "_smd"] eq_refl eq_refl).
  rewrite !walk_two by reflexivity. rewrite !walk_one by reflexivity. reflexivity.
Qed.
