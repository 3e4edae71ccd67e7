(** * JobsFacts: which jobs of the release start. *)
From Coq Require Import Ascii String.
From Verif Require Import Strings StringsFacts Release Jobs.
Open Scope list_scope.

Theorem starts_alone ok tag : trigger tag = true ->
  starts ok tag Changelog /\ starts ok tag Crates /\ (starts ok tag Homebrew <-> ~ In c_minus tag).
Proof.
  intros T. split; [|split].
  - constructor; auto. intros n [].
  - constructor; auto. intros n [].
  - assert (wanted tag Homebrew = true <-> ~ In c_minus tag) as W.
    { unfold wanted, pre_release, ref. rewrite negb_true_iff. split; intros H.
      - intros I. apply not_true_iff_false in H. apply H. apply contains_iff. apply in_split in I as (a & b & ->).
        exists (lit "refs/tags/" ++ a), b. now rewrite <- !app_assoc.
      - apply not_true_iff_false. intros C. apply contains_iff in C as (a & b & E). apply H.
        assert (In c_minus (lit "refs/tags/" ++ tag)) as I by (rewrite E; apply in_or_app; right; now left).
        apply in_app_iff in I as [I|I]; [|exact I]. vm_compute in I. intuition discriminate. }
    split; intros H; [inversion H; subst; now apply W|]. constructor; auto; [now apply W|intros n []].
Qed.
Theorem starts_packages ok tag : trigger tag = true -> forall j, In j [Binaries; Deb; Rpm] ->
  (starts ok tag j <-> ok Changelog = true).
Proof.
  intros T j J. assert (needs j = [Changelog] /\ wanted tag j = true) as [N W] by (destruct J as [<-|[<-|[<-|[]]]]; auto). split.
  - intros H. inversion H as [? _ _ K]; subst. rewrite N in K. apply K. now left.
  - intros C. constructor; auto. rewrite N. intros n [<-|[]]. split; [|exact C]. now apply starts_alone.
Qed.
Theorem starts_last ok tag : trigger tag = true -> forall j, In j [Npm; Pypi] ->
  (starts ok tag j <-> ok Changelog = true /\ ok Binaries = true).
Proof.
  intros T j J. assert (needs j = [Binaries] /\ wanted tag j = true) as [N W] by (destruct J as [<-|[<-|[]]]; auto). split.
  - intros H. inversion H as [? _ _ K]; subst. rewrite N in K. destruct (K Binaries (or_introl eq_refl)) as [B O].
    split; [|exact O]. eapply starts_packages in B; eauto. now left.
  - intros [C O]. constructor; auto. rewrite N. intros n [<-|[]]. split; [|exact O]. apply starts_packages; auto. now left.
Qed.
Theorem published_apart tag : trigger tag = true ->
  exists ok, (forall j, In j [Binaries; Deb; Rpm; Npm; Pypi] -> ~ starts ok tag j) /\ starts ok tag Crates.
Proof.
  intros T. exists (fun _ => false). split; [|now apply starts_alone].
  intros j J S. destruct J as [<-|[<-|[<-|[<-|[<-|[]]]]]].
  1,2,3: eapply starts_packages in S; eauto; [discriminate S|cbn; tauto].
  all: eapply starts_last in S; eauto; [destruct S as [S _]; discriminate S|cbn; tauto].
Qed.

Theorem one_wheel b tag : In b matrix -> pypi_publish b = true ->
  length (filter (applies b tag) [WheelsLinux; WheelsOthers; WheelsMusl]) = 1.
Proof.
  intros I P. unfold matrix in I. cbn [In] in I.
  repeat (destruct I as [<-|I]; [try discriminate P; reflexivity|]). destruct I.
Qed.
Theorem no_musl_wheel b tag : applies b tag WheelsMusl = false.
Proof. unfold applies. destruct (os b); apply andb_false_r. Qed.
Lemma musl_ex : exists b, In b matrix /\ pypi_publish b = true /\ ends_with (lit "musl") (name b) = true.
Proof. eexists. split; [right; left; reflexivity|split; reflexivity]. Qed.
