(** Facts about [create_dir]. *)
From Verif.Model Require Import Io.
From Verif.Spec Require Import Files.
Set Bullet Behavior "Strict Subproofs".

Lemma path_eqb_eq p q : path_eqb p q = true <-> p = q.
Proof.
  revert q; induction p as [|x p IH]; intros [|y q]; cbn; split; intros H; try congruence; auto.
  - apply andb_prop in H as [H1 H2]. apply String.eqb_eq in H1. apply IH in H2. congruence.
  - injection H as -> ->. rewrite String.eqb_refl. now apply IH.
Qed.
Lemma path_eqb_refl p : path_eqb p p = true.
Proof. now apply path_eqb_eq. Qed.

Lemma kept_refl f : kept f f. Proof. now intros p n H. Qed.
Lemma kept_trans f g h : kept f g -> kept g h -> kept f h.
Proof. intros A B p n H. now apply B, A. Qed.
Lemma ond_refl f : only_new_dirs f f. Proof. intros p H; auto. Qed.
Lemma ond_trans f g h : kept g h -> only_new_dirs f g -> only_new_dirs g h -> only_new_dirs f h.
Proof. intros K A B p H. destruct (A p H) as [E|E]; [now apply B|right; now apply K]. Qed.

Lemma add_dir_at p f : add_dir p f p = Some Dir.
Proof. unfold add_dir. now rewrite path_eqb_refl. Qed.
Lemma add_dir_kept p f : f p = None -> kept f (add_dir p f).
Proof.
  intros H q n Hq. unfold add_dir. destruct (path_eqb p q) eqn:E; auto.
  apply path_eqb_eq in E. congruence.
Qed.
Lemma add_dir_ond p f : only_new_dirs f (add_dir p f).
Proof. intros q H. unfold add_dir. destruct (path_eqb p q); auto. Qed.

Lemma on_self p : on_the_way p p. Proof. now exists []. Qed.
Lemma on_up q c p : on_the_way q p -> on_the_way q (c :: p).
Proof. intros [t ->]. now exists (c :: t). Qed.

Section Io.
Variable env : nat -> fs -> fs.
Variable refuse : nat -> path -> option errno.
Notation ask := (ask env).
Notation do_mkdir := (do_mkdir env refuse).
Notation do_makedirs := (do_makedirs env refuse).

(** What one call may do to the file system seen by the next: [R] holds of
    it when other processes satisfy it. *)
Section Rel.
Variable R : fs -> fs -> Prop.
Hypothesis Rrefl : forall f, R f f.
Hypothesis Rtrans : forall f g h, R f g -> R g h -> R f h.
Hypothesis Renv : forall k f, R f (env k f).
Variable p0 : path.
Hypothesis Radd : forall q f, on_the_way q p0 -> f q = None -> R f (add_dir q f).

Lemma ask_rel s : R (snd s) (snd (ask s)).
Proof. apply Renv. Qed.

Lemma mkdir_rel p s s' e : on_the_way p p0 -> do_mkdir p s = (s', e) -> R (snd s) (snd s').
Proof.
  intros W H. unfold Io.do_mkdir in H. pose proof (ask_rel s) as A. set (t := ask s) in *. clearbody t.
  destruct p as [|c q]; [now injection H as <- <-|].
  destruct (snd t q) as [[]|]; try (now injection H as <- <-).
  destruct (snd t (c :: q)) eqn:E; [now injection H as <- <-|].
  destruct (refuse (fst t) (c :: q)) as [[]|]; try (now injection H as <- <-).
  injection H as <- <-. cbn [snd]. eapply Rtrans; [exact A|]. now apply Radd.
Qed.

Lemma makedirs_rel p : forall s s' e, on_the_way p p0 -> do_makedirs p s = (s', e) -> R (snd s) (snd s').
Proof.
  induction p as [|c q IH]; intros s s' e W H; cbn [Io.do_makedirs] in H.
  - eapply mkdir_rel; eauto.
  - assert (Wq : on_the_way q p0).
    { destruct W as [t ->]. exists (t ++ [c]). now rewrite <- app_assoc. }
    unfold do_exists in H. pose proof (ask_rel s) as A. set (t := ask s) in *. clearbody t.
    destruct (exists_ (snd t) q).
    + apply mkdir_rel in H; auto. eapply Rtrans; eauto.
    + destruct (do_makedirs q t) as [t' e'] eqn:E. apply IH in E; auto.
      assert (B : R (snd s) (snd t')) by (eapply Rtrans; eauto).
      destruct e' as [[]|]; try (now injection H as <- <-); apply mkdir_rel in H; auto; eapply Rtrans; eauto.
Qed.

End Rel.

Lemma create_rel (R : fs -> fs -> Prop) p s s' r :
  (forall f, R f f) -> (forall f g h, R f g -> R g h -> R f h) -> (forall k f, R f (env k f)) ->
  (forall q f, on_the_way q p -> f q = None -> R f (add_dir q f)) ->
  create_dir env refuse p s = (s', r) -> R (snd s) (snd s').
Proof.
  intros Rr Rt Re Ra H. unfold create_dir, do_exists, do_isfile in H.
  pose proof (ask_rel R Re s) as A. set (t := ask s) in *. clearbody t.
  destruct (exists_ (snd t) p).
  - pose proof (ask_rel R Re t) as B. set (t' := ask t) in *. clearbody t'.
    destruct (isfile (snd t') p); injection H as <- <-; eapply Rt; eauto.
  - destruct (do_makedirs p t) as [t' e] eqn:E.
    apply (makedirs_rel R Rt Re p) in E; auto using on_self.
    destruct e as [[]|]; injection H as <- <-; eapply Rt; eauto.
Qed.

Lemma mkdir_ok p s s' : do_mkdir p s = (s', None) -> snd s' p = Some Dir.
Proof.
  unfold Io.do_mkdir. set (t := ask s). clearbody t. destruct p as [|c q]; [congruence|].
  destruct (snd t q) as [[]|]; try congruence. destruct (snd t (c :: q)); [congruence|].
  destruct (refuse (fst t) (c :: q)) as [[]|]; try congruence. intros [= <-]. apply add_dir_at.
Qed.
Lemma mkdir_eexist c p s s' : do_mkdir (c :: p) s = (s', Some EEXIST) -> snd s' (c :: p) <> None.
Proof.
  unfold Io.do_mkdir. set (t := ask s). clearbody t.
  destruct (snd t p) as [[]|]; try congruence. destruct (snd t (c :: p)) eqn:E.
  - intros [= <-]. congruence.
  - destruct (refuse (fst t) (c :: p)) as [[]|]; congruence.
Qed.
Lemma mkdir_fail p s s' e : do_mkdir p s = (s', Some e) -> e <> EEXIST -> snd s' p <> Some Dir \/ 
  match p with [] => True | _ :: q => snd s' q <> Some Dir end.
Proof.
  unfold Io.do_mkdir. set (t := ask s). clearbody t. destruct p as [|c q]; [intuition congruence|].
  intros H N. destruct (snd t q) as [[]|] eqn:Q; try (injection H as <- <-; right; congruence).
  destruct (snd t (c :: q)) eqn:E; [congruence|].
  destruct (refuse (fst t) (c :: q)) as [[]|]; try congruence; injection H as <- <-; left; congruence.
Qed.

(** The end of [makedirs] is a [mkdir] of the path, unless a parent failed. *)
Lemma makedirs_last c p s s' e : do_makedirs (c :: p) s = (s', e) ->
  (exists t, do_mkdir (c :: p) t = (s', e)) \/ (e <> None /\ e <> Some EEXIST).
Proof.
  cbn [Io.do_makedirs]. unfold do_exists. set (t := ask s). clearbody t. destruct (exists_ (snd t) p); [eauto|].
  destruct (do_makedirs p t) as [t' e']. destruct e' as [[]|]; intros H; try (injection H as <- <-; right; split; congruence); eauto.
Qed.
End Io.
