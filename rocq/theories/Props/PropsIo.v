(** C47: directory creation reports the truth. *)
From Verif.Model Require Import Io.
From Verif.Spec Require Import Files.
From Verif.Proofs Require Import IoFacts.
Set Bullet Behavior "Strict Subproofs".

(** Proved when the name is neither a device or pipe nor a dangling link, and
    other processes create directories only, at any moment: success means the
    directory is there.  Missing: the other names and other processes that
    create files or remove things, where it is false (see below). *)
Theorem C47_success_partial env refuse p f s q m :
  makes_dirs env -> f p <> Some Special -> f p <> Some Dangling -> f [] = Some Dir ->
  create_dir env refuse p (0, f) = (s, (true, q, m)) ->
  q = p /\ snd s p = Some Dir /\ is_error m = false.
Proof.
  intros He Ns Nd Hr H.
  assert (R : forall g, kept f g -> only_new_dirs f g -> g p = None \/ g p = Some Dir \/ g p = Some File).
  { intros g K O. destruct (f p) as [[]|] eqn:E; try congruence; try (rewrite (K p _ E); auto).
    destruct (O p E); auto. }
  assert (F : kept f (snd s) /\ only_new_dirs f (snd s)).
  { refine (create_rel env refuse (fun a b => kept a b /\ only_new_dirs a b) p (0, f) s _ _ _ _ _ H).
    - intros g; split; [apply kept_refl|apply ond_refl].
    - intros a b c [K1 O1] [K2 O2]. split; [eapply kept_trans; eauto|eapply ond_trans; eauto].
    - exact He.
    - intros r g _ N. split; [now apply add_dir_kept|apply add_dir_ond]. }
  destruct F as [FK FO].
  unfold create_dir, do_exists, do_isfile in H. set (t := ask env (0, f)) in *.
  assert (T : kept f (snd t) /\ only_new_dirs f (snd t)) by exact (He 0 f). destruct T as [TK TO].
  destruct (exists_ (snd t) p) eqn:Ex.
  - set (t' := ask env t) in *. destruct (isfile (snd t') p) eqn:I; [congruence|].
    injection H as <- <- <-. split; [reflexivity|split; [|reflexivity]].
    assert (T' : kept (snd t) (snd t')) by apply (He (fst t) (snd t)).
    unfold exists_ in Ex. unfold isfile in I.
    destruct (R _ FK FO) as [N|[D|G]]; auto.
    + destruct (snd t p) as [n|] eqn:Et; [|discriminate]. rewrite (T' p _ Et) in N. discriminate.
    + rewrite G in I. discriminate.
  - destruct (do_makedirs env refuse p t) as [t' e] eqn:E.
    assert (P : snd t p = None).
    { unfold exists_ in Ex. destruct (R _ TK TO) as [N|[N|N]]; auto; rewrite N in Ex; discriminate. }
    destruct p as [|c p']; [rewrite (TK [] _ Hr) in P; discriminate|].
    apply makedirs_last in E as [(u & E)|[E1 E2]].
    + destruct e as [[]|]; try congruence; injection H as <- <- <-; (split; [reflexivity|split; [|reflexivity]]).
      * pose proof (mkdir_eexist env refuse c p' u t' E) as N.
        destruct (R _ FK FO) as [N'|[N'|N']]; auto; [congruence|].
        exfalso. (* a file cannot have appeared *)
        destruct (f (c :: p')) as [n|] eqn:Ef.
        -- rewrite (TK _ _ Ef) in P. discriminate.
        -- destruct (FO _ Ef); congruence.
      * now apply mkdir_ok in E.
    + destruct e as [[]|]; congruence.
Qed.
(** A file system with a home directory, a file and a pipe in it. *)
Definition demo : fs := fun p =>
  match p with
  | [] => Some Dir
  | ["home"%string] => Some Dir
  | ["notes"; "home"]%string => Some File
  | ["pipe"; "home"]%string => Some Special
  | ["link"; "home"]%string => Some Dangling
  | _ => None
  end.
Definition still : nat -> fs -> fs := fun _ f => f.
Definition allow : nat -> path -> option errno := fun _ _ => None.
Example C47_success_nonvacuous :
  makes_dirs still /\ demo ["b"; "a"; "home"]%string = None /\
  exists s, create_dir still allow ["b"; "a"; "home"]%string (0, demo) = (s, (true, ["b"; "a"; "home"]%string, Created)) /\
    snd s ["a"; "home"]%string = Some Dir.
Proof.
  split; [intros k f; split; [apply kept_refl|apply ond_refl]|]. split; [reflexivity|].
  eexists. split; reflexivity.
Qed.
(** ... and with another process that makes the directory just before this one does. *)
Definition rival : nat -> fs -> fs := fun k f =>
  if k =? 2 then match f ["a"; "home"]%string with None => add_dir ["a"; "home"]%string f | Some _ => f end else f.
Example C47_success_race :
  makes_dirs rival /\
  snd (create_dir rival allow ["a"; "home"]%string (0, demo)) = (true, ["a"; "home"]%string, OtherProcess).
Proof.
  split; [|reflexivity]. intros k f. unfold rival. destruct (k =? 2); [|split; [apply kept_refl|apply ond_refl]].
  destruct (f _) eqn:E; [split; [apply kept_refl|apply ond_refl]|split; [now apply add_dir_kept|apply add_dir_ond]].
Qed.

(** Nothing is removed or overwritten. *)
Theorem C47_keeps env refuse p f s r :
  keeps env -> create_dir env refuse p (0, f) = (s, r) -> kept f (snd s).
Proof.
  intros He H.
  refine (create_rel env refuse kept p (0, f) s _ kept_refl kept_trans He _ H).
  intros q g _ N. now apply add_dir_kept.
Qed.
(** All it makes are the missing directories on the way to the path. *)
Theorem C47_makes_only env refuse p f s r :
  quiet env -> create_dir env refuse p (0, f) = (s, r) ->
  forall q, snd s q <> f q -> f q = None /\ snd s q = Some Dir /\ on_the_way q p.
Proof.
  intros He H.
  assert (F : kept f (snd s) /\ forall q, snd s q = f q \/ (snd s q = Some Dir /\ on_the_way q p)).
  { refine (create_rel env refuse (fun a b => kept a b /\ forall q, b q = a q \/ (b q = Some Dir /\ on_the_way q p))
              p (0, f) s _ _ _ _ _ H).
    - intros g; split; [apply kept_refl|auto].
    - intros a b c [K1 O1] [K2 O2]. split; [eapply kept_trans; eauto|]. intros q.
      destruct (O2 q) as [E|E]; [|auto]. rewrite E. apply O1.
    - intros k g. rewrite He. split; [apply kept_refl|auto].
    - intros q g W N. split; [now apply add_dir_kept|]. intros q'. unfold add_dir.
      destruct (path_eqb q q') eqn:E; auto. apply path_eqb_eq in E as <-. auto. }
  destruct F as [K F]. intros q N. destruct (F q) as [E|[E W]]; [congruence|].
  destruct (f q) as [n|] eqn:Q; [exfalso; apply N; now apply K|auto].
Qed.
Example C47_keeps_nonvacuous : quiet still /\ keeps still /\
  snd (fst (create_dir still allow ["b"; "a"; "home"]%string (0, demo))) ["a"; "home"]%string <> demo ["a"; "home"]%string.
Proof. split; [now intros k f|]. split; [intros k f; apply kept_refl|discriminate]. Qed.

(** A name taken by a file is reported as a failure, whatever else happens. *)
Theorem C47_file env refuse p f s r :
  keeps env -> f p = Some File -> create_dir env refuse p (0, f) = (s, r) -> r = (false, p, FailFile).
Proof.
  intros He Hf H. unfold create_dir, do_exists, do_isfile in H. set (t := ask env (0, f)) in *.
  assert (T : snd t p = Some File) by exact (He 0 f p _ Hf).
  assert (E : exists_ (snd t) p = true) by (unfold exists_; now rewrite T). rewrite E in H.
  set (t' := ask env t) in *.
  assert (T' : snd t' p = Some File) by exact (He (fst t) (snd t) p _ T).
  assert (I : isfile (snd t') p = true) by (unfold isfile; now rewrite T'). rewrite I in H. congruence.
Qed.
(** A failure comes with an error message and, when nothing else interferes,
    is one: the directory is not there. *)
Theorem C47_failure env refuse p f s q m :
  create_dir env refuse p (0, f) = (s, (false, q, m)) ->
  q = p /\ is_error m = true /\ (quiet env -> snd s p <> Some Dir).
Proof.
  unfold create_dir, do_exists, do_isfile. set (t := ask env (0, f)).
  destruct (exists_ (snd t) p) eqn:Ex.
  - set (t' := ask env t). destruct (isfile (snd t') p) eqn:I; [|congruence]. intros [= <- <- <-].
    split; [reflexivity|split; [reflexivity|]]. intros _. unfold isfile in I. destruct (snd t' p) as [[]|]; congruence.
  - destruct (do_makedirs env refuse p t) as [t' e] eqn:E. intros H.
    assert (W : exists e', e = Some e' /\ e' <> EEXIST /\ t' = s /\ q = p /\ m = FailOs e').
    { destruct e as [[]|]; try congruence; eexists; injection H as <- <- <-; repeat split; congruence. }
    destruct W as (e' & -> & Ne & -> & -> & ->). split; [reflexivity|split; [reflexivity|]].
    intros Q. clear H.
    assert (P : snd t p <> Some Dir) by (unfold exists_ in Ex; destruct (snd t p) as [[]|]; congruence).
    assert (Askq : forall u, snd (ask env u) = snd u) by (intros u; apply Q).
    assert (Mk : forall u v x, do_mkdir env refuse p u = (v, Some x) -> snd v p = snd u p).
    { intros u v x. unfold do_mkdir. set (w := ask env u). assert (Aw : snd w = snd u) by apply Askq.
      clearbody w. destruct p as [|c p']; [now intros [= <- <-]; rewrite Aw|].
      destruct (snd w p') as [[]|]; try (now intros [= <- <-]; rewrite Aw).
      destruct (snd w (c :: p')); [now intros [= <- <-]; rewrite Aw|].
      destruct (refuse (fst w) (c :: p')) as [[]|]; intros [= <- <-]; now rewrite Aw. }
    destruct p as [|c p']; cbn [do_makedirs] in E; [now rewrite (Mk _ _ _ E)|].
    unfold do_exists in E. set (u := ask env t) in *.
    assert (Au : snd u = snd t) by apply Askq.
    destruct (exists_ (snd u) p'); [rewrite (Mk _ _ _ E), Au; exact P|].
    destruct (do_makedirs env refuse p' u) as [v x] eqn:V.
    assert (Ev : snd v (c :: p') = snd u (c :: p')).
    { refine (makedirs_rel env refuse (fun a b => b (c :: p') = a (c :: p')) _ _ p' _ p' u v x (on_self p') V).
      - congruence.
      - intros k g. now rewrite Q.
      - intros r g [l L] _. unfold add_dir. destruct (path_eqb r (c :: p')) eqn:R; auto.
        apply path_eqb_eq in R as ->. exfalso. apply (f_equal (@List.length string)) in L. rewrite app_length in L. cbn in L. lia. }
    destruct x as [[]|]; try (injection E as <- <-; rewrite Ev, Au; exact P);
      rewrite (Mk _ _ _ E), Ev, Au; exact P.
Qed.
(** When nothing else interferes, the message says what happened: "ready"
    that something of that name (but no file, and no link to nothing) was there
    already, "created" that there was nothing and now is the directory. *)
Theorem C47_message env refuse p f s q m : quiet env ->
  create_dir env refuse p (0, f) = (s, (true, q, m)) ->
  (m = Ready -> (f p = Some Dir \/ f p = Some Special) /\ snd s = f) /\ (m = Created -> f p = None /\ (p <> [] -> snd s p = Some Dir)).
Proof.
  intros Q H. assert (K : kept f (snd s)).
  { eapply C47_keeps; [|exact H]. intros k g. rewrite Q. apply kept_refl. }
  unfold create_dir, do_exists, do_isfile in H. set (t := ask env (0, f)) in *.
  assert (Et : snd t = f) by apply Q. rewrite Et in H.
  destruct (exists_ f p) eqn:Ex.
  - set (t' := ask env t) in *. assert (Et' : snd t' = f) by (unfold t', ask; cbn [snd]; rewrite Q; exact Et). rewrite Et' in H.
    destruct (isfile f p) eqn:I; [congruence|]. injection H as <- <- <-. split; [|discriminate]. intros _. split; auto.
    unfold exists_ in Ex. unfold isfile in I. destruct (f p) as [[]|]; auto; discriminate.
  - destruct (do_makedirs env refuse p t) as [t' e] eqn:E. split; [intros ->; destruct e as [[]|]; congruence|]. intros ->.
    assert (e = None /\ t' = s) as [-> ->] by (destruct e as [[]|]; split; congruence).
    assert (N : p <> [] -> snd s p = Some Dir).
    { destruct p as [|c p']; [congruence|]. intros _. apply makedirs_last in E as [(u & E)|[E1 E2]]; [now apply mkdir_ok in E|congruence]. }
    split; auto. destruct (f p) as [n|] eqn:Ef; auto. exfalso.
    destruct p as [|c p'].
    + cbn in E. unfold do_mkdir in E. congruence.
    + rewrite (K _ _ Ef) in N. unfold exists_ in Ex. rewrite Ef in Ex. destruct n; try discriminate. assert (Some Dangling = Some Dir) by (apply N; discriminate). discriminate.
Qed.
Example C47_message_nonvacuous : quiet still /\
  snd (create_dir still allow ["home"]%string (0, demo)) = (true, ["home"]%string, Ready) /\
  snd (create_dir still allow ["a"; "home"]%string (0, demo)) = (true, ["a"; "home"]%string, Created).
Proof. repeat split. Qed.
Example C47_failure_nonvacuous :
  snd (create_dir still allow ["notes"; "home"]%string (0, demo)) = (false, ["notes"; "home"]%string, FailFile) /\
  snd (create_dir still allow ["x"; "notes"; "home"]%string (0, demo)) = (false, ["x"; "notes"; "home"]%string, FailOs ENOTDIR) /\
  snd (create_dir still (fun _ _ => Some EACCES) ["a"; "home"]%string (0, demo)) = (false, ["a"; "home"]%string, FailOs EACCES).
Proof. repeat split. Qed.

(** Success is reported although the name is a pipe or a link to nothing, and
    when a file of that name appears at the wrong moment. *)
Theorem C47_refuted :
  (exists p f s m, create_dir still allow p (0, f) = (s, (true, p, m)) /\ f p = Some Special /\ snd s p = Some Special) /\
  (exists p f s m, create_dir still allow p (0, f) = (s, (true, p, m)) /\ f p = Some Dangling /\ snd s p = Some Dangling) /\
  (exists env p f s m, keeps env /\ create_dir env allow p (0, f) = (s, (true, p, m)) /\ f p = None /\ snd s p = Some File).
Proof.
  split; [|split].
  - exists ["pipe"; "home"]%string, demo. do 2 eexists. repeat split.
  - exists ["link"; "home"]%string, demo. do 2 eexists. repeat split.
  - exists (fun k f => if k =? 2 then fun q => if path_eqb q ["a"; "home"]%string then match f q with None => Some File | x => x end else f q
                       else f), ["a"; "home"]%string, demo.
    do 2 eexists. split; [|repeat split].
    intros k f q n Hq. destruct (k =? 2); auto. destruct (path_eqb _ _); auto. now rewrite Hq.
Qed.

(** Assumptions of all theorems of this file together (listed one by one in
    ASSUMPTIONS.txt). *)
Definition propsIo :=
  (@C47_success_partial,
   @C47_keeps,
   @C47_makes_only,
   @C47_file,
   @C47_failure,
   @C47_message,
   @C47_refuted).
Print Assumptions propsIo.
