(** Properties C87 (which figure of merit is in force) and C88 (where the dump
    files go). *)
From Coq Require Import String List Bool.
From RecordUpdate Require Import RecordUpdate.
From Verif.Model Require Import Base Dyn Str Dump DumpDir PhaseOption.
From Verif.Spec Require Import Where.
From Verif.Proofs Require Import WhereFacts.
Local Open Scope string_scope.
Local Open Scope list_scope.
Set Bullet Behavior "Strict Subproofs".

(** ** C87 *)
(** phase_option takes the two documented values, in capitals, and refuses
    everything else. *)
Theorem C87_values v c : (snd (assign_phase v c) = None <-> v = PStr "PSU" \/ v = PStr "SU") /\
  (snd (assign_phase v c) <> None -> snd (assign_phase v c) = Some UsageError).
Proof.
  rewrite assign_names. unfold names. split.
  - split; [|intros [->| ->]; reflexivity]. destruct v as [s| |]; cbn; try discriminate.
    destruct (String.eqb_spec s "PSU") as [->|N1]; auto. destruct (String.eqb_spec s "SU") as [->|N2]; auto.
    repeat match goal with |- context [match ?x with _ => _ end] => is_var x; destruct x; cbn; try discriminate end; congruence.
  - destruct (match v with PStr "PSU" => _ | _ => _ end); cbn; congruence.
Qed.
(** Whatever was assigned and refused, fidelity and gradient follow the last
    value that was accepted, and PSU if there was none; so they always agree
    with one another and the computer can always be initialised. *)
Theorem C87_in_force l : let c := assign_phases l new_phcomp in
  phase_ready c = true /\
  (forall before v after o, l = before ++ v :: after -> names v = Some o -> Forall (fun v => names v = None) after ->
     pc_fid c = Some o /\ pc_grad c = Some o) /\
  (Forall (fun v => names v = None) l -> pc_fid c = Some PSU /\ pc_grad c = Some PSU).
Proof.
  cbv zeta.
  assert (H2 : forall before v after o, l = before ++ v :: after -> names v = Some o -> Forall (fun v => names v = None) after ->
     pc_fid (assign_phases l new_phcomp) = Some o /\ pc_grad (assign_phases l new_phcomp) = Some o).
  { intros before v after o -> Hv F. unfold assign_phases. rewrite fold_left_app. cbn [fold_left].
    fold (assign_phases before new_phcomp). fold (assign_phases after (fst (assign_phase v (assign_phases before new_phcomp)))).
    destruct (assign_none after (fst (assign_phase v (assign_phases before new_phcomp))) F) as [-> ->].
    rewrite assign_names, Hv. auto. }
  assert (H3 : Forall (fun v => names v = None) l -> pc_fid (assign_phases l new_phcomp) = Some PSU /\ pc_grad (assign_phases l new_phcomp) = Some PSU).
  { intros F. destruct (assign_none l new_phcomp F) as [-> ->]. auto. }
  split; [|split; auto].
  assert (D : Forall (fun v => names v = None) l \/ exists before v after o, l = before ++ v :: after /\ names v = Some o /\ Forall (fun v => names v = None) after).
  { clear. induction l as [|v l IH]; [left; constructor|]. destruct IH as [F|(b & w & a & o & -> & Hw & F)].
    - destruct (names v) as [o|] eqn:E; [right; exists [], v, l, o; auto|left; constructor; auto].
    - right. exists (v :: b), w, a, o. auto. }
  unfold phase_ready. destruct D as [F|(b & v & a & o & E & Hv & F)].
  - destruct (H3 F) as [-> ->]. auto.
  - destruct (H2 b v a o E Hv F) as [-> ->]. auto.
Qed.
(** What phase_option shows is in force after an accepted assignment ... *)
Theorem C87_shown_partial l v o : names v = Some o ->
  let c := assign_phases (l ++ [v]) new_phcomp in pc_shown c = v /\ pc_fid c = Some o /\ pc_grad c = Some o.
Proof.
  intros Hv. cbv zeta. unfold assign_phases. rewrite fold_left_app. cbn [fold_left]. rewrite assign_names, Hv. auto.
Qed.
(** ... but after a refused one it shows the refused value, while the figure
    of merit remains the former one. *)
Theorem C87_shown_refuted l v : names v = None ->
  let c := assign_phases (l ++ [v]) new_phcomp in
  pc_shown c = v /\ pc_fid c = pc_fid (assign_phases l new_phcomp) /\ pc_grad c = pc_grad (assign_phases l new_phcomp).
Proof.
  intros Hv. cbv zeta. unfold assign_phases. rewrite fold_left_app. cbn [fold_left]. rewrite assign_names, Hv. auto.
Qed.
Example C87_nonvacuous : names (PStr "SU") = Some SU /\ names (PStr "psu") = None /\ names PNone = None /\
  pc_shown (assign_phases [PStr "SU"; PStr "psu"] new_phcomp) = PStr "psu" /\
  pc_fid (assign_phases [PStr "SU"; PStr "psu"] new_phcomp) = Some SU.
Proof. repeat split. Qed.

(** ** C88 *)
Section C88.
(** [mkdir k v]: the outcome of the [k]-th request to make the directory [v]
    (whether it is there afterwards) and the path meant. *)
Variable mkdir : nat -> string -> bool * string.
Variable dd : string.
Notation step := (wstep mkdir dd).
Notation runs := (wruns mkdir dd).

(** What dump_dir reads as after it was assigned: the path of the directory if
    it could be made, otherwise that of the default directory. *)
Theorem C88_dir w v : v <> "" ->
  let w' := set_dump_dir mkdir dd (Some v) w in
  let read := snd (get_dump_dir mkdir dd w') in
  if fst (mkdir (w_calls w) v) then read = snd (mkdir (w_calls w) v) /\ w_write w' = w_write w
  else read = snd (mkdir (S (w_calls w)) dd) /\ w_write w' = false.
Proof.
  intros N. destruct w as [d wr ex ba s1 s2 s3 n]. unfold set_dump_dir, create_dump_dir. cbn. apply String.eqb_neq in N. rewrite N.
  destruct (mkdir n v) as [[|] path] eqn:E; cbn; auto. unfold get_dump_dir, create_dump_dir. cbn. destruct (mkdir (S n) dd) as [[|] p']; cbn; auto.
Qed.
(** Full statement: every entry of a log goes into the directory dump_dir reads
    as at that time.  Proved for the first one (missing: the later ones, where
    it is false, [C88_moved_refuted]), under
    the file name base and the extension in force. *)
Theorem C88_first_partial l k write p : Forall (elsewhere k) l ->
  let w := runs l (new_where write) in
  snd (step (Log k) w) = Some p ->
  p = path_join (snd (get_dump_dir mkdir dd w)) (last_base "optimdump" l ++ "-" ++ title k ++ "." ++ last_ext "txt" l).
Proof.
  intros F w H. apply log_some in H as (_ & <- & _). destruct (runs_names mkdir dd l (new_where write)) as [Hb He]. cbn in Hb, He.
  rewrite <- Hb, <- He. apply path_fresh. apply runs_unused; auto. destruct k; reflexivity.
Qed.
(** Likewise the first entry of the summary after the file name base was assigned. *)
Theorem C88_renamed_partial l b l' write p : Forall (elsewhere KSummary) l' ->
  let w := runs (l ++ SetBase b :: l') (new_where write) in
  snd (step (Log KSummary) w) = Some p ->
  p = path_join (snd (get_dump_dir mkdir dd w)) (last_base b l' ++ "-summary." ++ last_ext "txt" (l ++ SetBase b :: l')).
Proof.
  intros F w H. apply log_some in H as (_ & <- & _). destruct (runs_names mkdir dd (l ++ SetBase b :: l') (new_where write)) as [Hb He]. cbn in Hb, He.
  rewrite <- He. replace (last_base b l') with (w_base w).
  - unfold w at 1. rewrite path_fresh; [reflexivity|]. unfold wruns. rewrite fold_left_app. cbn [fold_left].
    apply (runs_unused mkdir dd l' KSummary); auto.
  - unfold w, wruns. rewrite fold_left_app. cbn [fold_left].
    destruct (runs_names mkdir dd l' (fst (step (SetBase b) (runs l (new_where write))))) as [G _]. exact G.
Qed.
(** The files of gradients go into the present directory, always. *)
Theorem C88_gradients l n write p : let w := runs l (new_where write) in
  snd (step (Log (KGrad n)) w) = Some p ->
  p = path_join (snd (get_dump_dir mkdir dd w)) (last_base "optimdump" l ++ "-fid_err_gradients" ++ str_nat n ++ "." ++ last_ext "txt" l).
Proof.
  intros w H. apply log_some in H as (_ & <- & _). destruct (runs_names mkdir dd l (new_where write)) as [Hb He]. cbn in Hb, He.
  rewrite <- Hb, <- He. rewrite path_fresh; reflexivity.
Qed.
(** But every later entry of the other logs goes where the first one went:
    assigning dump_dir or the extension moves neither the summary nor the
    logs, the file name base moves the summary only. *)
Theorem C88_moved_refuted w k p l q : one_file k -> snd (step (Log k) w) = Some p -> Forall (no_rename k) l ->
  snd (step (Log k) (runs l (fst (step (Log k) w)))) = Some q -> q = p.
Proof.
  intros O H F Hq. apply log_some in H as (_ & Hp & E). rewrite E in *. pose proof (path_same mkdir dd k w) as P.
  destruct (path_of mkdir dd k w) as [w1 p1]. cbn in *. subst p1. destruct P as (_ & _ & _ & _ & P & _). specialize (P O).
  pose proof (runs_fixed mkdir dd l k p w1 F P) as C.
  assert (Hq' : snd (step (Log k) (runs l w1)) = Some q) by exact Hq.
  apply log_some in Hq' as (_ & <- & _). pose proof (path_same mkdir dd k (runs l w1)) as P2. destruct (path_of mkdir dd k (runs l w1)) as [w2 p2].
  destruct P2 as (_ & _ & _ & _ & _ & P2). cbn. apply P2. exact C.
Qed.
(** A directory that cannot be made turns writing off, and nothing is opened
    any more, also after a good directory was assigned, until writing is
    turned on again or an optimisation with dump_to_file starts. *)
Theorem C88_off w v l : v <> "" -> fst (mkdir (w_calls w) v) = false -> Forall not_on l ->
  opened mkdir dd (SetDir (Some v) :: l) w = [].
Proof.
  intros N B F. cbn [opened wstep]. apply opened_off; auto. pose proof (C88_dir w v N) as H. cbv zeta in H. rewrite B in H. apply H.
Qed.
End C88.
(** Any directory but "bad" can be made. *)
Definition some_dirs (k : nat) (v : string) : bool * string := (negb (v =? "bad")%string, if String.prefix "/" v then v else ("/" ++ v)%string).
Example C88_nonvacuous :
  opened some_dirs "home" [SetDir (Some "a"); Log KErr; Log (KGrad 1); SetDir (Some "b"); Log KErr; Log (KGrad 2); SetBase "run"; Log KSummary; Log KErr] (new_where true) =
  ["/a/optimdump-fid_err_log.txt"; "/a/optimdump-fid_err_gradients1.txt"; "/a/optimdump-fid_err_log.txt"; "/b/optimdump-fid_err_gradients2.txt";
   "/b/run-summary.txt"; "/a/optimdump-fid_err_log.txt"] /\
  opened some_dirs "home" [SetDir (Some "bad"); SetDir (Some "a"); Log KErr; Start; Log KErr] (new_where true) = ["/a/optimdump-fid_err_log.txt"].
Proof. split; reflexivity. Qed.

(** Assumptions of all theorems of this file together (listed one by one in
    ASSUMPTIONS.txt). *)
Definition propsWhere :=
  (@C87_values,
   @C87_in_force,
   @C87_shown_partial,
   @C87_shown_refuted,
   @C88_dir,
   @C88_first_partial,
   @C88_renamed_partial,
   @C88_gradients,
   @C88_moved_refuted,
   @C88_off).
Print Assumptions propsWhere.
