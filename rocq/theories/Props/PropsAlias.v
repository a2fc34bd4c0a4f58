(** C24: amplitudes are isolated from the minimiser's working memory.
    C63: amplitudes given to Dynamics are noticed when they change. *)
From Coq Require Import Reals Lra.
From RecordUpdate Require Import RecordUpdate.
From Verif.Model Require Import Base Dyn Alias.
From Verif.Spec Require Import Owners.
From Verif.Proofs Require Import AliasFacts.
Local Open Scope nat_scope.
Set Bullet Behavior "Strict Subproofs".

Section Props.
Variable fid_of : list R -> R.
Variable grad_of : list R -> list R.
Variable crab : option ((list R -> list R) * list nat).
Notation start := (start fid_of crab).
Notation steps := (steps fid_of grad_of crab).
Notation func_wrapper := (func_wrapper fid_of crab).
Notation grad_wrapper := (grad_wrapper grad_of crab).
Notation writes_own := (writes_own fid_of grad_of crab).
Notation reachable := (reachable fid_of grad_of crab).
Notation amps_for := (amps_for crab).

(** Whatever the minimiser has written into its own vectors, a call gives the
    error, and the gradient, of the vector it is given as it is then. *)
Theorem C24_calls w coeffs x0 i w1 l v :
  reachable w -> start coeffs w = Ok (x0, i, w1) -> writes_own l (w1, []) ->
  let now := fst (steps l (w1, [])) in
  (forall e w', func_wrapper v now = Ok (e, w') -> e = fid_of (amps_for (vals now v))) /\
  (forall g w', grad_wrapper v now = Ok (g, w') -> vals w' g = grad_of (amps_for (vals now v))).
Proof.
  intros Hr Hs Hw now. destruct (start_spec fid_of grad_of crab [] _ _ _ _ _ Hs (reach_coherent _ _ _ _ Hr)) as (_ & _ & S1 & _); [intros k []|].
  destruct (steps_safe _ _ _ _ _ _ S1 Hw) as [(C & _) _]. fold now in C. split.
  - intros e w' He. now apply (func_spec fid_of grad_of crab _ _ _ _ He C).
  - intros g w' He. now apply (gradw_spec fid_of grad_of crab _ _ _ _ He C).
Qed.

(** The amplitudes kept after a call are those of the vector it was given, as
    it was then, until the next call; before the first call they are those the
    run started with. *)
Theorem C24_stored w coeffs x0 i w1 l1 l2 :
  reachable w -> start coeffs w = Ok (x0, i, w1) -> no_call l2 ->
  (writes_own l2 (w1, []) ->
   exists a, stored w = Some a /\ stored (fst (steps l2 (w1, []))) = Some a /\
             vals (fst (steps l2 (w1, []))) a = vals w a) /\
  (forall v, let now := fst (steps l1 (w1, [])) in
   forall e w', func_wrapper v now = Ok (e, w') ->
   let s := steps (l1 ++ Eval v :: l2) (w1, []) in
   writes_own (l1 ++ Eval v :: l2) (w1, []) ->
   exists a, stored (fst s) = Some a /\ vals (fst s) a = amps_for (vals now v)) /\
  (forall v, let now := fst (steps l1 (w1, [])) in
   forall g w', grad_wrapper v now = Ok (g, w') ->
   let s := steps (l1 ++ Grad v :: l2) (w1, []) in
   writes_own (l1 ++ Grad v :: l2) (w1, []) ->
   exists a, stored (fst s) = Some a /\ vals (fst s) a = amps_for (vals now v)).
Proof.
  intros Hr Hs Hn. assert (C := reach_coherent _ _ _ _ Hr).
  destruct (start_spec fid_of grad_of crab [] _ _ _ _ _ Hs C) as (X & C1 & S1 & S2 & (a & S3 & _) & _); [intros k []|].
  assert (S0 : safe fid_of grad_of [] (w1, [])) by (destruct S1 as (? & ? & ? & ? & _); unfold safe; splits; auto; intros k []).
  split; [|split].
  - intros Hw. exists a. splits; auto.
    + rewrite no_call_stored; auto. cbn. congruence.
    + destruct (stored_still fid_of grad_of crab l2 (w1, []) a S0 Hw Hn) as [_ E]; [cbn; congruence|].
      rewrite E. cbn. apply vals_app; [apply (proj1 C); auto|exact X].
  - intros v now e w' He s Hw. apply writes_app in Hw as [Hw1 [_ Hw2]]. unfold s. rewrite steps_app.
    destruct (steps_safe _ _ _ _ _ _ S0 Hw1) as [Q _].
    assert (Q' : safe fid_of grad_of [] (step fid_of grad_of crab (Eval v) (steps l1 (w1, [])))) by (apply step_safe; auto).
    change (steps (Eval v :: l2) (steps l1 (w1, []))) with (steps l2 (step fid_of grad_of crab (Eval v) (steps l1 (w1, [])))).
    destruct (func_spec fid_of grad_of crab _ _ _ _ He (proj1 Q)) as (_ & _ & _ & (st & T1 & T2 & _) & _).
    assert (E : fst (step fid_of grad_of crab (Eval v) (steps l1 (w1, []))) = w').
    { unfold now in He. destruct (steps l1 (w1, [])) as [w2 own]. cbn in *. now rewrite He. }
    exists st. destruct (stored_still fid_of grad_of crab l2 _ st Q' Hw2 Hn) as [E1 E2]; [congruence|].
    split; auto. rewrite E2, E. exact T2.
  - intros v now g w' He s Hw. apply writes_app in Hw as [Hw1 [_ Hw2]]. unfold s. rewrite steps_app.
    destruct (steps_safe _ _ _ _ _ _ S0 Hw1) as [Q _].
    assert (Q' : safe fid_of grad_of [] (step fid_of grad_of crab (Grad v) (steps l1 (w1, [])))) by (apply step_safe; auto).
    change (steps (Grad v :: l2) (steps l1 (w1, []))) with (steps l2 (step fid_of grad_of crab (Grad v) (steps l1 (w1, [])))).
    destruct (gradw_spec fid_of grad_of crab _ _ _ _ He (proj1 Q)) as (_ & _ & _ & _ & (st & T1 & T2 & _) & _).
    assert (E : fst (step fid_of grad_of crab (Grad v) (steps l1 (w1, []))) = w').
    { unfold now in He. destruct (steps l1 (w1, [])) as [w2 own]. cbn in *. now rewrite He. }
    exists st. destruct (stored_still fid_of grad_of crab l2 _ st Q' Hw2 Hn) as [E1 E2]; [congruence|].
    split; auto. rewrite E2, E. exact T2.
Qed.

(** The recorded amplitudes never change: not during the run, and not during
    later runs on the same Dynamics.  The final error is that of the final
    amplitudes. *)
Theorem C24_recorded w r x w' rs xs w'' :
  reachable w -> fair_run fid_of grad_of crab r w -> run_optimization fid_of grad_of crab r w = Ok (x, w') ->
  fair_runs fid_of grad_of crab rs w' -> run_all fid_of grad_of crab rs w' = Ok (xs, w'') ->
  (exists a, stored w = Some a /\ vals w'' (initial_amps x) = vals w a) /\
  vals w'' (final_amps x) = vals w' (final_amps x) /\
  final_err x = fid_of (vals w'' (final_amps x)).
Proof.
  intros Hr Hf Hx Hfs Hxs.
  destruct (run_spec fid_of grad_of crab [] _ _ _ _ Hx (reach_coherent _ _ _ _ Hr) Hf) as (C & _ & _ & (a & A1 & A2) & F1 & F2 & L); [intros k []|].
  destruct (runs_spec fid_of grad_of crab rs [a_buf (initial_amps x); a_buf (final_amps x)] _ _ _ Hxs C Hfs) as [_ K].
  { intros k [<-|[<-|[]]]; auto. apply (proj1 C); auto. }
  assert (E : vals w'' (final_amps x) = vals w' (final_amps x)) by (unfold vals; apply K; cbn; auto).
  splits; auto.
  - exists a. split; auto. rewrite <- A2. unfold vals. apply K. cbn; auto.
  - now rewrite E.
Qed.
Theorem C24_recorded_during w coeffs x0 i w1 l :
  reachable w -> start coeffs w = Ok (x0, i, w1) -> writes_own l (w1, []) ->
  exists a, stored w = Some a /\ vals (fst (steps l (w1, []))) i = vals w a.
Proof.
  intros Hr Hs Hw.
  destruct (start_spec fid_of grad_of crab [] _ _ _ _ _ Hs (reach_coherent _ _ _ _ Hr)) as (_ & _ & S1 & _ & (a & S3 & S4) & _); [intros k []|].
  destruct (steps_safe _ _ _ _ _ _ S1 Hw) as [_ K]. exists a. split; auto. rewrite <- S4. unfold vals. apply K. now left.
Qed.

(** A run that is not ended by an exception records the vector returned. *)
Theorem C24_returned w r v x w' :
  reachable w -> fair_run fid_of grad_of crab r w -> run_optimization fid_of grad_of crab r w = Ok (x, w') -> r_ret r = Some v ->
  forall x0 i w1, start (r_coeffs r) w = Ok (x0, i, w1) ->
    vals w' (final_amps x) = amps_for (vals (fst (steps (r_events r) (w1, []))) v).
Proof.
  intros Hr Hf Hx Hv x0 i w1 Hs. unfold run_optimization in Hx. rewrite Hs in Hx. cbn [bind] in Hx.
  destruct (Hf _ _ _ Hs) as [Hw Hret].
  destruct (start_spec fid_of grad_of crab [] _ _ _ _ _ Hs (reach_coherent _ _ _ _ Hr)) as (_ & _ & S1 & _); [intros k []|].
  destruct (steps_safe _ _ _ _ _ _ S1 Hw) as [(C & _) _].
  destruct (finish_spec fid_of grad_of crab _ _ _ _ _ Hx C Hret) as (_ & _ & _ & _ & _ & H). now rewrite Hv in H.
Qed.

(** With CRAB even the vector the minimiser starts from is its own. *)
Theorem C24_crab_start w coeffs x0 i w1 l v :
  crab <> None -> reachable w -> start coeffs w = Ok (x0, i, w1) -> writes_own l (w1, [a_buf x0]) ->
  let now := fst (steps l (w1, [a_buf x0])) in
  (forall e w', func_wrapper v now = Ok (e, w') -> e = fid_of (amps_for (vals now v))) /\
  (forall g w', grad_wrapper v now = Ok (g, w') -> vals w' g = grad_of (amps_for (vals now v))) /\
  exists a, stored w = Some a /\ vals now i = vals w a.
Proof.
  intros Hc Hr Hs Hw now. assert (C := reach_coherent _ _ _ _ Hr).
  destruct (start_spec fid_of grad_of crab [] _ _ _ _ _ Hs C) as (X & C1 & S1 & S2 & (a & S3 & S4) & Hne); [intros k []|].
  assert (Hx : length (heap w) <= a_buf x0 < length (heap w1)) by (eapply crab_start; eauto).
  assert (Q : safe fid_of grad_of [a_buf i] (w1, [a_buf x0])).
  { destruct S1 as (_ & _ & _ & _ & K). unfold safe. cbn [fst snd] in *. splits; auto.
    - constructor; [lia|constructor].
    - intros b Hb [E|[]]. rewrite S2 in Hb. specialize (proj1 C _ Hb). lia.
    - intros g Hg [E|[]]. erewrite start_grad in Hg by eauto. destruct C as (_ & _ & C3). destruct (C3 _ Hg). lia.
    - intros k [<-|[]]. split; [apply K; now left|]. intros [E|[]]. congruence. }
  destruct (steps_safe _ _ _ _ _ _ Q Hw) as [(Cn & _) K]. fold now in Cn, K. splits.
  - intros e w' He. now apply (func_spec fid_of grad_of crab _ _ _ _ He Cn).
  - intros g w' He. now apply (gradw_spec fid_of grad_of crab _ _ _ _ He Cn).
  - exists a. split; auto. rewrite <- S4. unfold vals. apply K. now left.
Qed.

(** C63.  As long as the user does not write into the array given last, an
    update is noticed and the error is that of the array given. *)
Theorem C63_fresh_partial h a0 w0 l a w e w' :
  a_buf a0 < length h -> initialize_controls a0 (mkW h None None None) = Ok w0 -> hands_off fid_of grad_of l w0 ->
  let now := use fid_of grad_of l w0 in
  a_buf a < length (heap now) -> update a now = Ok w -> get_fid_err fid_of w = Ok (e, w') ->
  e = fid_of (vals now a).
Proof.
  intros Hl Hi Hh now Ha Hu He. destruct (init_coherent fid_of grad_of a0 _ _ Hi Hl) as (C & _).
  assert (Cn : coherent fid_of grad_of now) by (now apply use_coherent).
  destruct (update_spec fid_of grad_of _ _ _ Hu Cn Ha) as (U1 & U2 & (st & U3 & U4 & _) & _).
  destruct (fid_spec fid_of grad_of _ _ _ He U2) as (_ & _ & _ & _ & st' & F1 & ->). congruence.
Qed.
(** Initialising the controls again always takes the values as they are. *)
Theorem C63_reinit a w w' e w'' :
  initialize_controls a w = Ok w' -> get_fid_err fid_of w' = Ok (e, w'') -> e = fid_of (vals w a).
Proof.
  intros Hi He. unfold initialize_controls, update in Hi. cbn in Hi. injection Hi as <-.
  cbn in He. now injection He as <- <-.
Qed.
End Props.

(** One timeslot, one control, and the amplitude itself as the error. *)
Definition ex_fid (v : list R) : R := nth 0 v 0%R.
Definition ex_grad (v : list R) : list R := map (fun _ => 1%R) v.
Definition ex_amps : arr := mkArr 0 [1; 1].
Definition ex_w (x : R) : world := mkW [[x]] (Some ex_amps) None None.

(** The vector the minimiser starts from is the memory of the stored
    amplitudes: a minimiser that overwrites it changes them without notice and
    then gets the error of other amplitudes. *)
Theorem C24_x0_refuted :
  reachable ex_fid ex_grad None (ex_w 1) /\
  exists x0 i w1, start ex_fid None [] (ex_w 1) = Ok (x0, i, w1) /\
    let s := steps ex_fid ex_grad None [Write (a_buf x0) 0 5%R; New [5%R]] (w1, []) in
    vals (fst s) ex_amps = [5%R] /\ stored (fst s) = Some ex_amps /\
    exists w', func_wrapper ex_fid None (mkArr 2 [1]) (fst s) = Ok (1%R, w') /\ vals (fst s) (mkArr 2 [1]) = [5%R].
Proof.
  split.
  - exists [[1%R]], ex_amps, (ex_w 1), [], []. splits; auto. exact I.
  - eexists _, _, _. split; [reflexivity|]. cbv zeta. split; [reflexivity|]. split; [reflexivity|]. eexists. split; [|reflexivity].
    cbn -[differ]. rewrite differ_refl. reflexivity.
Qed.

(** The vector returned becomes the recorded final amplitudes: should the
    minimiser use it again, the record changes. *)
Theorem C24_returned_refuted :
  exists x w', run_optimization ex_fid ex_grad None (mkRun [] [New [5%R]] (Some (mkArr 2 [1]))) (ex_w 1) = Ok (x, w') /\
    vals w' (final_amps x) = [5%R] /\ vals (write 2 0 7 w') (final_amps x) = [7%R] /\ final_err x = 5%R.
Proof.
  assert (D : differ [1%R] [5%R] = true).
  { unfold differ. destruct (list_eq_dec _ _ _) as [E|E]; auto. injection E. lra. }
  eexists _, _. split.
  { cbn -[differ]. unfold finish. cbn -[differ]. unfold update. cbn -[differ].
    rewrite D. reflexivity. }
  splits; reflexivity.
Qed.

(** An array changed in place and given again: no change is seen, because it
    is compared with itself, and the error is the old one. *)
Theorem C63_refuted :
  let w := use ex_fid ex_grad [UUpdate ex_amps; UErr; UWrite 0 0 5%R] (mkW [[1%R]] None None None) in
  vals w ex_amps = [5%R] /\ exists w', update ex_amps w = Ok w' /\ get_fid_err ex_fid w' = Ok (1%R, w').
Proof.
  split; [reflexivity|]. eexists. split; [|].
  { unfold update. cbn -[differ]. rewrite differ_refl. reflexivity. }
  reflexivity.
Qed.

(** A run with a minimiser that uses its vector again and again. *)
Example C24_run :
  let l := [New [5%R]; Eval (mkArr 2 [1]); Write 2 0 6%R; Grad (mkArr 2 [1]); Write 2 0 7%R] in
  exists w1 x0 i, start ex_fid None [] (ex_w 1) = Ok (x0, i, w1) /\ writes_own ex_fid ex_grad None l (w1, []) /\
    exists a, stored (fst (steps ex_fid ex_grad None l (w1, []))) = Some a /\
              vals (fst (steps ex_fid ex_grad None l (w1, []))) a = [6%R] /\
              vals (fst (steps ex_fid ex_grad None l (w1, []))) i = [1%R].
Proof.
  assert (D : differ [1%R] [5%R] = true).
  { unfold differ. destruct (list_eq_dec _ _ _) as [E|E]; auto. injection E. lra. }
  assert (D' : differ [5%R] [6%R] = true).
  { unfold differ. destruct (list_eq_dec _ _ _) as [E|E]; auto. injection E. lra. }
  eexists _, _, _. split; [reflexivity|]. cbn -[differ]. rewrite D. cbn -[differ]. rewrite D'. cbn -[differ]. splits; auto.
  eexists. splits; reflexivity.
Qed.

(** CRAB with one coefficient for a pulse of two timeslots; the minimiser
    writes into the vector it started from. *)
Definition ex_crab : option ((list R -> list R) * list nat) := Some (fun v => v ++ v, [2; 1]).
Example C24_crab_run :
  let w := mkW [[1%R; 1%R]] (Some (mkArr 0 [2; 1])) None None in
  let r := start ex_fid ex_crab [5%R] w in
  reachable ex_fid ex_grad ex_crab w /\
  match r with
  | Ok (x0, i, w1) =>
    writes_own ex_fid ex_grad ex_crab [Eval x0; Write (a_buf x0) 0 6%R] (w1, [a_buf x0]) /\
    match func_wrapper ex_fid ex_crab x0 w1 with Ok (e, w2) => e = 5%R | Raise _ => False end
  | Raise _ => False
  end.
Proof.
  intros w r. assert (D : differ [1%R; 1%R] [5%R; 5%R] = true).
  { unfold differ. destruct (list_eq_dec _ _ _) as [E|E]; auto. injection E. lra. }
  split.
  - exists [[1%R; 1%R]], (mkArr 0 [2; 1]), w, [], []. splits; auto. exact I.
  - unfold r, w. cbn -[differ]. split.
    + rewrite D. cbn. auto.
    + rewrite D. reflexivity.
Qed.

(** A user that makes a new array for every change. *)
Example C63_history :
  let w := mkW [[1%R]] (Some ex_amps) None None in
  let l := [UErr; UNew [5%R] [1; 1]; UWrite 1 0 6%R; UGrad] in
  hands_off ex_fid ex_grad l w /\ vals (use ex_fid ex_grad l w) (mkArr 1 [1; 1]) = [6%R] /\
  match update (mkArr 1 [1; 1]) (use ex_fid ex_grad l w) with
  | Ok w' => match get_fid_err ex_fid w' with Ok (e, _) => e = 6%R | Raise _ => False end
  | Raise _ => False
  end.
Proof.
  intros w l. assert (D : differ [1%R] [6%R] = true).
  { unfold differ. destruct (list_eq_dec _ _ _) as [E|E]; auto. injection E. lra. }
  split; [|split; [reflexivity|]].
  - cbn. splits; auto; try discriminate. intros a [= <-]. discriminate.
  - cbn -[differ]. unfold update. cbn -[differ]. rewrite D. reflexivity.
Qed.

(** Assumptions of all theorems of this file together (listed one by one in
    ASSUMPTIONS.txt). *)
Definition propsAlias :=
  (@C24_calls,
   @C24_stored,
   @C24_recorded,
   @C24_recorded_during,
   @C24_returned,
   @C24_crab_start,
   @C63_fresh_partial,
   @C63_reinit,
   @C24_x0_refuted,
   @C24_returned_refuted,
   @C63_refuted).
Print Assumptions propsAlias.
