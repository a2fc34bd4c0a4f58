(** One-slot, one-control GRAPE runs on the one-dimensional system: witnesses
    for refuted statements and for hypotheses. *)
From Coq Require Import Reals Lra String.
From Coquelicot Require Import Complex.
From RecordUpdate Require Import RecordUpdate.
From Verif.Model Require Import Base Dyn OptRun.
From Verif.Lib Require Import Lists.
From Verif.Spec Require Import Evolution History Stopping Runs Scalar.
From Verif.Proofs Require Import DynInv DynRun DynHist DynHistory DynProps DynFrame ScalarFacts DynAgain OptFacts OptMore.
Local Open Scope R_scope.
Set Bullet Behavior "Strict Subproofs".

Section Det.
Context {A : Alg} (s : settings A) (dexp : Op A -> Op A -> Op A) (decode : list R -> amps).
Variables (targ : R) (tc : termcond) (start : R).
Lemma stops_det c e t t' : stops s dexp decode targ tc start c e t -> stops s dexp decode targ tc start c e t' -> t = t'.
Proof. intros H H'; destruct H; inversion H'; subst; auto; lra. Qed.
Lemma played_det c evs made t : played s dexp decode targ tc start c evs made t ->
  forall made' t', played s dexp decode targ tc start c evs made' t' -> made = made' /\ t = t'.
Proof.
  induction 1 as [c|c e evs t St|c e evs made t No P IH]; intros made' t' P'; inversion P'; subst; auto.
  - split; auto. f_equal. eapply stops_det; eauto.
  - exfalso. match goal with H : forall t', ~ _ |- _ => eapply H; eauto end.
  - exfalso. eapply No; eauto.
  - match goal with H : played _ _ _ _ _ _ _ _ ?m ?t |- _ => destruct (IH m t H) as [-> ->]; auto end.
Qed.
End Det.

(** drift 0, control 1, slot of length 1: amplitude u gives e^u; target 1. *)
Definition s1 : settings ScalarAlg := sc_settings GenMat 1 None Frechet FTrace.
Definition dexp1 (x e : Op ScalarAlg) : Op ScalarAlg := Cmult (cexp x) e.
Lemma s1_ok : well_posed s1 1 1 /\ routines_ok s1 1 1 /\ grad_routines_ok dexp1 s1 1 1.
Proof.
  splits.
  - apply sc_well_posed; [lia|discriminate].
  - apply sc_routines; discriminate.
  - intros a k j t g cj _; splits; try discriminate. reflexivity.
Qed.

Lemma s1_gens u : gens_of s1 [[u]] = [RtoC u].
Proof.
  unfold gens_of, s1. cbn [eff_drift eff_ctrls sc_settings s_class s_drift s_ctrls s_tau repeat length
    generators drift_ops ctrl_ops map3 lincomb oadd oscale ScalarAlg].
  f_equal. unfold Cplus, Cmult, RtoC; cbn. f_equal; ring.
Qed.
Lemma s1_final u : final_of s1 [[u]] = RtoC (exp u).
Proof.
  eapply final_one; [reflexivity|reflexivity|apply s1_gens|].
  unfold with_phase, s1; cbn [s_phase sc_settings]. unfold Cmult, RtoC; cbn. f_equal; ring.
Qed.
Lemma s1_err u : fid_err_of s1 [[u]] = (1 - exp u) * (1 - exp u) / 2.
Proof.
  unfold fid_err_of, s1; cbn [s_fid sc_settings]. fold s1. unfold trace_dist, trace_scale.
  rewrite s1_final. cbn [s_scale s_target s_dim s1 sc_settings osub odag omul otr ScalarAlg].
  unfold Re, Cmult, Cconj, Cminus, Cplus, Copp, RtoC; cbn. field.
Qed.
Lemma s1_grad u g : grad_is (dprop dexp1 s1) s1 [[u]] g -> g = [[- (1 - exp u) * exp u]].
Proof.
  intros [L N]. destruct g as [|row [|]]; try discriminate. clear L. f_equal.
  assert (V : grad_entry_of (dprop dexp1 s1) s1 [[u]] 0 0 = Some (- (1 - exp u) * exp u)).
  { unfold grad_entry_of, s1; cbn [s_fid sc_settings]. fold s1.
    unfold dfinal, dslot. rewrite s1_gens. change (eff_ctrls s1) with (Some (CList [(RtoC 1 : Op ScalarAlg)])).
    cbn [s_tau s1 sc_settings repeat nth_error length ctrl_ops]. fold s1.
    rewrite s1_final. unfold dprop, dexp1.
    replace (oscale ScalarAlg (RtoC 1) (with_phase s1 (RtoC u : Op ScalarAlg))) with (RtoC u : Op ScalarAlg).
    2:{ unfold with_phase, s1; cbn. unfold Cmult, RtoC; cbn; f_equal; ring. }
    rewrite cexp_real.
    cbn [product skipn props_of propagators map2 firstn evolve fold_left s_initial s_target s1 sc_settings]. fold s1.
    unfold props_of, propagators. rewrite s1_gens. cbn [s_tau s1 sc_settings repeat map2 skipn product]. fold s1.
    unfold trace_scale, with_phase. cbn [s_scale s_dim s_phase s1 sc_settings osub odag omul otr oscale ScalarAlg].
    f_equal. unfold Re, Cmult, Cconj, Cminus, Cplus, Copp, RtoC; cbn. field. }
  assert (Z : grad_entry_of (dprop dexp1 s1) s1 [[u]] 0 1 = None) by reflexivity.
  pose proof (N 0%nat 0%nat) as N0. rewrite V in N0. cbn in N0.
  pose proof (N 0%nat 1%nat) as N1. rewrite Z in N1. cbn in N1.
  destruct row as [|x [|]]; cbn in *; try discriminate. congruence.
Qed.
Lemma euclid_one x : euclid [[x]] = Rabs x.
Proof. unfold euclid; cbn. replace (x * x + 0) with (Rsqr x) by (unfold Rsqr; ring). apply sqrt_Rsqr_abs. Qed.

Definition okx1 (x : list R) : Prop := length x = (1 * 1)%nat.
Notation used1 := (used s1 1 1 grape_to_amps grape_get_vars grape_gens_ok okx1 (fun _ => True)).
Notation run1 := (run_optimization grape_to_amps grape_get_vars grape_gens_ok (A:=ScalarAlg)).
Notation played1 := (played s1 dexp1 (rows 1 1)).

Definition start1 (k : okind) (tc : termcond) (d : dyn ScalarAlg) : opt ScalarAlg unit :=
  mkOpt k d tt (Some tc) false false BNone BNone None 0 0 0 (Some (mkOS 0 0 0)) 0.

Lemma have1 : exists d, session s1 true [[1]] [] = Ok d.
Proof.
  destruct s1_ok as (W & RO & _). destruct (session_ok s1 1 1 W RO true [[1]] []) as (d & E & _).
  - split; auto.
  - constructor.
  - eauto.
Qed.
Lemma start_used k tc d : session s1 true [[1]] [] = Ok d -> used1 (start1 k tc d) [[1]].
Proof. intros E. apply (used_new s1 1 1 _ _ _ _ _ true [[1]] [] d); auto. split; auto. Qed.

(** Any run from amplitude 1. *)
Lemma case_run k tc targ t1 evs made t x nit w msg :
  target_of tc = Some targ -> Forall (good_call s1 okx1) evs -> okx1 x ->
  played1 targ tc 0 0 evs made t ->
  exists o o' r g, o_kind o = k /\ o_tc o = Some tc /\ o_stats o <> None /\ used1 o [[1]] /\
    runnable 1 (fun _ => True) None tc targ o /\
    run1 None 0 t1 evs (Returns x nit w msg) o = Ok (o', r) /\
    let b := end_point (rows 1 1) [[1]] made t (Returns x nit w msg) in
    (match last_grad (rows 1 1) None made with
     | None => True
     | Some x => exists G, grad_is (dprop dexp1 s1) s1 x G /\ g = euclid G
     end) /\
    r = match t with
        | Some t => interpret t
        | None => interpret_return k nit w msg
        end (new_result <| r_initial_fid_err := Some (fid_err_of s1 [[1]]) |> <| r_initial_amps := Some [[1]] |>
                          <| r_evo_initial := Some (final_of s1 [[1]]) |>)
          <| r_iter := total is_iter made |> <| r_calls := total is_eval made |> <| r_time := (t1 - 0)%R |>
          <| r_fid_err := Some (fid_err_of s1 b) |> <| r_gradnorm := g |>
          <| r_final_amps := Some b |> <| r_evo_final := Some (final_of s1 b) |>
          <| r_stats := Some (mkOS (match survived made t with 0%nat => first_iter k | k => k end)
                                   (total is_eval made) (total is_grad made)) |>.
Proof.
  intros Ht HE Hx P. destruct have1 as (d & Ed). destruct s1_ok as (W & RO & GR).
  set (o := start1 k tc d). pose proof (start_used k tc d Ed) as U. fold o in U.
  assert (HR : runnable 1 (fun _ => True) None tc targ o) by (constructor; cbn; auto).
  pose proof (grape_coding (A:=ScalarAlg) 1 1 ltac:(lia)) as CD.
  destruct (used_good s1 1 1 W RO dexp1 GR _ _ _ _ _ _ CD o [[1]] U) as [Hg Hl].
  destruct (run_full s1 1 1 W RO dexp1 GR _ _ _ _ _ _ CD o [[1]] None tc targ 0 t1 evs (Returns x nit w msg) Hg Hl HR HE Hx)
    as (made' & t' & P' & Q).
  destruct (played_det _ _ _ _ _ _ _ _ _ _ P _ _ P') as [<- <-].
  exists o. destruct t as [t|]; destruct Q as (o' & r & g & E & _ & _ & _ & _ & _ & _ & Qg & Er); exists o', r, g; cbv zeta in *;
    splits; auto; try (cbn; discriminate); try exact Er.
  all: destruct (last_grad (rows 1 1) None made); auto.
Qed.

Lemma exp1_ge : 2 <= exp 1.
Proof. pose proof (exp_ineq1 1). lra. Qed.
