(** Properties C37-C40: the simple GRAPE functions.

    [amplitude us r j m], [pulse_unitary], [figure], [nudged], [limited] are in
    [Spec/Grapes.v].  [exact_expm]: the routine used for U = H.expm() computes
    the matrix exponential. *)
From Coq Require Import Reals Lra FunctionalExtensionality.
From Coquelicot Require Import Coquelicot.
From Verif.Model Require Import Base Dyn Grape.
From Verif.Lib Require Import Lists Csum Mat MExp MCalc MDiag.
From Verif.Spec Require Import Evolution MatAlg Grapes Qubit.
From Verif.Proofs Require Import MatProps QubitFacts GrapeFacts GrapeMat GrapeComm GrapeLevel GrapeQubit.
Local Open Scope nat_scope.
Set Bullet Behavior "Strict Subproofs".

Definition exact_expm (N : nat) (rt : routines) : Prop := forall x, sized N N x -> r_expm rt x = mexp x.

(** Either of the two functions returned [res]. *)
Definition returns {A : Alg} (one : Op A) (dim : nat) (g : gargs (Op A)) (res : gresult (Op A)) : Prop :=
  grape_unitary one dim g = Ok res \/ cy_grape_unitary one dim g = Ok res.
Lemma returns_run {A : Alg} one dim (g : gargs (Op A)) res : returns one dim g res ->
  exists pen update, updates one dim g pen update /\ grape_run one update g = Ok res.
Proof. intros [H|H]; eexists _, _; split; try apply H; [apply updates_py|apply updates_cy]. Qed.

Lemma copy_rows_fit M rows : forall idx u u', copy_rows M rows idx u = Ok u' -> Forall (fun r => length r = M \/ length r = 1) rows.
Proof.
  induction rows as [|r rows IH]; intros idx u u' H; cbn in H; constructor.
  - apply bind_inv in H as (row & Er & _). destruct (length r =? M) eqn:E; [apply Nat.eqb_eq in E; auto|].
    destruct r as [|x [|]]; try discriminate. auto.
  - apply bind_inv in H as (row & _ & H). apply bind_inv in H as (u1 & _ & H). eauto.
Qed.

(** ** C37: amplitude limits *)
(** For r >= 1 always; the first pulse u[0] only if zero lies in the limits or
    the control has a row in a start pulse given as list of lists.  Missing
    (and false, see C37_start_refuted): u[0] without a start pulse, which is
    zero even if the limits exclude zero. *)
Theorem C37_limits_partial {A : Alg} (one : Op A) (dim : nat) (g : gargs (Op A)) res lo hi r j m x :
  (lo <= hi)%R -> g_limits g = Some [lo; hi] -> returns one dim g res ->
  amplitude (o_u res) r j m = Some x ->
  0 < r \/ (lo <= 0 <= hi)%R \/ (exists rows, g_start g = Some (StartList rows) /\ j < length rows) ->
  (lo <= x <= hi)%R.
Proof.
  intros Hl El HR Hx Hr. apply returns_run in HR as (pen & update & HU & E).
  destruct (run_spec one dim g pen update res HU E) as (eps & lim & u0 & Ee & El' & E0 & HR & L & N0 & F & HJ & dt & Edt & Q).
  rewrite El in El'. injection El' as <-. pose proof (step_M g _ Edt) as HM.
  unfold amplitude in Hx. destruct (nth_error (o_u res) r) as [v|] eqn:Ev; [|discriminate].
  assert (Sv : shape (length (g_H g)) (length (g_times g)) v) by (eapply Forall_forall in F; [exact F|]; eapply nth_error_In; eauto).
  assert (Hjm : j < length (g_H g) /\ m < length (g_times g) /\ x = at2 v j m).
  { unfold entry in Hx. destruct (nth_error v j) as [row|] eqn:Ej; [|discriminate].
    destruct Sv as [Lv Fv]. pose proof (nth_lt _ _ _ Ej). assert (Lr : length row = length (g_times g)) by (eapply Forall_forall in Fv; [exact Fv|]; eapply nth_error_In; eauto).
    pose proof (nth_lt _ _ _ Hx). splits; [lia|lia|]. unfold at2. symmetry. rewrite (nth_error_nth _ _ _ Ej). now apply nth_error_nth. }
  destruct Hjm as (Hj & Hm & ->).
  assert (Cl : forall y, (lo <= clip (Some (lo, hi)) y <= hi)%R).
  { intros y. cbn [clip]. unfold ltR. repeat destruct Rlt_dec; lra. }
  destruct (Nat.eq_dec r 0) as [-> |Hr0].
  - rewrite N0 in Ev. injection Ev as <-. unfold first_pulse in E0.
    destruct (g_start g) as [s|]; [|injection E0 as <-; rewrite zero_at; destruct Hr as [?|[?|(rows & [=] & _)]]; lra || lia].
    apply bind_inv in E0 as (rows & Er & E0). pose proof E0 as E0'. apply (copy_rows_shape (length (g_H g)) (length (g_times g))) in E0 as (_ & Hc); [|apply zero_shape].
    rewrite Hc by auto. rewrite Nat.sub_0_r. cbn [Nat.leb]. pose proof (copy_rows_fit _ _ _ _ _ E0') as Fit. clear Hc.
    assert (Cs : forall y, (lo <= clip_start lo hi y <= hi)%R).
    { intros y. unfold clip_start, ltR. repeat destruct Rlt_dec; lra. }
    assert (All : Forall (Forall (fun y => (lo <= y <= hi)%R)) rows).
    { assert (Map : forall l, Forall (Forall (fun y => (lo <= y <= hi)%R)) (map (map (clip_start lo hi)) l)).
      { intros l. apply Forall_forall. intros row Hrow. apply in_map_iff in Hrow as (r0 & <- & _).
        apply Forall_forall. intros y Hy. apply in_map_iff in Hy as (y0 & <- & _). apply Cs. }
      destruct s as [rs|rs]; cbn [start_truth start_rows bind] in Er.
      - injection Er as <-. destruct rs as [|r0 rs]; cbn [length Nat.eqb negb]; [constructor|apply Map].
      - assert (H0 : (lo <= 0 <= hi)%R) by (destruct Hr as [?|[?|(rows0 & [=] & _)]]; [lia|auto]).
        destruct (concat rs) as [|y [|]] eqn:Ec; [| |discriminate].
        + injection Er as <-. apply Forall_forall. intros row Hrow. apply Forall_forall. intros y Hy.
          assert (Hin : In y (concat rs)) by (apply in_concat; eauto). rewrite Ec in Hin. destruct Hin.
        + injection Er as <-. unfold neqR. destruct (Req_EM_T y 0) as [-> |]; [|apply Map].
          apply Forall_forall. intros row Hrow. apply Forall_forall. intros z Hz.
          assert (Hin : In z (concat rs)) by (apply in_concat; eauto). rewrite Ec in Hin. destruct Hin as [<-|[]]. auto. }
    assert (Hlen : (lo <= 0 <= hi)%R \/ j < length rows).
    { destruct Hr as [?|[?|(rows0 & [= ->] & ?)]]; [lia|auto|]. right.
      cbn [start_truth start_rows bind] in Er. injection Er as <-. destruct (negb _); now rewrite ?map_length. }
    destruct (nth_error rows j) as [row|] eqn:Ej.
    + assert (Hrow : In row rows) by (eapply nth_error_In; eauto).
      eapply Forall_forall in All; [|exact Hrow]. eapply Forall_forall in Fit; [|exact Hrow]. cbv beta in Fit.
      destruct (length row =? length (g_times g)) eqn:EL.
      * apply Nat.eqb_eq in EL. eapply Forall_forall in All; [exact All|]. apply nth_In. lia.
      * apply Nat.eqb_neq in EL. destruct Fit; [lia|]. eapply Forall_forall in All; [exact All|]. apply nth_In. lia.
    + rewrite zero_at. destruct Hlen as [?|Hlen]; [auto|]. apply nth_error_None in Ej. lia.
  - destruct (Q (r - 1)) as (u & v' & fl & Eu & Ev' & (Su & Us & bl & _ & _ & _ & _ & _ & Sv' & Hv) & _).
    { pose proof (nth_lt _ _ _ Ev). lia. }
    replace (r - 1 + 1) with r in Ev' by lia. rewrite Ev in Ev'. injection Ev' as <-. rewrite Hv by auto. apply Cl.
Qed.
Example C37_limits_partial_nonvacuous : exists res,
  returns (A := LAlg) (mid 1) 1 (level (PI / 2) 2 1 (Some (StartList [[5%R]])) (Some [1%R; 2%R]) None None true) res /\
  amplitude (o_u res) 0 0 0 = Some 2%R /\ exists x, amplitude (o_u res) 1 0 0 = Some x /\ (1 <= x <= 2)%R.
Proof.
  set (g := level _ _ _ _ _ _ _ _).
  assert (E0 : first_pulse 1 2 (Some (1%R, 2%R)) (Some (StartList [[5%R]])) = Ok [[2%R; 2%R]]).
  { cbn. unfold clip_start, ltR. repeat destruct Rlt_dec; try lra. reflexivity. }
  destruct (level_run (PI / 2) 2 1 (Some [1%R; 2%R]) None None (Some (StartList [[5%R]])) (le_n 2) _ _ (Some (1%R, 2%R)) _
    (updates_py (A := LAlg) (mid 1) 1 _) eq_refl E0 (py_affine _)) as (res & E & L & N0 & NL & Q).
  exists res. splits; [now left| |].
  - exact (f_equal (fun o => match o with Some u => entry u 0 0 | None => None end) N0).
  - destruct (Q 0 ltac:(lia)) as (u & v & _ & Ev & _ & Hv & _). exists (at2 v 0 0).
    assert (A1 : amplitude (o_u res) 1 0 0 = Some (at2 v 0 0)).
    { refine (eq_trans (f_equal (fun o => match o with Some u => entry u 0 0 | None => None end) Ev) _). cbv beta iota. now rewrite Hv at 1. }
    split; auto.
    apply (C37_limits_partial (A := LAlg) (mid 1) 1 g res 1 2 1 0 0); auto; [lra|now left].
Qed.

(** Limits [1, 2] and no start pulse: the first returned pulse is zero. *)
Theorem C37_start_refuted : exists (g : gargs mat) res,
  matrix_args 1 g /\ g_limits g = Some [1%R; 2%R] /\
  grape_unitary (A := LAlg) (mid 1) 1 g = Ok res /\ amplitude (o_u res) 0 0 0 = Some 0%R.
Proof.
  destruct (level_run (PI / 2) 2 1 (Some [1%R; 2%R]) None None None (le_n 2) _ _ (Some (1%R, 2%R)) (zero_pulse 1 2)
    (updates_py (A := LAlg) (mid 1) 1 _) eq_refl eq_refl (py_affine _)) as (res & E & L & N0 & NL & Q).
  eexists _, res. splits; [apply level_args|reflexivity|exact E|].
  exact (f_equal (fun o => match o with Some u => entry u 0 0 | None => None end) N0).
Qed.

(** With limits, a start pulse given as a numpy array of more than one element
    is always rejected. *)
Theorem C37_array_start_rejected {A : Alg} (one : Op A) (dim : nat) (g : gargs (Op A)) lo hi rows e :
  g_limits g = Some [lo; hi] -> g_start g = Some (StartArray rows) -> 2 <= length (concat rows) -> g_eps g = Some e ->
  grape_unitary one dim g = Raise ValueError /\ cy_grape_unitary one dim g = Raise ValueError.
Proof.
  intros El Es Hc Ee. unfold grape_unitary, cy_grape_unitary, grape_run, step_size. rewrite Ee, El, Es. cbn [bind read_limits first_pulse start_truth].
  destruct (concat rows) as [|x [|y l]]; cbn in Hc; try lia. cbn. auto.
Qed.
Example C37_array_nonvacuous : let g := level (PI / 2) 2 1 (Some (StartArray [[1%R; 1%R]])) (Some [0%R; 2%R]) None None true in
  matrix_args 1 g /\ grape_unitary (A := LAlg) (mid 1) 1 g = Raise ValueError.
Proof.
  split; [apply level_args|]. exact (proj1 (C37_array_start_rejected (A := LAlg) (mid 1) 1 (level _ _ _ _ _ _ _ _) 0%R 2%R [[1%R; 1%R]] 1%R eq_refl eq_refl (le_n 2) eq_refl)).
Qed.

(** ** C38: the returned unitary *)
(** U_f is the evolution of the last but one pulse; H_t is built from the last
    one.  The full property (U_f belongs to u[-1]) fails: C38_last_refuted. *)
Theorem C38_previous_partial N rt (g : gargs mat) res : N <> 0 -> exact_expm N rt -> matrix_args N g ->
  returns (A := MatAlg N rt) (mid N) N g res ->
  exists dt u, dt_is (g_times g) dt /\ 2 <= g_R g /\ length (o_u res) = g_R g /\
    nth_error (o_u res) (g_R g - 2) = Some u /\
    o_Uf res = Some (pulse_unitary N (g_H0 g) (g_H g) dt (length (g_times g)) u) /\
    (g_H g <> [] -> nth_error (o_u res) (g_R g - 1) = Some (o_Ht res)).
Proof.
  intros HN EX MA HR. apply returns_run in HR as (pen & update & HU & E).
  destruct (grape_spec N rt EX g MA pen update res HU HN E)
    as (eps & lim & dt & He & Hdt & El & HR & HM & L & F & H0 & HJ & Q).
  change (g_R (Op := Op (MatAlg N rt)) g) with (g_R (Op := mat) g) in HR, Q.
  destruct (Q (g_R g - 2)) as (u & v & Eu & _ & Hf & _); [lia|].
  exists dt, u. splits; auto.
  intros Hne. apply HJ. intros L0. apply Hne. now apply length_zero_iff_nil.
Qed.
Example C38_previous_nonvacuous : exists res,
  returns (A := LAlg) (mid 1) 1 (level (PI / 2) 3 1 None None None None true) res /\
  exact_expm 1 plain_routines /\ matrix_args 1 (level (PI / 2) 3 1 None None None None true).
Proof.
  destruct (level_run (PI / 2) 3 1 None None None None (le_S _ _ (le_n 2)) _ _ None (zero_pulse 1 2)
    (updates_cy (A := LAlg) (mid 1) 1 _) eq_refl eq_refl (cy_affine _)) as (res & E & _).
  exists res. splits; [now right|intros x _; reflexivity|apply level_args].
Qed.

Theorem C38_last_refuted : exists (g : gargs mat) res u w,
  matrix_args 1 g /\ grape_unitary (A := LAlg) (mid 1) 1 g = Ok res /\
  nth_error (o_u res) (g_R g - 1) = Some u /\ o_Ht res = u /\ o_Uf res = Some w /\
  exists dt, dt_is (g_times g) dt /\ w <> pulse_unitary 1 (g_H0 g) (g_H g) dt (length (g_times g)) u.
Proof.
  destruct (level_run (PI / 2) 2 PI None None None None (le_n 2) _ _ None (zero_pulse 1 2)
    (updates_py (A := LAlg) (mid 1) 1 _) eq_refl eq_refl (py_affine _)) as (res & E & L & N0 & NL & Q).
  destruct (Q 0 ltac:(lia)) as (u & v & Eu & Ev & Hf & Hv & Hval). rewrite N0 in Eu. injection Eu as <-.
  assert (Hvt : o_Ht res = v) by (injection (eq_trans (eq_sym NL) Ev) as H; exact H). subst v. specialize (Hf eq_refl).
  eexists _, res, (o_Ht res), _. splits; [apply level_args|exact E|exact NL|reflexivity|exact Hf|].
  exists (1 - 0)%R. split; [eexists 0%R, 1%R, []; cbn; auto|].
  intros H. change (num (cis (- 0)) = pulse_unitary 1 (num (RtoC 0)) [num (RtoC 1)] (1 - 0) 2 (o_Ht res)) in H.
  rewrite Hv, level_unitary in H. apply num_inj in H. rewrite Hval in H. cbn [clip] in H.
  unfold py_pen in H. rewrite penal_py_Re in H. change (at2 (zero_pulse 1 2) 0 0) with 0%R in H.
  unfold cis in H. injection H as H _. unfold level in H; cbn [penalty g_alpha g_beta Re fst INR] in H.
  rewrite Ropp_0, cos_0, !Rminus_0_r, sin_PI2 in H. rewrite cos_neg in H.
  match type of H with _ = cos ?x => replace x with PI in H by ring end. rewrite cos_PI in H. lra.
Qed.

(** With R <= 1 neither function returns anything. *)
Theorem C38_single_refuted {A : Alg} (one : Op A) (dim : nat) (g : gargs (Op A)) res : g_R g <= 1 -> ~ returns one dim g res.
Proof.
  intros H HR. apply returns_run in HR as (pen & update & HU & E).
  destruct (run_spec one dim g pen update res HU E) as (_ & _ & _ & _ & _ & _ & HR & _). lia.
Qed.
Example C38_single_nonvacuous : grape_unitary (A := LAlg) (mid 1) 1 (level (PI / 2) 1 1 None None None None true) = Raise UnboundLocalError.
Proof. reflexivity. Qed.

(** ** C39: the two implementations *)
Lemma updates_ext {A : Alg} (one : Op A) dim (g : gargs (Op A)) pen pen' update :
  (forall dt m x z, m < length (g_times g) - 1 -> pen dt m x z = pen' dt m x z) ->
  updates one dim g pen update -> updates one dim g pen' update.
Proof.
  intros H HU HM lim dt eps fl bl u Lf Lb Su. destruct (HU HM lim dt eps fl bl u Lf Lb Su) as (v & Ev & Sv & Hv).
  exists v. split; auto. split; auto. intros j m Hj Hm. rewrite Hv by auto. unfold val. rewrite H; auto.
  destruct (m =? _) eqn:E; [lia|]. apply Nat.eqb_neq in E. lia.
Qed.
(** Equal results (pulses, unitary, Hamiltonian, exceptions) when alpha is not
    negative and, if beta is set, the grid has at most three points.  Otherwise
    they differ: C39_beta_refuted and C39_alpha_refuted. *)
Theorem C39_agree_partial {A : Alg} (one : Op A) (dim : nat) (g : gargs (Op A)) :
  (0 <= penalty (g_alpha g))%R -> penalty (g_beta g) = 0%R \/ length (g_times g) <= 3 ->
  grape_unitary one dim g = cy_grape_unitary one dim g.
Proof.
  intros Ha Hb. apply (run_same one dim g (py_pen g)); [apply updates_py|].
  apply (updates_ext one dim g (cy_pen g)); [|apply updates_cy].
  intros dt m x z Hm. unfold cy_pen, py_pen, penal_cy, penal_py. cbv zeta.
  assert (E1 : (if ltR 0 (if truthy (g_alpha g) then value (g_alpha g) else 0%R)
     then (z + RtoC (-2 * (if truthy (g_alpha g) then value (g_alpha g) else 0%R) * x * dt))%C else z)
     = (if truthy (g_alpha g) then (z + RtoC (-2 * value (g_alpha g) * x * dt))%C else z)).
  { unfold truthy, value, penalty, neqR, ltR in *. destruct (g_alpha g) as [a|]; [destruct Req_EM_T|]; repeat destruct Rlt_dec; auto; try lra. }
  rewrite E1. clear E1. generalize (if truthy (g_alpha g) then (z + RtoC (-2 * value (g_alpha g) * x * dt))%C else z). intros w.
  unfold truthy, value, penalty, neqR in *. destruct (g_beta g) as [b|].
  - destruct (Req_EM_T b 0) as [-> |Hb0].
    + destruct (Req_EM_T 0 0); auto; lra.
    + destruct (Req_EM_T b 0); [lra|]. destruct Hb as [?|Hb]; [lra|]. do 3 f_equal.
      destruct m as [|[|m]]; [cbn [INR]; ring|cbn [INR]; ring|lia].
  - destruct (Req_EM_T 0 0); auto; lra.
Qed.
Example C39_agree_nonvacuous : exists res,
  grape_unitary (A := LAlg) (mid 1) 1 (level (PI / 2) 3 1 None None (Some 1%R) (Some 2%R) true) = Ok res /\
  cy_grape_unitary (A := LAlg) (mid 1) 1 (level (PI / 2) 3 1 None None (Some 1%R) (Some 2%R) true) = Ok res.
Proof.
  destruct (level_run (PI / 2) 3 1 None (Some 1%R) (Some 2%R) None (le_S _ _ (le_n 2)) _ _ None (zero_pulse 1 2)
    (updates_cy (A := LAlg) (mid 1) 1 _) eq_refl eq_refl (cy_affine _)) as (res & E & _).
  exists res. split; [|exact E]. refine (eq_trans (C39_agree_partial (A := LAlg) _ _ _ _ _) E); cbn; [lra|auto].
Qed.

(** Start pulse [1; 1; 1; 1] of a control without effect: beta = 1 moves the
    third amplitude to -3 in python and to -7 in Cython; alpha = -1 moves the
    first to 3 in python and leaves it in Cython. *)
Theorem C39_beta_refuted : exists (g : gargs mat) res1 res2, matrix_args 1 g /\ g_beta g = Some 1%R /\
  grape_unitary (A := LAlg) (mid 1) 1 g = Ok res1 /\ cy_grape_unitary (A := LAlg) (mid 1) 1 g = Ok res2 /\
  amplitude (o_u res1) 1 0 2 = Some (-3)%R /\ amplitude (o_u res2) 1 0 2 = Some (-7)%R.
Proof.
  destruct (idle_run _ _ [1;1;1;1]%R None (Some 1%R) eq_refl (updates_py (A := LAlg) (mid 1) 1 _) (py_affine _)) as (r1 & E1 & v1 & Ev1 & H1).
  destruct (idle_run _ _ [1;1;1;1]%R None (Some 1%R) eq_refl (updates_cy (A := LAlg) (mid 1) 1 _) (cy_affine _)) as (r2 & E2 & v2 & Ev2 & H2).
  eexists _, r1, r2. splits; [apply idle_args|reflexivity|exact E1|exact E2| |].
  - refine (eq_trans (f_equal (fun o => match o with Some u => entry u 0 2 | None => None end) Ev1) _). cbv beta iota.
    rewrite H1 by lia. f_equal. unfold py_pen. rewrite penal_py_Re. unfold idle; cbn [g_alpha g_beta penalty nth Re fst RtoC INR]. ring.
  - refine (eq_trans (f_equal (fun o => match o with Some u => entry u 0 2 | None => None end) Ev2) _). cbv beta iota.
    rewrite H2 by lia. f_equal. unfold cy_pen. rewrite penal_cy_Re. unfold idle; cbn [g_alpha g_beta penalty nth Re fst RtoC INR].
    rewrite Rmax_left by lra. ring.
Qed.
Theorem C39_alpha_refuted : exists (g : gargs mat) res1 res2, matrix_args 1 g /\ g_alpha g = Some (-1)%R /\
  grape_unitary (A := LAlg) (mid 1) 1 g = Ok res1 /\ cy_grape_unitary (A := LAlg) (mid 1) 1 g = Ok res2 /\
  amplitude (o_u res1) 1 0 0 = Some 3%R /\ amplitude (o_u res2) 1 0 0 = Some 1%R.
Proof.
  destruct (idle_run _ _ [1;1;1;1]%R (Some (-1)%R) None eq_refl (updates_py (A := LAlg) (mid 1) 1 _) (py_affine _)) as (r1 & E1 & v1 & Ev1 & H1).
  destruct (idle_run _ _ [1;1;1;1]%R (Some (-1)%R) None eq_refl (updates_cy (A := LAlg) (mid 1) 1 _) (cy_affine _)) as (r2 & E2 & v2 & Ev2 & H2).
  eexists _, r1, r2. splits; [apply idle_args|reflexivity|exact E1|exact E2| |].
  - refine (eq_trans (f_equal (fun o => match o with Some u => entry u 0 0 | None => None end) Ev1) _). cbv beta iota.
    rewrite H1 by lia. f_equal. unfold py_pen. rewrite penal_py_Re. unfold idle; cbn [g_alpha g_beta penalty nth Re fst RtoC INR]. ring.
  - refine (eq_trans (f_equal (fun o => match o with Some u => entry u 0 0 | None => None end) Ev2) _). cbv beta iota.
    rewrite H2 by lia. f_equal. unfold cy_pen. rewrite penal_cy_Re. unfold idle; cbn [g_alpha g_beta penalty nth Re fst RtoC INR].
    rewrite Rmax_left by lra. ring.
Qed.

(** ** C40: products and update direction *)
(** With use_interp the slots are those of the run without it on the pulse
    whose values are the interpolant's at the grid times; the value the
    interpolant takes outside the grid is the control's last one. *)
Theorem C40_interpolated {A : Alg} (g : gargs (Op A)) ip dt u :
  g_interp g = Some ip -> Forall (fun row => length row = length (g_times g)) u -> g_times g <> [] ->
  slot_unitaries g (length (g_times g)) dt u =
  slot_unitaries (mkArgs (g_U g) (g_H0 g) (g_H g) (g_R g) (g_times g) (g_eps g) (g_start g) (g_limits g) None (g_alpha g) (g_beta g) (g_ps g))
    (length (g_times g)) dt (map (fun row => map (ip (g_times g) row (last row 0%R)) (g_times g)) u).
Proof.
  intros EI F NT. set (M := length (g_times g)). unfold slot_unitaries. cbn [g_H0 g_H].
  assert (X : forall idx, In idx (range (M - 1)) ->
    map_res (fun row => amp_at g row idx) u =
    map_res (fun row => amp_at (mkArgs (g_U g) (g_H0 g) (g_H g) (g_R g) (g_times g) (g_eps g) (g_start g) (g_limits g) None (g_alpha g) (g_beta g) (g_ps g)) row idx)
      (map (fun row => map (ip (g_times g) row (last row 0%R)) (g_times g)) u)).
  { intros idx I. assert (Hi : idx < M) by (unfold range in I; apply in_seq in I; lia).
    induction F as [|row u L F IH]; [reflexivity|]. cbn [map map_res]. rewrite IH.
    assert (Y : amp_at g row idx = Ok (ip (g_times g) row (last row 0%R) (nth idx (g_times g) 0%R))).
    { unfold amp_at. rewrite EI. rewrite (get_ok (g_times g) idx (nth idx (g_times g) 0%R)) by (apply nth_of; exact Hi). cbn [bind].
      rewrite (get_ok row (length row - 1) (last row 0%R)); [reflexivity|].
      assert (P : row <> []) by (intros ->; cbn in L; destruct (g_times g); [now apply NT|discriminate]).
      rewrite (app_removelast_last 0%R P) at 1 2. rewrite app_length, nth_error_app2 by (cbn; lia). cbn [length].
      now replace (length (removelast row) + 1 - 1 - length (removelast row)) with 0 by lia. }
    rewrite Y. match goal with |- _ = (cs <- ?m;; _) => assert (Z : m = Ok (ip (g_times g) row (last row 0%R) (nth idx (g_times g) 0%R))) end.
    { apply get_ok. rewrite nth_error_map. unfold M in Hi. now rewrite (nth_of (g_times g) idx 0%R) by exact Hi. }
    now rewrite Z. }
  revert X. generalize (range (M - 1)). intros l X. induction l as [|i l IH]; [reflexivity|].
  cbn [map_res]. rewrite X by now left. rewrite IH; [reflexivity|]. intros; apply X; now right.
Qed.

Example C40_interpolated_case :
  let g := mkArgs (mid 1) (mid 1) [mid 1] 2 [0%R; 1%R; 2%R] None None None (Some (fun _ _ fill t => (fill + t)%R)) None None true in
  exists ip, g_interp g = Some ip /\ Forall (fun row : list R => length row = length (g_times g)) [[3%R; 4%R; 5%R]] /\ g_times g <> [] /\
    map (ip (g_times g) [3%R; 4%R; 5%R] (last [3%R; 4%R; 5%R] 0%R)) (g_times g) = [(5 + 0)%R; (5 + 1)%R; (5 + 2)%R].
Proof. eexists. split; [reflexivity|]. split; [repeat constructor|]. split; [discriminate|reflexivity]. Qed.

(** The lists of an iteration: forward products U_m ... U_0, and the adjoint of
    U_{M-2} ... U_{m+1}. *)
Theorem C40_lists N rt (g : gargs mat) dt u : exact_expm N rt -> matrix_args N g -> 2 <= length (g_times g) ->
  shape (length (g_H g)) (length (g_times g)) u ->
  let M := length (g_times g) in
  let f := slot_propagator N (g_H0 g) (g_H g) dt u in
  exists Us fl bl, slot_unitaries (A := MatAlg N rt) g M dt u = Ok Us /\
    fb_lists (A := MatAlg N rt) (mid N) M Us = Ok (fl, bl) /\
    forall m, m < M - 1 -> nth_error Us m = Some (f m) /\
      nth_error fl m = Some (ordered N f 0 (S m)) /\ nth_error bl m = Some (mdag (ordered N f (S m) (M - 2 - m))).
Proof.
  intros EX MA HM Su M f. pose proof (slots_ok N rt EX g MA dt u Su) as Es.
  destruct (fb_ok (A := MatAlg N rt) (mid N) M _ (slots_length (A := MatAlg N rt) g _ _ _ _ Es)) as (fl & bl & Ef & Lf & Lb & Hfb).
  eexists _, fl, bl. splits; [exact Es|exact Ef|]. intros m Hm. destruct (Hfb m Hm) as (F1 & F2). splits.
  - rewrite nth_error_map, range_nth by exact Hm. reflexivity.
  - rewrite (nth_of fl m (mid N)) by lia. f_equal. refine (eq_trans F1 _). apply fprod_is. change (S m <= M - 1). lia.
  - rewrite (nth_of bl m (mid N)) by lia. f_equal. refine (eq_trans F2 _). refine (eq_trans (bprod_is N rt g MA dt u (M - 2 - m) _ HM) _); [change (M - 2 - m <= M - 1); lia|].
    change (mdag (ordered N f (M - 1 - (M - 2 - m)) (M - 2 - m)) = mdag (ordered N f (S m) (M - 2 - m))). do 2 f_equal. lia.
Qed.
Example C40_lists_nonvacuous : let g := level (PI / 2) 2 1 None None None None true in
  exact_expm 1 plain_routines /\ matrix_args 1 g /\ 2 <= length (g_times g) /\ shape (length (g_H g)) (length (g_times g)) [[1%R; 2%R]].
Proof. cbv zeta. splits; [intros x _; reflexivity|apply level_args|cbn; auto|split; cbn; auto]. Qed.

(** Every iteration: the amplitude of control j in slot m moves by eps times
    the derivative of the figure of merit when a short extra pulse of control
    j is added after slot m, less the penalty terms, and is then moved into
    the limits; the last column repeats the one before. *)
Definition moves_by (pa pb : option R -> R) (w : nat -> R) (N : nat) (g : gargs mat) (res : gresult mat) : Prop :=
  exists eps dt, step_is (g_eps g) (g_times g) eps /\ dt_is (g_times g) dt /\
  forall r j m h, r + 1 < g_R g -> m < length (g_times g) - 1 -> nth_error (g_H g) j = Some h ->
    exists u x d, nth_error (o_u res) r = Some u /\ amplitude (o_u res) r j m = Some x /\
      is_derive (fun s => figure N (g_ps g) (g_U g) (nudged N (g_H0 g) (g_H g) dt (length (g_times g)) u m h s)) 0%R d /\
      amplitude (o_u res) (r + 1) j m
      = Some (limited (g_limits g) (x + eps * (d - 2 * pa (g_alpha g) * x * dt - 2 * pb (g_beta g) * w m * x * dt))%R) /\
      amplitude (o_u res) (r + 1) j (length (g_times g) - 1) = amplitude (o_u res) (r + 1) j (length (g_times g) - 2).
Definition limits_ordered (g : gargs mat) : Prop := forall lo hi, g_limits g = Some [lo; hi] -> (lo <= hi)%R.

Lemma moves pa pb w N rt (g : gargs mat) pen update (res : gresult mat) : N <> 0 -> exact_expm N rt -> matrix_args N g -> limits_ordered g ->
  updates (A := MatAlg N rt) (mid N) N g pen update -> grape_run (A := MatAlg N rt) (mid N) update g = Ok res ->
  (forall dt m x z, Re (pen dt m x z) = (Re z - 2 * pa (g_alpha g) * x * dt - 2 * pb (g_beta g) * w m * x * dt)%R) ->
  moves_by pa pb w N g res.
Proof.
  intros HN EX MA HL HU E Hpen.
  destruct (grape_spec N rt EX g MA pen update res HU HN E)
    as (eps & lim & dt & He & Hdt & El & HR & HM & L & F & H0 & HJ & Q).
  exists eps, dt. splits; auto. intros r j m h Hr Hm Eh.
  change (g_R (Op := Op (MatAlg N rt)) g) with (g_R (Op := mat) g) in HR, Q.
  destruct (Q r) as (u & v & Eu & Ev & _ & Hv); [lia|]. pose proof (nth_lt _ _ _ Eh) as Hj. destruct (Hv j Hj) as (Hlast & Hv').
  destruct (Hv' m h Eh Hm) as (z & Dz & Hz).
  assert (Su : shape (length (g_H g)) (length (g_times g)) u) by (eapply Forall_forall in F; [exact F|]; eapply nth_error_In; eauto).
  assert (Sv : shape (length (g_H g)) (length (g_times g)) v) by (eapply Forall_forall in F; [exact F|]; eapply nth_error_In; eauto).
  assert (AM : forall r u k, nth_error (o_u res) r = Some u -> amplitude (o_u res) r j k = entry u j k).
  { intros r' u' k Hu. exact (f_equal (fun o => match o with Some u => entry u j k | None => None end) Hu). }
  exists u, (at2 u j m), (Re z). splits; auto.
  - rewrite (AM r u m Eu). apply (entry_at (length (g_H g)) (length (g_times g))); auto. lia.
  - rewrite (AM (r + 1) v m Ev), (entry_at (length (g_H g)) (length (g_times g))); auto; [|lia]. f_equal.
    refine (eq_trans Hz _). refine (eq_trans (clip_is (g_limits g) lim _ El HL) _). now rewrite Hpen.
  - rewrite !(AM (r + 1) v _ Ev), !(entry_at (length (g_H g)) (length (g_times g))); auto; try (change (length (g_times (Op := mat) g)) with (length (g_times (Op := Op (MatAlg N rt)) g)); lia).
    f_equal. exact Hlast.
Qed.
Theorem C40_python N rt (g : gargs mat) res : N <> 0 -> exact_expm N rt -> matrix_args N g -> limits_ordered g ->
  grape_unitary (A := MatAlg N rt) (mid N) N g = Ok res ->
  moves_by penalty penalty INR N g res.
Proof.
  intros HN EX MA HL E. apply (moves penalty penalty INR N rt g _ _ res HN EX MA HL (updates_py _ _ _) E).
  intros. unfold py_pen. apply penal_py_Re.
Qed.
(** The Cython version: negative alpha counts as 0, the weight is m^2. *)
Theorem C40_cython N rt (g : gargs mat) res : N <> 0 -> exact_expm N rt -> matrix_args N g -> limits_ordered g ->
  cy_grape_unitary (A := MatAlg N rt) (mid N) N g = Ok res ->
  moves_by (fun a => Rmax 0 (penalty a)) penalty (fun m => (INR m ^ 2)%R) N g res.
Proof.
  intros HN EX MA HL E. apply (moves _ penalty (fun m => (INR m ^ 2)%R) N rt g _ _ res HN EX MA HL (updates_cy _ _ _) E).
  intros. unfold cy_pen. apply penal_cy_Re.
Qed.
Example C40_nonvacuous : exists res1 res2, let g := level (PI / 2) 3 1 None (Some [0%R; 1%R]) (Some 1%R) None true in
  grape_unitary (A := LAlg) (mid 1) 1 g = Ok res1 /\ cy_grape_unitary (A := LAlg) (mid 1) 1 g = Ok res2 /\
  exact_expm 1 plain_routines /\ matrix_args 1 g /\ limits_ordered g.
Proof.
  destruct (level_run (PI / 2) 3 1 (Some [0%R; 1%R]) (Some 1%R) None None (le_S _ _ (le_n 2)) _ _ (Some (0%R, 1%R)) (zero_pulse 1 2)
    (updates_py (A := LAlg) (mid 1) 1 _) eq_refl eq_refl (py_affine _)) as (res1 & E1 & _).
  destruct (level_run (PI / 2) 3 1 (Some [0%R; 1%R]) (Some 1%R) None None (le_S _ _ (le_n 2)) _ _ (Some (0%R, 1%R)) (zero_pulse 1 2)
    (updates_cy (A := LAlg) (mid 1) 1 _) eq_refl eq_refl (cy_affine _)) as (res2 & E2 & _).
  exists res1, res2. cbv zeta. splits; auto; [intros x _; reflexivity|apply level_args|]. intros lo hi [= <- <-]. lra.
Qed.

(** If the control commutes with the Hamiltonian of the slot, the extra pulse
    is a change of the amplitude, so the direction is the gradient of the
    figure of merit of the pulse itself. *)
Theorem C40_gradient_partial N rt (g : gargs mat) res r j m h u d dt : N <> 0 -> exact_expm N rt -> matrix_args N g ->
  returns (A := MatAlg N rt) (mid N) N g res -> dt_is (g_times g) dt ->
  nth_error (o_u res) r = Some u -> m < length (g_times g) - 1 -> nth_error (g_H g) j = Some h ->
  mmul h (madd (g_H0 g) (control_part N u (g_H g) m)) = mmul (madd (g_H0 g) (control_part N u (g_H g) m)) h ->
  is_derive (fun s => figure N (g_ps g) (g_U g) (nudged N (g_H0 g) (g_H g) dt (length (g_times g)) u m h s)) 0%R d <->
  is_derive (fun s => figure N (g_ps g) (g_U g) (pulse_unitary N (g_H0 g) (g_H g) dt (length (g_times g))
                        (with_entry u j m (at2 u j m + s)%R))) 0%R d.
Proof.
  intros HN EX MA HR Hdt Eu Hm Eh HC. apply returns_run in HR as (pen & update & HU & E).
  destruct (grape_spec N rt EX g MA pen update res HU HN E) as (eps & lim & dt' & He & _ & El & HR & HM & L & F & _).
  assert (Su : shape (length (g_H g)) (length (g_times g)) u) by (eapply Forall_forall in F; [exact F|]; eapply nth_error_In; eauto).
  assert (X : forall s, nudged N (g_H0 g) (g_H g) dt (length (g_times g)) u m h s
     = pulse_unitary N (g_H0 g) (g_H g) dt (length (g_times g)) (with_entry u j m (at2 u j m + s)%R)).
  { intros s. apply (nudged_is N _ _ dt (length (g_H g))); auto; try apply MA. now apply (nth_lt _ _ _ Eh). }
  split; intros D; (eapply is_derive_ext; [|exact D]); intros s; cbv beta; now rewrite X.
Qed.
Example C40_gradient_nonvacuous : exists res u, let g := level (PI / 2) 3 1 None None None None true in
  returns (A := LAlg) (mid 1) 1 g res /\ nth_error (o_u res) 1 = Some u /\ nth_error (g_H g) 0 = Some (num (RtoC 1)) /\
  mmul (num (RtoC 1)) (madd (g_H0 g) (control_part 1 u (g_H g) 0)) = mmul (madd (g_H0 g) (control_part 1 u (g_H g) 0)) (num (RtoC 1)).
Proof.
  destruct (level_run (PI / 2) 3 1 None None None None (le_S _ _ (le_n 2)) _ _ None (zero_pulse 1 2)
    (updates_py (A := LAlg) (mid 1) 1 _) eq_refl eq_refl (py_affine _)) as (res & E & L & _ & _ & Q).
  destruct (Q 0 ltac:(lia)) as (_ & v & _ & Ev & _ & Hv & _).
  exists res, v. cbv zeta. splits; [now left|exact Ev|reflexivity|]. rewrite Hv.
  unfold level, control_part. cbn [g_H0 g_H combine fold_right nth]. rewrite num_scal, num_zero, !num_add, !num_mul. f_equal. ring.
Qed.

(** In general it is not: for H = sigma_z + u sigma_x, one slot of length pi/2
    and target exp(-i pi/2 sigma_x), the gradient at u = 0 is 1, but the
    function stays at 0 whatever the step size and number of iterations. *)
Theorem C40_gradient_refuted n eps : 2 <= n ->
  exists (g : gargs mat) res, matrix_args 2 g /\ hermitian (g_H0 g) /\ Forall hermitian (g_H g) /\ unitary 2 (g_U g) /\
    g_R g = n /\ g_eps g = Some eps /\
    grape_unitary (A := MatAlg 2 plain_routines) (mid 2) 2 g = Ok res /\
    (forall r, r < n -> amplitude (o_u res) r 0 0 = Some 0%R) /\
    exists dt, dt_is (g_times g) dt /\
    is_derive (fun s => figure 2 (g_ps g) (g_U g) (pulse_unitary 2 (g_H0 g) (g_H g) dt 2 [[s; s]])) 0%R 1%R.
Proof.
  intros Hn. destruct (stuck_run n eps Hn) as (res & E & H0).
  exists (stuck n eps), res. splits; auto using stuck_args; try apply sigma_z_herm.
  - constructor; auto. apply sigma_x_herm.
  - apply mat2_unitary; unfold flip_target; rewrite mat2_dag, mat2_mul, mat2_id; apply mat2_inj; apply C_eq; cbn; ring.
  - exists (PI / 2)%R. split; [|apply true_slope]. eexists 0%R, (PI / 2)%R, []. cbn. split; auto. ring.
Qed.

(** Assumptions of all theorems of this file together (listed one by one in
    ASSUMPTIONS.txt). *)
Definition propsGrape :=
  (@C37_limits_partial,
   @C37_start_refuted,
   @C37_array_start_rejected,
   @C38_previous_partial,
   @C38_last_refuted,
   @C38_single_refuted,
   @C39_agree_partial,
   @C39_beta_refuted,
   @C39_alpha_refuted,
   @C40_interpolated,
   @C40_lists,
   @C40_python,
   @C40_cython,
   @C40_gradient_partial,
   @C40_gradient_refuted).
Print Assumptions propsGrape.
