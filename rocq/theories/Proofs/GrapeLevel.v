(** A one-level system for concrete GRAPE runs: H = u, target exp(-i theta),
    two grid points, so one slot of length 1. *)
From Coq Require Import Reals Lra.
From Coquelicot Require Import Coquelicot.
From Verif.Model Require Import Base Dyn Grape.
From Verif.Lib Require Import Lists Csum Mat MExp MCalc MDiag.
From Verif.Spec Require Import Evolution MatAlg Grapes.
From Verif.Proofs Require Import MatProps QubitFacts GrapeFacts GrapeMat.
Local Open Scope nat_scope.
Set Bullet Behavior "Strict Subproofs".

Definition plain_routines : routines := {| r_expm := mexp; r_frechet := fun x e => (mexp x, mdexp x e); r_eigh := fun x => (fun _ => 0%R, x); r_inv := fun x => x |}.
Definition LAlg := MatAlg 1 plain_routines.

Definition num (z : C) : mat := mdiag 1 (fun _ => z).
Definition cis (t : R) : C := (cos t, sin t).
Definition level (theta : R) (n : nat) (eps : R) (st : option start) (lim : option (list R)) (al be : option R) (ps : bool) : gargs mat :=
  mkArgs (num (cis (- theta))) (num (RtoC 0)) [num (RtoC 1)] n [0%R; 1%R] (Some eps) st lim None al be ps.

Lemma num_sized z : sized 1 1 (num z). Proof. apply mdiag_sized. Qed.
Lemma num_proper z : proper (num z). Proof. apply proper_diag. Qed.
Lemma num_matrix z : matrix 1 1 (num z). Proof. split; [apply num_sized|apply num_proper]. Qed.
Lemma num_ext x : matrix 1 1 x -> x = num (ent x 0 0).
Proof.
  intros [Sx Px]. apply (mat_ext 1 1); auto using num_sized, num_proper.
  intros i j Hi Hj. unfold num. rewrite mdiag_ent by auto. destruct i, j; try lia. auto.
Qed.
Lemma num_mul a b : mmul (num a) (num b) = num (a * b)%C.
Proof.
  rewrite (num_ext (mmul (num a) (num b))) by (split; [apply (mmul_sized 1 1 1); apply num_sized|apply proper_mul]).
  f_equal. rewrite (mmul_ent 1 1 1) by (auto; apply num_sized). unfold num. cbn [csum]. rewrite !mdiag_ent by auto. cbn [Nat.eqb]. ring.
Qed.
Lemma num_dag a : mdag (num a) = num (Cconj a).
Proof.
  rewrite (num_ext (mdag (num a))) by (split; [apply mdag_sized; apply num_sized|apply proper_dag]).
  f_equal. Qed.
Lemma num_scal c a : mscal c (num a) = num (c * a)%C.
Proof.
  rewrite (num_ext (mscal c (num a))) by (split; [apply mscal_sized; apply num_sized|apply proper_scal]).
  f_equal. Qed.
Lemma num_add a b : madd (num a) (num b) = num (a + b)%C.
Proof.
  rewrite (num_ext (madd (num a) (num b))) by (split; [apply madd_sized; apply num_sized|apply proper_add]).
  f_equal. Qed.
Lemma num_tr a : mtr (num a) = a.
Proof. unfold mtr, num. cbn. ring. Qed.
Lemma num_one : mid 1 = num (RtoC 1).
Proof. apply tab_ext. intros i j _ _. reflexivity. Qed.
Lemma num_zero : mzero 1 1 = num (RtoC 0).
Proof. apply tab_ext. intros i j _ _. destruct (i =? j); reflexivity. Qed.
Lemma num_exp t : mexp (num (0, t)%R) = num (cis t).
Proof. unfold num. rewrite mexp_diag, cexpS_imag. reflexivity. Qed.
Lemma num_inj a b : num a = num b -> a = b.
Proof. intros H. rewrite <- (num_tr a), <- (num_tr b). now rewrite H. Qed.

Lemma level_args theta n eps st lim al be ps : matrix_args 1 (level theta n eps st lim al be ps).
Proof. constructor; cbn; auto using num_matrix. Qed.
Lemma level_expm x : sized 1 1 x -> r_expm plain_routines x = mexp x. Proof. auto. Qed.

Lemma level_slot dt a b : slot_propagator 1 (num (RtoC 0)) [num (RtoC 1)] dt [[a; b]] 0 = num (cis (- (dt * a))).
Proof.
  unfold slot_propagator, control_part. cbn [combine fold_right nth]. rewrite num_zero, num_scal, !num_add, num_scal, <- num_exp.
  do 2 f_equal. apply C_eq; cbn; ring.
Qed.
Lemma level_unitary dt a b : pulse_unitary 1 (num (RtoC 0)) [num (RtoC 1)] dt 2 [[a; b]] = num (cis (- (dt * a))).
Proof.
  unfold pulse_unitary. cbn [Nat.sub ordered Nat.add]. rewrite level_slot, num_one, num_mul. f_equal. apply C_eq; cbn; ring.
Qed.

(** The direction at amplitude [a]. *)
Lemma level_direction theta a : direction (A := LAlg) 1 true (num (cis (- theta))) (num (RtoC 1)) 1
    (num (cis (- a))) (num (RtoC 1)) = (sin (theta - a), - cos (theta - a))%R.
Proof.
  unfold direction, goverlap. cbn [omul oscale odag otr MatAlg LAlg].
  rewrite !num_mul, num_scal, num_dag, !num_mul, num_tr. cbn [INR].
  rewrite sin_minus, cos_minus. unfold cis. rewrite !cos_neg, !sin_neg.
  apply C_eq; unfold Cdiv, Cinv, Copp, Cmult, Cconj, RtoC, Ci, Re, Im; cbn [fst snd]; field.
Qed.

(** ** Runs exist *)
Section Total.
Context (N : nat) (rt : routines).
Hypothesis EX : forall x, sized N N x -> r_expm rt x = mexp x.
Notation A := (MatAlg N rt).
Context (g : gargs (Op A)).
Hypothesis MA : matrix_args N g.
Lemma mat_total pen update eps lim u0 dt : updates (A := A) (mid N) N g pen update ->
  step_size (A := A) g = Ok eps -> read_limits (g_limits g) = Ok lim ->
  first_pulse (length (g_H g)) (length (g_times g)) lim (g_start g) = Ok u0 ->
  time_step (A := A) g = Ok dt -> 2 <= g_R g ->
  exists res, grape_run (A := A) (mid N) update g = Ok res.
Proof.
  intros. eapply run_total; eauto. intros u Su. eexists. apply (slots_ok N rt EX g MA); auto.
Qed.
End Total.

(** The level system. *)
Lemma level_nudged theta n eps st lim al be ps a b s :
  nudged 1 (g_H0 (level theta n eps st lim al be ps)) (g_H (level theta n eps st lim al be ps)) 1 2 [[a; b]] 0 (num (RtoC 1)) s
  = num (cis (- (a + s))).
Proof.
  unfold nudged. cbn [g_H0 g_H level ordered Nat.sub Nat.add]. rewrite level_slot, !num_scal, num_one.
  replace (RtoC s * (RtoC 1 * - Ci * RtoC 1))%C with (0, -s)%R by (apply C_eq; cbn; ring).
  rewrite num_exp, !num_mul. f_equal. unfold cis. rewrite !cos_neg, !sin_neg, cos_plus, sin_plus.
  apply C_eq; cbn; rewrite ?cos_neg, ?sin_neg, ?Rmult_1_l; ring.
Qed.
Lemma level_derives theta a x : is_derive (fun s => figure 1 true (num (cis (- theta))) (num (cis (- (a + s))))) 0%R x -> x = sin (theta - a).
Proof.
  intros H. apply is_derive_unique in H. rewrite <- H. apply is_derive_unique.
  apply (is_derive_ext (fun s => cos (theta - a - s))).
  { intros s. unfold figure, trace_overlap. rewrite num_dag, num_mul, num_tr. cbn [INR]. unfold cis. rewrite !cos_neg, !sin_neg.
    replace (theta - a - s)%R with (theta - (a + s))%R by ring. rewrite cos_minus.
    unfold Cdiv, Cinv, Cmult, Cconj, RtoC, Re; cbn [fst snd]. match goal with |- ?x = ?y => change (@eq R x y) end. field. }
  auto_derive; auto. replace (theta - a + - 0)%R with (theta - a)%R by ring. ring.
Qed.

Section Level.
Context (theta : R) (n : nat) (eps : R) (lim : option (list R)) (al be : option R) (st : option start).
Hypothesis Hn : 2 <= n.
Notation g := (level theta n eps st lim al be true).
Lemma pulse2 u : shape 1 2 u -> u = [[at2 u 0 0; at2 u 0 1]].
Proof.
  intros [L F]. destruct u as [|r [|]]; try discriminate. inversion F; subst. destruct r as [|a [|b [|]]]; try discriminate. reflexivity.
Qed.
Lemma level_run pen update lm u0 : updates (A := LAlg) (mid 1) 1 g pen update ->
  read_limits lim = Ok lm -> first_pulse 1 2 lm st = Ok u0 ->
  (forall dt m x z, exists c, forall z', Re (pen dt m x z') = (Re z' + c)%R /\ c = (Re (pen dt m x z) - Re z)%R) ->
  exists res, grape_run (A := LAlg) (mid 1) update g = Ok res /\ length (o_u res) = n /\
    nth_error (o_u res) 0 = Some u0 /\ nth_error (o_u res) (n - 1) = Some (o_Ht res) /\
    forall r, r < n - 1 -> exists u v, nth_error (o_u res) r = Some u /\ nth_error (o_u res) (r + 1) = Some v /\
      (r = n - 2 -> o_Uf res = Some (num (cis (- (at2 u 0 0))))) /\
      v = [[at2 v 0 0; at2 v 0 0]] /\
      at2 v 0 0 = clip lm (at2 u 0 0 + eps * Re (pen 1%R 0%nat (at2 u 0 0) (sin (theta - at2 u 0 0), 0%R)))%R.
Proof.
  intros HU El E0 Hpen.
  destruct (mat_total 1 plain_routines level_expm g (level_args _ _ _ _ _ _ _ _) pen update eps lm u0 (1 - 0)%R HU eq_refl El E0 eq_refl Hn) as (res & E).
  exists res. split; auto.
  destruct (grape_spec 1 plain_routines level_expm g (level_args _ _ _ _ _ _ _ _) pen update res HU ltac:(lia) E)
    as (eps' & lim' & dt & He & (t0 & t1 & l & Et & Hdt) & El' & HR & HM & L & F & (u0' & N0 & E0') & HJ & Q).
  cbn [g_times level] in Et. injection Et as <- <- <-. cbn in He. subst eps'. rewrite Rminus_0_r in Hdt. subst dt.
  change (g_limits g) with lim in El'. assert (lim' = lm) by congruence. subst lim'.
  change (first_pulse 1 2 lm st = Ok u0') in E0'. rewrite E0 in E0'. injection E0' as <-.
  splits; auto. { apply HJ. cbn. lia. }
  intros r Hr. destruct (Q r Hr) as (u & v & Eu & Ev & Hf & Hv). exists u, v.
  assert (Su : shape 1 2 u) by (eapply Forall_forall in F; [exact F|]; eapply nth_error_In; eauto).
  assert (Sv : shape 1 2 v) by (eapply Forall_forall in F; [exact F|]; eapply nth_error_In; eauto).
  specialize (Hv 0 ltac:(cbn; lia)). destruct Hv as (Hlast & Hv).
  specialize (Hv 0 (num (RtoC 1)) eq_refl ltac:(cbn; lia)). destruct Hv as (z & Dz & Hv).
  splits; auto.
  - intros Er. refine (eq_trans (Hf Er) _). f_equal. rewrite (pulse2 u Su) at 1.
    refine (eq_trans (level_unitary 1 (at2 u 0 0) (at2 u 0 1)) _). now rewrite Rmult_1_l.
  - rewrite (pulse2 v Sv) at 1. change (at2 v 0 1 = at2 v 0 0) in Hlast. now rewrite Hlast.
  - rewrite Hv. f_equal. f_equal. f_equal.
    destruct (Hpen 1%R 0 (at2 u 0 0) z) as (c & Hc). destruct (Hc z) as (-> & _). destruct (Hc (sin (theta - at2 u 0 0), 0%R)) as (-> & _).
    f_equal.
    apply (level_derives theta (at2 u 0 0)).
    eapply is_derive_ext; [|exact Dz]. intros s. cbv beta. f_equal.
    refine (eq_trans (f_equal (fun w => nudged 1 _ _ 1 2 w 0 (num (RtoC 1)) s) (pulse2 u Su)) _). apply level_nudged.
Qed.
Lemma py_affine (g : gargs mat) : forall dt m x z, exists c, forall z', Re (py_pen (A := LAlg) g dt m x z') = (Re z' + c)%R /\ c = (Re (py_pen (A := LAlg) g dt m x z) - Re z)%R.
Proof. intros. eexists. intros z'. unfold py_pen. rewrite !penal_py_Re. split; [unfold Rminus; rewrite !Rplus_assoc; reflexivity|ring]. Qed.
End Level.

(** A system in which the control does nothing: H = 0, three slots. *)
Definition idle (n : nat) (row : list R) (al be : option R) : gargs mat :=
  mkArgs (num (RtoC 1)) (num (RtoC 0)) [num (RtoC 0)] n [0%R; 1%R; 2%R; 3%R] (Some 1%R) (Some (StartList [row])) None None al be true.
Lemma idle_args n row al be : matrix_args 1 (idle n row al be).
Proof. constructor; cbn; auto using num_matrix. Qed.
Lemma idle_nudged H0 Hs dt u m s : 
  nudged 1 H0 Hs dt 4 u m (num (RtoC 0)) s = nudged 1 H0 Hs dt 4 u m (num (RtoC 0)) 0.
Proof.
  unfold nudged. cbv zeta. rewrite !num_scal. f_equal. f_equal. f_equal. f_equal. apply C_eq; cbn; ring.
Qed.
Lemma idle_run pen update row al be : length row = 4 -> updates (A := LAlg) (mid 1) 1 (idle 2 row al be) pen update ->
  (forall dt m x z, exists c, forall z', Re (pen dt m x z') = (Re z' + c)%R /\ c = (Re (pen dt m x z) - Re z)%R) ->
  exists res, grape_run (A := LAlg) (mid 1) update (idle 2 row al be) = Ok res /\
    exists v, nth_error (o_u res) 1 = Some v /\ forall m, m < 3 ->
      entry v 0 m = Some (nth m row 0 + Re (pen 1%R m (nth m row 0) (RtoC 0)))%R.
Proof.
  intros Lr HU Hpen.
  assert (E0 : first_pulse 1 4 None (Some (StartList [row])) = Ok [row]).
  { cbn. rewrite Lr. cbn. auto. }
  destruct (mat_total 1 plain_routines level_expm (idle 2 row al be) (idle_args _ _ _ _) pen update 1%R None [row] (1 - 0)%R HU eq_refl eq_refl E0 eq_refl (le_n 2)) as (res & E).
  exists res. split; auto.
  destruct (grape_spec 1 plain_routines level_expm (idle 2 row al be) (idle_args _ _ _ _) pen update res HU ltac:(lia) E)
    as (eps' & lim' & dt & He & (t0 & t1 & l & Et & Hdt) & El' & HR & HM & L & F & (u0' & N0 & E0') & HJ & Q).
  cbn [g_times idle] in Et. injection Et as <- <- <-. cbn in He. subst eps'. rewrite Rminus_0_r in Hdt. subst dt.
  injection El' as <-. change (first_pulse 1 4 None (Some (StartList [row])) = Ok u0') in E0'. rewrite E0 in E0'. injection E0' as <-.
  destruct (Q 0 ltac:(cbn; lia)) as (u & v & Eu & Ev & _ & Hv). rewrite N0 in Eu. injection Eu as <-.
  exists v. split; auto. intros m Hm.
  assert (Sv : shape 1 4 v) by (eapply Forall_forall in F; [exact F|]; eapply nth_error_In; eauto).
  destruct (Hv 0 ltac:(cbn; lia)) as (_ & Hv'). destruct (Hv' m (num (RtoC 0)) eq_refl Hm) as (z & Dz & Hz).
  rewrite (entry_at 1 4) by (auto; lia). f_equal. rewrite Hz. cbn [clip]. rewrite Rmult_1_l. change (at2 [row] 0 m) with (nth m row 0%R). f_equal.
  destruct (Hpen 1%R m (nth m row 0%R) z) as (c & Hc). destruct (Hc z) as (-> & _). destruct (Hc (RtoC 0)) as (-> & _).
  f_equal. cbn [Re fst RtoC].
  apply is_derive_unique in Dz. rewrite <- Dz. apply is_derive_unique.
  eapply is_derive_ext; [|apply (is_derive_const (K := R_AbsRing) (V := R_NormedModule))]. intros s. cbv beta. symmetry. refine (f_equal _ _). apply idle_nudged.
Qed.
Lemma cy_affine (g : gargs mat) : forall dt m x z, exists c, forall z', Re (cy_pen (A := LAlg) g dt m x z') = (Re z' + c)%R /\ c = (Re (cy_pen (A := LAlg) g dt m x z) - Re z)%R.
Proof. intros. eexists. intros z'. unfold cy_pen. rewrite !penal_cy_Re. split; [unfold Rminus; rewrite !Rplus_assoc; reflexivity|ring]. Qed.
